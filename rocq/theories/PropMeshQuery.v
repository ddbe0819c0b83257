(* C29, C30, C55: consistency check and simple queries of a mesh *)
From Coq Require Import String List Arith Bool ZArith QArith Lia Lqa Permutation Sorted.
From Verif Require Import Base BaseFacts Kind MeshModel MeshQueryModel MeshQuerySpec MeshQueryProof.
Import ListNotations.
Open Scope nat_scope.

(* a unit square split into two triangles with a cable on the diagonal; marker 7 on points 1 and 3 *)
Definition sq_pt (i : nat) (mk : Z) (x y : Q) : point Q := mkPoint i mk [x; y].
Definition sq : mesh Q :=
  mkMesh 2
    [sq_pt 0 0 0 0; sq_pt 1 7 1 0; sq_pt 2 0 1 1; sq_pt 3 7 0 1]
    [mkCell 0 1 Tri3 [0; 1; 2]; mkCell 1 1 Tri3 [0; 2; 3]; mkCell 2 5 Lin2 [0; 2]] [] [].
Lemma sq_consistent : consistent sq.
Proof. apply check_iff. reflexivity. Qed.
Lemma sq_complete : coords_complete sq.
Proof. intros p H. simpl in H. repeat (destruct H as [<-|H]; [reflexivity|]). destruct H. Qed.

Theorem C29_check_ids_and_kind : forall (T : Type) (m : mesh T), check_ids_and_kind m = Ok tt <-> consistent m.
Proof. exact @check_iff. Qed.
Print Assumptions C29_check_ids_and_kind.
Example C29_ex : check_ids_and_kind sq = Ok tt /\
  check_ids_and_kind (mkMesh 2 (points sq) [mkCell 0 1 Tri3 [0; 1; 4]] [] [])
  = Err "the id of a point specified in the points list of a cell is out of bounds".
Proof. vm_compute. auto. Qed.

(* the check never panics *)
Theorem C29_check_total : forall (T : Type) (m : mesh T),
  check_ids_and_kind m = Ok tt \/ exists e, check_ids_and_kind m = Err e.
Proof. exact @check_result. Qed.
Print Assumptions C29_check_total.

(* a checked mesh whose points have ndim coordinates can be read cell by cell without panic *)
Theorem C29_checked_cells_are_readable : forall (T : Type) (m : mesh T) c,
  check_ids_and_kind m = Ok tt -> coords_complete m -> In c (cells m) ->
  exists rows, set_pad m (c_kind c) (c_points c) = Ok rows /\ List.length rows = kind_nnode (c_kind c) /\
  forall a p pt, nth_error (c_points c) a = Some p -> nth_error (points m) p = Some pt ->
    nth_error rows a = Some (pt_coords pt).
Proof. intros T m c H. apply set_pad_ok. now apply check_iff. Qed.
Print Assumptions C29_checked_cells_are_readable.
Example C29_readable_ex : set_pad sq Tri3 [0; 2; 3] = Ok [[0; 0]; [1; 1]; [0; 1]]%Q /\ coords_complete sq.
Proof. split; [vm_compute; reflexivity|apply sq_complete]. Qed.

(* the number of coordinates is not checked *)
Theorem C29_coordinates_checked_refuted : exists (m : mesh Q) c,
  check_ids_and_kind m = Ok tt /\ In c (cells m) /\ set_pad m (c_kind c) (c_points c) = Panic.
Proof.
  exists (mkMesh 2 [mkPoint 0 0%Z [0%Q; 0%Q]; mkPoint 1 0%Z [1%Q]] [mkCell 0 1%Z Lin2 [0; 1]] [] []),
         (mkCell 0 1%Z Lin2 [0; 1]).
  split; [reflexivity|]. split; [simpl; auto|reflexivity].
Qed.
Print Assumptions C29_coordinates_checked_refuted.

(* new_zero_homogeneous succeeds exactly for meaningful arguments and passes the check *)
Theorem C29_new_zero_homogeneous : forall nd np nc k,
  match new_zero_homogeneous nd np nc k with
  | Ok m => (nd = 2 \/ nd = 3) /\ 2 <= np /\ 1 <= nc /\ kind_ndim k <= nd /\
            ndim m = nd /\ List.length (points m) = np /\ List.length (cells m) = nc /\
            consistent m /\ coords_complete m /\ (forall c, In c (cells m) -> c_kind c = k)
  | Err _ => ~ ((nd = 2 \/ nd = 3) /\ 2 <= np /\ 1 <= nc /\ kind_ndim k <= nd)
  | _ => False
  end.
Proof. exact new_zero_spec. Qed.
Print Assumptions C29_new_zero_homogeneous.
Example C29_new_zero_ex : is_ok (new_zero_homogeneous 3 4 2 Qua4) = true /\
  is_ok (new_zero_homogeneous 2 4 2 Tet4) = false.
Proof. vm_compute. auto. Qed.

(* marked points *)
Theorem C30_marked_points : forall (T : Type) (m : mesh T) marker f ids,
  search_marked_points m marker f = Ok ids ->
  StronglySorted le ids /\ (forall i, In i ids <-> exists p, marked m marker f p /\ pt_id p = i) /\
  (consistent m -> NoDup ids).
Proof. exact @marked_points_ok. Qed.
Print Assumptions C30_marked_points.
Theorem C30_no_marked_points : forall (T : Type) (m : mesh T) marker f,
  (forall p, ~ marked m marker f p) <->
  search_marked_points m marker f = Err "cannot find at least one point with the given mark (and filter)".
Proof. exact @marked_points_err. Qed.
Print Assumptions C30_no_marked_points.
Lemma marked_points_total {T} (m : mesh T) marker f : (exists p, marked m marker f p) ->
  exists ids, search_marked_points m marker f = Ok ids.
Proof.
  intros (p & Hp). destruct (search_marked_spec m marker f) as [(ids & H & _)|(H & _)]; eauto.
  now destruct (proj2 (marked_points_err m marker f) H p).
Qed.
Theorem C30_some_marked_points : forall (T : Type) (m : mesh T) marker f,
  (exists p, marked m marker f p) -> exists ids, search_marked_points m marker f = Ok ids.
Proof. exact @marked_points_total. Qed.
Print Assumptions C30_some_marked_points.
Example C30_ex : search_marked_points sq 7 (fun _ => true) = Ok [1; 3] /\
  search_marked_points sq 7 (fun x => match x with [a; _] => Qle_bool a (1#2) | _ => false end) = Ok [3] /\
  is_ok (search_marked_points sq 8 (fun _ => true)) = false /\ consistent sq.
Proof. do 3 (split; [vm_compute; reflexivity|]). apply sq_consistent. Qed.

Theorem C30_first_marked_point : forall (T : Type) (m : mesh T) marker f,
  (exists i p, search_first_marked_point m marker f = Ok (pt_id p) /\ nth_error (points m) i = Some p /\
     marked m marker f p /\ forall j q, j < i -> nth_error (points m) j = Some q -> ~ marked m marker f q) \/
  (search_first_marked_point m marker f = Err "cannot find at least one point with the given mark (and filter)" /\
   forall p, ~ marked m marker f p).
Proof. exact @first_marked_spec. Qed.
Print Assumptions C30_first_marked_point.
Theorem C30_first_is_smallest : forall (T : Type) (m : mesh T) marker f i ids, consistent m ->
  search_first_marked_point m marker f = Ok i -> search_marked_points m marker f = Ok ids ->
  In i ids /\ forall j, In j ids -> i <= j.
Proof. exact @first_is_head. Qed.
Print Assumptions C30_first_is_smallest.
Example C30_first_ex : search_first_marked_point sq 7 (fun _ => true) = Ok 1 /\
  search_first_marked_point sq 7 (fun x => match x with [a; _] => Qle_bool a (1#2) | _ => false end) = Ok 3.
Proof. vm_compute. auto. Qed.

(* points sorted by z, y, x *)
Theorem C30_sorted_points : forall argsort3 argsort2, argsort3_spec argsort3 -> argsort2_spec argsort2 ->
  forall (m : mesh Q) keep ids, coords_complete m -> (ndim m = 2 \/ ndim m = 3) ->
  (forall i, In i ids -> i < List.length (points m)) ->
  exists out, get_sorted_points 0%Q argsort3 argsort2 m ids keep = Ok out /\
  Permutation out (filter (fun id => keep (px m 0 id) (px m 1 id) (pz m id)) ids) /\
  StronglySorted (fun a b => lex3 (pz m a, px m 1 a, px m 0 a) (pz m b, px m 1 b, px m 0 b)) out.
Proof. exact get_sorted_spec. Qed.
Print Assumptions C30_sorted_points.

(* an argsort with the assumed properties *)
Definition lexb (a b : Q * Q * Q) : bool :=
  match (fst (fst a) ?= fst (fst b))%Q with
  | Lt => true | Gt => false
  | Eq => match (snd (fst a) ?= snd (fst b))%Q with
          | Lt => true | Gt => false
          | Eq => Qle_bool (snd a) (snd b)
          end
  end.
Lemma lexb_iff a b : lexb a b = true <-> lex3 a b.
Proof.
  unfold lexb, lex3, lex2. destruct a as [[a1 a2] a3], b as [[b1 b2] b3]. cbn [fst snd].
  destruct (Qcompare_spec a1 b1).
  - destruct (Qcompare_spec a2 b2).
    + rewrite Qle_bool_iff. intuition lra.
    + intuition lra.
    + split; [discriminate|]. intuition lra.
  - intuition lra.
  - split; [discriminate|]. intuition lra.
Qed.
Definition key3 (zz yy xx : list Q) (i : nat) : Q * Q * Q := (nth i zz 0, nth i yy 0, nth i xx 0)%Q.
Definition sort_by (key : nat -> Q * Q * Q) (n : nat) : list nat := isort (fun i j => lexb (key i) (key j)) (seq 0 n).
Lemma sort_by_sorted key n : StronglySorted (fun i j => lex3 (key i) (key j)) (sort_by key n).
Proof.
  unfold sort_by.
  assert (S : StronglySorted (fun i j => lexb (key i) (key j) = true) (isort (fun i j => lexb (key i) (key j)) (seq 0 n))).
  { apply (isort_sorted (fun i j => lexb (key i) (key j))).
    - intros a b. rewrite !lexb_iff. unfold lex3, lex2. cbn [fst snd].
      destruct (key a) as [[a1 a2] a3], (key b) as [[b1 b2] b3]. cbn [fst snd].
      destruct (Q_dec a1 b1) as [[|]|], (Q_dec a2 b2) as [[|]|], (Qlt_le_dec a3 b3); intuition lra.
    - intros a b c. rewrite !lexb_iff. unfold lex3, lex2.
      destruct (key a) as [[a1 a2] a3], (key b) as [[b1 b2] b3], (key c) as [[c1 c2] c3]. cbn [fst snd].
      intuition lra. }
  rewrite <- (map_id (isort _ _)). eapply sorted_map; [|exact S]. intros a b _ _ H. now apply lexb_iff.
Qed.
Definition ex_argsort3 zz yy xx := sort_by (key3 zz yy xx) (List.length xx).
Definition ex_argsort2 yy xx := sort_by (key3 [] yy xx) (List.length xx).
Lemma ex_argsort3_ok : argsort3_spec ex_argsort3.
Proof.
  intros zz yy xx n _ _ Lx. unfold ex_argsort3. rewrite Lx. split; [apply isort_perm|]. apply (sort_by_sorted (key3 zz yy xx)).
Qed.
Lemma ex_argsort2_ok : argsort2_spec ex_argsort2.
Proof.
  intros yy xx n _ Lx. unfold ex_argsort2. rewrite Lx. split; [apply isort_perm|].
  rewrite <- (map_id (sort_by _ _)). eapply sorted_map; [|apply (sort_by_sorted (key3 [] yy xx))].
  intros a b _ _ H. unfold lex3, key3 in H. cbn [fst snd] in H.
  assert (Z : forall i, nth i (@nil Q) 0%Q = 0%Q) by (intros [|i]; reflexivity).
  rewrite !Z in H. destruct H as [H|[_ H]]; [lra|exact H].
Qed.
Example C30_sorted_ex : argsort3_spec ex_argsort3 /\ argsort2_spec ex_argsort2 /\
  get_sorted_points 0%Q ex_argsort3 ex_argsort2 sq [3; 2; 1; 0] (fun _ _ _ => true) = Ok [0; 1; 3; 2].
Proof. split; [apply ex_argsort3_ok|split; [apply ex_argsort2_ok|vm_compute; reflexivity]]. Qed.

(* limits and bounding boxes *)
Theorem C55_limits : forall m : mesh Q, coords_complete m -> points m <> [] ->
  exists lim, get_limits m = Ok lim /\ bounds (ndim m) (map pt_coords (points m)) lim.
Proof. exact get_limits_spec. Qed.
Print Assumptions C55_limits.
Theorem C55_cell_bounding_box : forall (m : mesh Q) i c,
  consistent m -> coords_complete m -> nth_error (cells m) i = Some c -> c_points c <> [] ->
  exists lim, get_cell_bounding_box m i = Ok lim /\
  bounds (ndim m) (map (fun p => pt_coords (nth p (points m) (mkPoint 0 0%Z []))) (c_points c)) lim.
Proof. exact bounding_box_spec. Qed.
Print Assumptions C55_cell_bounding_box.
Example C55_ex : get_limits sq = Ok ([Some 0; Some 0], [Some 1; Some 1])%Q /\
  get_cell_bounding_box sq 2 = Ok ([Some 0; Some 0], [Some 1; Some 1])%Q /\ consistent sq /\ coords_complete sq.
Proof. do 2 (split; [vm_compute; reflexivity|]). split; [apply sq_consistent|apply sq_complete]. Qed.
