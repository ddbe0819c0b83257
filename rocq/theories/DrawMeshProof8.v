(* Labels are not on nodes; the wireframe of all cells; Draw::all. *)
From Coq Require Import String Reals QArith Qreals List Lia Lra Bool Arith ZArith Permutation Sorted.
From Verif Require Import Base BaseFacts Expr ExprProof ShapesData Kind MeshModel GraphModel MeshQuerySpec TopoModel TopoSpec TopoMaps TopoProof TopoFeat3 TopoFeat6 TopoFinal
  ShapesModel ShapesSpec ShapesProof ShapesShared GeomModel GeomProof PadModel PadSpec PadProof PadProof2 PadProof3 PadProof4 GaussSpec SearchProof
  NormalModel NormalSpec NormalProof TriSurfModel TriSurfSpec DrawModel DrawSpec DrawProof DrawProof2 DrawProof3 DrawProof4 DrawMeshModel DrawMeshSpec
  DrawMeshProof DrawMeshProof2 DrawMeshProof3 DrawMeshProof4 DrawMeshProof5 DrawMeshProof6 DrawMeshProof7.
From Verif Require TriSurfProof2.
Import ListNotations.
Local Open Scope list_scope.
Local Open Scope R_scope.

(** the label of an affine cell is not on a node *)
Definition weightQ (k : geokind) (a : nat) : Q :=
  match k with
  | Qua9 | Qua17 => match a with 0%nat => 3 # 4 | 2%nat => 1 # 4 | _ => 0 end
  | Tri10 => match a with 0%nat | 9%nat => 1 # 2 | _ => 0 end
  | _ => 1 # Pos.of_nat (kind_nnode k)
  end.
Lemma weight_Q2R k a : Q2R (weightQ k a) = label_weight k a.
Proof.
  destruct k; cbn [weightQ label_weight]; try (unfold Q2R; cbn [Qnum Qden]; match goal with |- context [kind_nnode ?k] => let n := eval vm_compute in (kind_nnode k) in change (kind_nnode k) with n end;
    cbn [INR Pos.of_nat Pos.succ]; lra); do 10 (destruct a as [|a]; [unfold Q2R; cbn; lra|]); unfold Q2R; cbn; lra.
Qed.
Definition sumQ (n : nat) (f : nat -> Q) : Q := fold_right (fun i a => Qred (f i + a)) 0%Q (seq 0 n).
Lemma sumQ_R n f : Q2R (sumQ n f) = sum_n n (fun i => Q2R (f i)).
Proof.
  unfold sumQ, sum_n. generalize (seq 0 n) as l. induction l as [|x l IH]; cbn [fold_right map sum]; [unfold Q2R; cbn; lra|].
  rewrite (Qeq_eqR _ _ (Qred_correct _)), Q2R_plus, IH. reflexivity.
Qed.
Definition middleQ (k : geokind) (j : nat) : Q := sumQ (kind_nnode k) (fun a => weightQ k a * nth j (reference_coords k a) 0)%Q.
Lemma off_check k : (2 <=? kind_ndim k)%nat = true ->
  forallb (fun n => existsb (fun j => negb (Qeq_bool (middleQ k j) (nth j (reference_coords k n) 0%Q))) (seq 0 (kind_ndim k))) (seq 0 (kind_nnode k)) = true.
Proof. destruct k; vm_compute; auto; discriminate. Qed.

Lemma sum_n_plus n f g : sum_n n (fun i => f i + g i) = sum_n n f + sum_n n g.
Proof. unfold sum_n. generalize (seq 0 n) as l. induction l as [|x l IH]; cbn [map sum]; [ring|]. rewrite IH. ring. Qed.
Lemma sum_n_swap n d (f : nat -> nat -> R) : sum_n n (fun a => sum_n d (f a)) = sum_n d (fun j => sum_n n (fun a => f a j)).
Proof.
  unfold sum_n. generalize (seq 0 n) as l, (seq 0 d) as l'. induction l as [|x l IH]; intros l'; cbn [map sum].
  - induction l' as [|y l' IH']; cbn [map sum]; [reflexivity|]. rewrite <- IH'. ring.
  - rewrite IH. clear. induction l' as [|y l' IH']; cbn [map sum]; [ring|]. rewrite <- IH'. ring.
Qed.
Lemma ref_nth k a j : nth j (ref_coords k a) 0 = Q2R (nth j (reference_coords k a) 0%Q).
Proof. unfold ref_coords. rewrite <- (map_nth Q2R). f_equal. unfold Q2R. cbn. lra. Qed.

Lemma label_off_nodes p a b x : (2 <= kind_ndim (p_kind p))%nat -> affine_pad p a b -> injective (p_space p) (kind_ndim (p_kind p)) a ->
  combined p (label_weight (p_kind p)) x -> forall n, (n < kind_nnode (p_kind p))%nat -> exists i, (i < p_space p)%nat /\ nth i x 0 <> node_x p i n.
Proof.
  intros D A I (_ & X) n Hn. set (k := p_kind p) in *.
  destruct (existsb (fun i => negb (if Req_EM_T (nth i x 0) (node_x p i n) then true else false)) (seq 0 (p_space p))) eqn:E.
  - apply existsb_exists in E as (i & Hi & Ne). apply in_seq in Hi. exists i. split; [lia|]. destruct (Req_EM_T (nth i x 0) (node_x p i n)); [discriminate|auto].
  - exfalso. assert (Eq : forall i, (i < p_space p)%nat -> nth i x 0 = node_x p i n).
    { intros i Hi. destruct (Req_EM_T (nth i x 0) (node_x p i n)) as [Hq|Hq]; auto. exfalso.
      assert (T : existsb (fun i => negb (if Req_EM_T (nth i x 0) (node_x p i n) then true else false)) (seq 0 (p_space p)) = true).
      { apply existsb_exists. exists i. split; [apply in_seq; lia|]. destruct (Req_EM_T (nth i x 0) (node_x p i n)); [contradiction|reflexivity]. }
      congruence. }
    clear E. pose proof (off_check k (proj2 (Nat.leb_le _ _) D)) as Ck. rewrite forallb_forall in Ck. specialize (Ck n). rewrite in_seq in Ck.
    specialize (Ck ltac:(lia)). apply existsb_exists in Ck as (j & Hj & Nj). apply in_seq in Hj. apply negb_true_iff in Nj.
    destruct (label_weight_convex k) as (_ & W1).
    assert (Z : Q2R (middleQ k j) - nth j (ref_coords k n) 0 = 0).
    { apply (I (fun j => Q2R (middleQ k j) - nth j (ref_coords k n) 0)); [|fold k; lia]. intros i Hi. fold k.
      assert (E1 : nth i x 0 = b i + sum_n (kind_ndim k) (fun j => a i j * Q2R (middleQ k j))).
      { rewrite X by auto. fold k.
        rewrite (sum_n_ext _ _ (fun m => b i * label_weight k m + sum_n (kind_ndim k) (fun j => a i j * (label_weight k m * nth j (ref_coords k m) 0)))).
        - rewrite sum_n_plus, sum_n_scal, W1, sum_n_swap. f_equal; [ring|]. apply sum_n_ext. intros j' Hj'. rewrite sum_n_scal. f_equal.
          unfold middleQ. rewrite sumQ_R. apply sum_n_ext. intros m' Hm. now rewrite Q2R_mult, weight_Q2R, ref_nth.
        - intros m' Hm. rewrite A by auto. fold k. rewrite Rmult_plus_distr_l, <- sum_n_scal. f_equal; [ring|]. apply sum_n_ext. intros; ring. }
      pose proof (A i n Hi Hn) as E2. fold k in E2. rewrite <- Eq in E2 by auto. rewrite E1 in E2.
      rewrite (sum_n_ext _ _ (fun j => a i j * Q2R (middleQ k j) + -1 * (a i j * nth j (ref_coords k n) 0))) by (intros; ring).
      rewrite sum_n_plus, sum_n_scal. lra. }
    rewrite ref_nth in Z. assert (Qeq (middleQ k j) (nth j (reference_coords k n) 0%Q)) by (apply eqR_Qeq; lra).
    apply Qeq_bool_iff in H. congruence.
Qed.

(** all cells *)
Definition is_line (cl : cell) : bool := (kind_ndim (c_kind cl) =? 1)%nat.
Lemma one_cell_draws m c cl : consistent m -> coords_complete m -> (ndim m = 2 \/ ndim m = 3)%nat -> nth_error (cells m) c = Some cl ->
  (kind_ndim (c_kind cl) <= ndim m)%nat -> exists cmds paths, (forall cv, draw_cell m cv c = Ok (cv ++ cmds)) /\ draws cmds paths.
Proof.
  intros C K Dm E Dk. assert (N : (kind_ndim (c_kind cl) = 1 \/ kind_ndim (c_kind cl) = 2 \/ kind_ndim (c_kind cl) = 3)%nat) by (destruct (c_kind cl); cbv; auto).
  destruct Dm as [D|D], N as [N|[N|N]]; try (exfalso; lia).
  - destruct (line_plane m c cl C K E D N) as (p & cmds & s & _ & _ & A & B & _). eauto.
  - destruct (cell_plane m c cl C K E D N) as (p & cmds & s & _ & _ & A & B & _). eauto.
  - destruct (line_space m c cl C K E D N) as (p & cmds & s & _ & _ & A & B & _). eauto.
  - destruct (shell_space m c cl C K E D N) as (p & cmds & s & _ & _ & A & B & _). eauto.
  - destruct (solid_space m c cl C K E D N) as (p & cmds & s & _ & _ & A & B & _). eauto.
Qed.

Lemma all_cells m : consistent m -> coords_complete m -> (ndim m = 2 \/ ndim m = 3)%nat -> (forall cl, In cl (cells m) -> (kind_ndim (c_kind cl) <= ndim m)%nat) ->
  exists wire lines tri pss, draw_cells m = Ok (wire, lines, tri) /\
    Forall2 (fun cl ps => exists cmds, (forall cv, draw_cell m cv (c_id cl) = Ok (cv ++ cmds)) /\ draws cmds ps) (cells m) pss /\
    draws wire (concat (map snd (filter (fun x => negb (is_line (fst x))) (combine (cells m) pss)))) /\
    draws lines (concat (map snd (filter (fun x => is_line (fst x)) (combine (cells m) pss)))) /\
    match tri with
    | None => ndim m = 2%nat \/ forall cl, In cl (cells m) -> kind_ndim (c_kind cl) <> 2%nat
    | Some tr => ndim m = 3%nat /\ exists lab, triangulates m (map (fun cl => (c_kind cl, c_points cl)) (filter (fun cl => (kind_ndim (c_kind cl) =? 2)%nat) (cells m))) tr lab
    end.
Proof.
  intros C K Dm Dk. unfold draw_cells.
  assert (G : forall l wire lines, (forall cl, In cl l -> In cl (cells m)) ->
    exists w2 l2 pss, foldM (fun (st : canvas * canvas) c => let! cl := get (cells m) c in
        if (kind_ndim (c_kind cl) =? 1)%nat then let! cv := draw_cell m (snd st) c in Ok (fst st, cv) else let! cv := draw_cell m (fst st) c in Ok (cv, snd st))
      (map c_id l) (wire, lines) = Ok (wire ++ w2, lines ++ l2) /\
    Forall2 (fun cl ps => exists cmds, (forall cv, draw_cell m cv (c_id cl) = Ok (cv ++ cmds)) /\ draws cmds ps) l pss /\
    draws w2 (concat (map snd (filter (fun x => negb (is_line (fst x))) (combine l pss)))) /\
    draws l2 (concat (map snd (filter (fun x => is_line (fst x)) (combine l pss))))).
  { induction l as [|cl l IH]; intros wire lines H.
    - exists [], [], []. cbn. rewrite !app_nil_r. repeat split; constructor.
    - pose proof (H cl (or_introl eq_refl)) as Hc. pose proof (cell_by_id m cl C Hc) as Hn.
      destruct (one_cell_draws m (c_id cl) cl C K Dm Hn (Dk cl Hc)) as (cmds & ps & A & B). cbn [map foldM]. unfold get at 1. rewrite Hn. cbn [bind fst snd].
      destruct (kind_ndim (c_kind cl) =? 1)%nat eqn:El; rewrite A; cbn [bind].
      + destruct (IH wire (lines ++ cmds) (fun x Hx => H x (or_intror Hx))) as (w2 & l2 & pss & E & F & W & L). exists w2, (cmds ++ l2), (ps :: pss).
        split; [rewrite app_assoc; exact E|]. split; [constructor; eauto|]. cbn [combine filter fst]. change (is_line cl) with (kind_ndim (c_kind cl) =? 1)%nat. rewrite El. cbn [negb map snd concat].
        split; [first [exact W|apply (draws_app _ _ B _ _ W)]|first [exact L|apply (draws_app _ _ B _ _ L)]].
      + destruct (IH (wire ++ cmds) lines (fun x Hx => H x (or_intror Hx))) as (w2 & l2 & pss & E & F & W & L). exists (cmds ++ w2), l2, (ps :: pss).
        split; [rewrite app_assoc; exact E|]. split; [constructor; eauto|]. cbn [combine filter fst]. change (is_line cl) with (kind_ndim (c_kind cl) =? 1)%nat. rewrite El. cbn [negb map snd concat].
        split; [first [exact W|apply (draws_app _ _ B _ _ W)]|first [exact L|apply (draws_app _ _ B _ _ L)]]. }
  assert (Es : seq 0 (List.length (cells m)) = map c_id (cells m)).
  { apply (nth_ext _ _ 0%nat 0%nat); [now rewrite map_length, seq_length|]. intros i Hi. rewrite seq_length in Hi. rewrite seq_nth by auto.
    destruct (nth_error (cells m) i) as [cl|] eqn:E; [|apply nth_error_None in E; lia].
    rewrite (nth_error_nth (map c_id (cells m)) i 0%nat (map_nth_error c_id i (cells m) E)). symmetry. apply (proj2 C i cl E). }
  rewrite Es. destruct (G (cells m) [] [] (fun _ H => H)) as (w2 & l2 & pss & E & F & W & L).
  match goal with |- context [foldM ?a0 ?b0 ?c0] => replace (foldM a0 b0 c0) with (Ok (w2, l2)) by (symmetry; exact E) end. cbn [bind fst snd].
  set (shells := filter _ (cells m)).
  assert (Sh3 : ndim m = 3%nat -> shells = filter (fun cl => (kind_ndim (c_kind cl) =? 2)%nat) (cells m)).
  { intros D. unfold shells. rewrite D. cbn [Nat.eqb andb]. apply filter_ext. intros cl. destruct (c_kind cl); reflexivity. }
  assert (Sh2 : ndim m = 2%nat -> shells = []).
  { intros D. unfold shells. rewrite D. cbn [Nat.eqb andb]. clear. induction (cells m); auto. }
  destruct shells as [|cl sl] eqn:Esh.
  - exists w2, l2, None, pss. do 4 (split; [auto|]). destruct Dm as [D|D]; [now left|right]. intros cl Hc N.
    assert (X : In cl (filter (fun cl => (kind_ndim (c_kind cl) =? 2)%nat) (cells m))) by (apply filter_In; split; auto; now apply Nat.eqb_eq). rewrite <- (Sh3 D) in X. destruct X.
  - assert (D : ndim m = 3%nat) by (destruct Dm as [D|D]; auto; specialize (Sh2 D); discriminate). rewrite <- Esh. rewrite <- Esh in Sh3. rewrite (Sh3 D).
    destruct (TriSurfProof2.from_surface_ok m (map (fun cl => (c_kind cl, c_points cl)) (filter (fun cl => (kind_ndim (c_kind cl) =? 2)%nat) (cells m)))) as (tr & Et & T).
    { split; [auto|]. split; [auto|]. intros k pts H _. apply in_map_iff in H as (c & [= <- <-] & H). apply filter_In in H as (H & _).
      destruct (proj2 C _ _ (cell_by_id m c C H)) as (_ & Lc & Rc). auto. }
    rewrite Et. cbn [bind]. exists w2, l2, (Some tr), pss. do 4 (split; [auto|]). split; eauto.
Qed.

(** Draw::all draws whatever is asked for *)
Lemma all_drawn shuffle sh2 sh3 sh3' big mn mm tol fl m : (forall l, Permutation (shuffle l) l) -> (forall l, Permutation (sh2 l) l) -> (forall l, Permutation (sh3 l) l) -> (forall l, Permutation (sh3' l) l) ->
  consistent m -> coords_complete m -> (ndim m = 2 \/ ndim m = 3)%nat -> (forall cl, In cl (cells m) -> (kind_ndim (c_kind cl) <= ndim m)%nat) -> 0 < tol ->
  (ndim m = 3%nat -> forall mk p q, In (mk, p, q) (marked_edges m) -> (p < List.length (points m))%nat /\ (q < List.length (points m))%nat) ->
  exists pc ft, draw_all shuffle sh2 sh3 sh3' big mn mm tol fl m = Ok pc /\ features_new Rleb shuffle m false = Ok ft /\
    when (sh_cells fl) (draw_cells m) = Ok (pc_cells pc) /\ when (sh_cell_ids fl) (cell_ids (sh_cell_marker fl) m) = Ok (pc_cell_ids pc) /\
    when (sh_points fl) (point_dots m) = Ok (pc_points pc) /\ when (sh_point_ids fl) (point_ids (sh_point_marker fl) m) = Ok (pc_point_ids pc) /\
    when (sh_edge_markers fl) (edge_markers big mm tol m ft) = Ok (pc_edge_markers pc) /\ when (sh_face_markers fl) (face_markers big mm m ft) = Ok (pc_face_markers pc) /\
    when (sh_normals fl) (normal_vectors sh2 sh3 big mn m ft) = Ok (pc_normals pc) /\ when (sh_boundary_faces fl) (draw_boundary_faces sh3' m ft) = Ok (pc_faces pc) /\
    when (sh_boundary_edges fl) (DrawMeshModel.boundary_edges_3d m ft) = Ok (pc_edges pc).
Proof.
  intros Sh S2 S3 S3' C K Dm Dk T Rg.
  assert (Wh : forall A b (r : res A), (exists x, r = Ok x) -> exists y, when b r = Ok y).
  { intros A b r (x & ->). unfold when. destruct b; cbn [bind]; eauto. }
  destruct (new_total Rleb shuffle Sh m false C K Dm) as (ft & F).
  destruct (Wh _ (sh_cells fl) (draw_cells m)) as (a & Ea). { destruct (all_cells m C K Dm Dk) as (? & ? & ? & ? & E & _). eauto. }
  destruct (Wh _ (sh_cell_ids fl) (cell_ids (sh_cell_marker fl) m)) as (b & Eb). { destruct (cell_ids_ok (sh_cell_marker fl) m C K Dm) as (? & E & _). eauto. }
  destruct (point_ids_ok (sh_point_marker fl) m K Dm) as (Ed & ls & Els & _).
  destruct (Wh _ (sh_points fl) (point_dots m)) as (c & Ec). { eauto. }
  destruct (Wh _ (sh_point_ids fl) (point_ids (sh_point_marker fl) m)) as (d & Ed'). { eauto. }
  destruct (Wh _ (sh_edge_markers fl) (edge_markers big mm tol m ft)) as (e & Ee).
  { destruct Dm as [D|D]; [destruct (edge_labels_plane shuffle Sh big mm tol m false ft C K D T F) as (? & ? & ? & E & _)|destruct (edge_labels_space big mm tol m ft K D (Rg D)) as (? & E & _)]; eauto. }
  destruct (Wh _ (sh_face_markers fl) (face_markers big mm m ft)) as (f & Ef).
  { destruct Dm as [D|D]; [unfold face_markers; rewrite D; cbn [Nat.eqb]; eauto|destruct (face_labels shuffle Sh big mm m false ft C K D F) as (? & ? & ? & E & _); eauto]. }
  destruct (Wh _ (sh_normals fl) (normal_vectors sh2 sh3 big mn m ft)) as (g & Eg).
  { destruct Dm as [D|D]; [destruct (normals_2d Rleb shuffle Sh sh2 sh3 big mn m false ft S2 C K D F) as (? & ? & E & _)|destruct (normals_3d Rleb shuffle sh2 sh3 big mn m false ft S3 C K D F) as (? & ? & ? & E & _)]; eauto. }
  destruct (Wh _ (sh_boundary_faces fl) (draw_boundary_faces sh3' m ft)) as (h & Eh).
  { destruct Dm as [D|D]; [unfold draw_boundary_faces; rewrite D; cbn [Nat.eqb negb]; eauto|destruct (boundary_surface Rleb shuffle sh3' m false ft S3' C K D F) as (? & ? & ? & ? & E & _); eauto]. }
  destruct (Wh _ (sh_boundary_edges fl) (DrawMeshModel.boundary_edges_3d m ft)) as (i & Ei).
  { destruct Dm as [D|D]; [unfold DrawMeshModel.boundary_edges_3d; rewrite D; cbn [Nat.eqb negb]; eauto|destruct (boundary_lines Rleb shuffle m false ft C K D F) as (? & ? & E & _); eauto]. }
  exists (mkPicture a b c d e f g h i), ft. cbn [pc_cells pc_cell_ids pc_points pc_point_ids pc_edge_markers pc_face_markers pc_normals pc_faces pc_edges].
  split; [|auto 15]. unfold draw_all. rewrite Ea. cbn [bind]. rewrite Eb. cbn [bind]. rewrite Ec. cbn [bind]. rewrite Ed'. cbn [bind].
  destruct (sh_edge_markers fl || sh_face_markers fl || sh_normals fl || sh_boundary_edges fl || sh_boundary_faces fl) eqn:Ex.
  - rewrite F. cbn [bind]. rewrite Ee. cbn [bind]. rewrite Ef. cbn [bind]. rewrite Eg. cbn [bind]. rewrite Eh. cbn [bind]. rewrite Ei. reflexivity.
  - rewrite !orb_false_iff in Ex. destruct Ex as ((((X1 & X2) & X3) & X4) & X5). rewrite X1 in Ee. rewrite X2 in Ef. rewrite X3 in Eg. rewrite X4 in Ei. rewrite X5 in Eh.
    cbn [when] in Ee, Ef, Eg, Eh, Ei. congruence.
Qed.
