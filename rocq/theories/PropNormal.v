(* Properties C86 and C87: checks of normal vectors; the normal vectors of boundaries point outwards. *)
From Coq Require Import String Reals QArith Qreals List Lia Lra Bool Arith ZArith Permutation.
From Verif Require Import Base BaseFacts Expr ShapesData Kind MeshModel GraphModel MeshQuerySpec TopoModel TopoSpec TopoProof TopoFeat3 TopoFinal
  ShapesModel ShapesSpec ShapesProof ShapesShared GeomModel GeomProof PadModel PadSpec PadProof PadProof2 PadProof3 PadProof4 GaussSpec
  NormalModel NormalSpec NormalProof NormalProof2 NormalProof3 NormalProof4 NormalProof5.
Import ListNotations.
Local Open Scope string_scope.
Local Open Scope list_scope.
Local Open Scope R_scope.

(** C86: the checks accept exactly the maps whose edges (faces) exist and whose magnitudes and unit normals are right *)
Theorem C86_edges : forall m edges sols tol, coords_complete m -> ndim m = 2%nat ->
  (forall k ed, mget ekey_eqb edges k = Some ed -> sound_side m (e_kind ed) (e_points ed)) ->
  (forall s, In s sols -> List.length (snd (snd s)) = 2%nat) ->
  check_2d_edge_normals m edges sols tol = Ok tt <->
  forall k mag un, In (k, (mag, un)) sols -> exists ed g u, mget ekey_eqb edges k = Some ed /\
    normal_of m (e_kind ed) (e_points ed) g u /\ near tol g mag /\ components_near 2 tol u un.
Proof.
  intros m edges sols tol K D Sd L.
  pose proof (fun s H => one_ok m K ekey edge (mget ekey_eqb edges) e_kind e_points tol "cannot find edge_key in edges map"
    "wrong 2d edge unit normal vector found" [0; 0] (or_introl D) ltac:(rewrite D; reflexivity) Sd s H) as O.
  unfold agrees in O. rewrite D in O.
  transitivity (forall s, In s sols -> one m ekey edge (mget ekey_eqb edges) e_kind e_points tol "cannot find edge_key in edges map" "wrong 2d edge unit normal vector found" [0; 0] s = Ok tt).
  - apply loop_ok.
  - split.
    + intros H k mag un I. specialize (H _ I). apply O in H; [exact H|]. apply (L _ I).
    + intros H [k [mag un]] I. apply O; [apply (L _ I)|]. exact (H k mag un I).
Qed.
Print Assumptions C86_edges.

Theorem C86_faces : forall m faces sols tol, coords_complete m -> ndim m = 3%nat ->
  (forall k fc, mget fkey_eqb faces k = Some fc -> sound_side m (f_kind fc) (f_points fc)) ->
  (forall s, In s sols -> List.length (snd (snd s)) = 3%nat) ->
  check_face_normals m faces sols tol = Ok tt <->
  forall k mag un, In (k, (mag, un)) sols -> exists fc g u, mget fkey_eqb faces k = Some fc /\
    normal_of m (f_kind fc) (f_points fc) g u /\ near tol g mag /\ components_near 3 tol u un.
Proof.
  intros m faces sols tol K D Sd L.
  pose proof (fun s H => one_ok m K fkey face (mget fkey_eqb faces) f_kind f_points tol "cannot find face_key in faces map"
    "wrong face unit normal vector found" [0; 0; 0] (or_intror D) ltac:(rewrite D; reflexivity) Sd s H) as O.
  unfold agrees in O. rewrite D in O.
  transitivity (forall s, In s sols -> one m fkey face (mget fkey_eqb faces) f_kind f_points tol "cannot find face_key in faces map" "wrong face unit normal vector found" [0; 0; 0] s = Ok tt).
  - apply loop_ok.
  - split.
    + intros H k mag un I. specialize (H _ I). apply O in H; [exact H|]. apply (L _ I).
    + intros H [k [mag un]] I. apply O; [apply (L _ I)|]. exact (H k mag un I).
Qed.
Print Assumptions C86_faces.

(** the first entry (in the order of iteration) that is wrong decides: an unknown key and a wrong direction are errors,
    a wrong magnitude is a panic *)
Theorem C86_edges_fail : forall m edges s1 k mag un s2 tol, coords_complete m -> ndim m = 2%nat ->
  (forall k ed, mget ekey_eqb edges k = Some ed -> sound_side m (e_kind ed) (e_points ed)) ->
  List.length un = 2%nat ->
  check_2d_edge_normals m edges s1 tol = Ok tt ->
  (mget ekey_eqb edges k = None -> check_2d_edge_normals m edges (s1 ++ (k, (mag, un)) :: s2) tol = Err "cannot find edge_key in edges map") /\
  (forall ed, mget ekey_eqb edges k = Some ed -> exists g u, normal_of m (e_kind ed) (e_points ed) g u /\
     (~ near tol g mag -> check_2d_edge_normals m edges (s1 ++ (k, (mag, un)) :: s2) tol = Panic) /\
     (near tol g mag -> ~ components_near 2 tol u un ->
        check_2d_edge_normals m edges (s1 ++ (k, (mag, un)) :: s2) tol = Err "wrong 2d edge unit normal vector found")).
Proof.
  intros m edges s1 k mag un s2 tol K D Sd L H1. unfold check_2d_edge_normals in H1.
  pose proof (proj1 (loop_ok _ (one m ekey edge (mget ekey_eqb edges) e_kind e_points tol "cannot find edge_key in edges map" "wrong 2d edge unit normal vector found" [0; 0]) s1) H1) as A.
  destruct (one_cases m K ekey edge (mget ekey_eqb edges) e_kind e_points tol "cannot find edge_key in edges map"
    "wrong 2d edge unit normal vector found" [0; 0] (or_introl D) ltac:(rewrite D; reflexivity) Sd (k, (mag, un)) ltac:(cbn; congruence)) as (B1 & B2).
  cbn [fst snd] in *. split.
  - intros N. apply (loop_first _ _ s1 (k, (mag, un)) s2 _ A (B1 N)). discriminate.
  - intros ed E. destruct (B2 ed E) as (g & u & N & P1 & P2 & _). rewrite D in P2. exists g, u. split; auto. split.
    + intros Q. apply (loop_first _ _ s1 (k, (mag, un)) s2 _ A (P1 Q)). discriminate.
    + intros Q Q'. apply (loop_first _ _ s1 (k, (mag, un)) s2 _ A (P2 Q Q')). discriminate.
Qed.
Print Assumptions C86_edges_fail.

Theorem C86_faces_fail : forall m faces s1 k mag un s2 tol, coords_complete m -> ndim m = 3%nat ->
  (forall k fc, mget fkey_eqb faces k = Some fc -> sound_side m (f_kind fc) (f_points fc)) ->
  List.length un = 3%nat ->
  check_face_normals m faces s1 tol = Ok tt ->
  (mget fkey_eqb faces k = None -> check_face_normals m faces (s1 ++ (k, (mag, un)) :: s2) tol = Err "cannot find face_key in faces map") /\
  (forall fc, mget fkey_eqb faces k = Some fc -> exists g u, normal_of m (f_kind fc) (f_points fc) g u /\
     (~ near tol g mag -> check_face_normals m faces (s1 ++ (k, (mag, un)) :: s2) tol = Panic) /\
     (near tol g mag -> ~ components_near 3 tol u un ->
        check_face_normals m faces (s1 ++ (k, (mag, un)) :: s2) tol = Err "wrong face unit normal vector found")).
Proof.
  intros m faces s1 k mag un s2 tol K D Sd L H1. unfold check_face_normals in H1.
  pose proof (proj1 (loop_ok _ (one m fkey face (mget fkey_eqb faces) f_kind f_points tol "cannot find face_key in faces map" "wrong face unit normal vector found" [0; 0; 0]) s1) H1) as A.
  destruct (one_cases m K fkey face (mget fkey_eqb faces) f_kind f_points tol "cannot find face_key in faces map"
    "wrong face unit normal vector found" [0; 0; 0] (or_intror D) ltac:(rewrite D; reflexivity) Sd (k, (mag, un)) ltac:(cbn; congruence)) as (B1 & B2).
  cbn [fst snd] in *. split.
  - intros N. apply (loop_first _ _ s1 (k, (mag, un)) s2 _ A (B1 N)). discriminate.
  - intros fc E. destruct (B2 fc E) as (g & u & N & P1 & P2 & _). rewrite D in P2. exists g, u. split; auto. split.
    + intros Q. apply (loop_first _ _ s1 (k, (mag, un)) s2 _ A (P1 Q)). discriminate.
    + intros Q Q'. apply (loop_first _ _ s1 (k, (mag, un)) s2 _ A (P2 Q Q')). discriminate.
Qed.
Print Assumptions C86_faces_fail.

(** the maps of edges (2D) and faces (3D) of Features meet the hypothesis on the sides *)
Theorem C86_features : forall (leb : R -> R -> bool) (shuffle : emap -> emap), (forall l, Permutation (shuffle l) l) ->
  forall m ea ft, consistent m -> features_new leb shuffle m ea = Ok ft ->
  (ndim m = 2%nat -> forall k ed, mget ekey_eqb (ft_edges ft) k = Some ed -> sound_side m (e_kind ed) (e_points ed)) /\
  (ndim m = 3%nat -> forall ps fc, mget fkey_eqb (ft_faces ft) (sort4 ps) = Some fc -> sound_side m (f_kind fc) (f_points fc)).
Proof.
  intros leb shuffle Sh m ea ft C F.
  assert (G : forall cl kd ps g n, In cl (cells m) -> kind_nnode kd = n -> (kind_ndim kd + 1 = ndim m)%nat ->
    map (fun i => nth_error (c_points cl) (g i)) (seq 0 n) = map Some ps -> sound_side m kd ps).
  { intros cl kd ps g n Hc En Dk E. destruct (map_some_nth _ _ _ E) as (L & N). split; auto. split; [congruence|]. intros q Hq.
    pose proof C as (_ & C2). destruct (C2 _ _ (cell_by_id m cl C Hc)) as (_ & _ & Rc).
    apply In_nth_error in Hq as (i & Hi). assert (Li : (i < n)%nat) by (rewrite <- L; apply nth_error_Some; congruence).
    specialize (N i Li). rewrite Hi in N. apply Rc. eapply nth_error_In; eauto. }
  split.
  - intros D [a b] ed E. destruct (edges_2d leb shuffle Sh m ea ft C D F) as (_ & _ & _ & Dt).
    destruct (Dt a b ed (proj2 (get_edge_iff ft a b ed) E)) as (_ & ce & _ & cl & Hc & _ & _ & _ & Ek & Em).
    apply (G cl _ _ (edge_node_id (c_kind cl) (snd ce)) (kind_edge_nnode (c_kind cl))); auto; [symmetry; now apply edge_nnode_kind|]. rewrite (edge_kind_dim _ _ Ek). lia.
  - intros D ps fc E. destruct (faces_3d leb shuffle m ea ft C D F) as (_ & _ & _ & Dt & _).
    destruct (Dt ps fc (proj2 (get_face_iff ft _ fc) E)) as (_ & cf & _ & cl & Hc & _ & _ & _ & Ek & Em).
    apply (G cl _ _ (face_node_id (c_kind cl) (snd cf)) (kind_face_nnode (c_kind cl))); auto; [symmetry; now apply face_nnode_kind|]. rewrite (proj1 (face_kind_dim _ _ Ek)). lia.
Qed.
Print Assumptions C86_features.

(* the square with side 2 and its lower edge *)
Definition square2 : mesh R :=
  mkMesh 2 [mkPoint 0 0%Z [0; 0]; mkPoint 1 0%Z [2; 0]; mkPoint 2 0%Z [2; 2]; mkPoint 3 0%Z [0; 2]]
    [mkCell 0 1%Z Qua4 [0; 1; 2; 3]%nat] [] [].
Lemma square2_ok : consistent square2 /\ coords_complete square2.
Proof.
  split; [split|].
  - intros i p H. destruct i as [|[|[|[|i]]]]; simpl in H; try (injection H as <-; reflexivity). destruct i; discriminate.
  - intros i c H. destruct i as [|i]; simpl in H; [injection H as <-|destruct i; discriminate].
    repeat split. intros q Hq. simpl in *. lia.
  - intros p H. simpl in H. repeat (destruct H as [<-|H]; [reflexivity|]). destruct H.
Qed.
Definition lower_edge : list (ekey * edge) := [((0, 1)%nat, mkEdge Lin2 [1; 0]%nat 0%Z)].
Lemma lower_edge_sound : forall k ed, mget ekey_eqb lower_edge k = Some ed -> sound_side square2 (e_kind ed) (e_points ed).
Proof.
  intros k ed H. unfold lower_edge, mget in H. cbn [find fst] in H. destruct (ekey_eqb _ _); [|discriminate]. injection H as <-.
  split; [reflexivity|]. split; [reflexivity|]. intros q Hq. simpl in *. lia.
Qed.
Lemma lower_edge_normal : normal_of square2 Lin2 [1; 0]%nat 1 [0; -1].
Proof.
  destruct square2_ok as (C & K).
  destruct (side_normal square2 Lin2 [1; 0]%nat [0; 0] K (or_introl eq_refl) (lower_edge_sound (0, 1)%nat _ eq_refl) eq_refl)
    as (p0 & s & g & u & q & E0 & E1 & E2 & L & N).
  assert (G : g = 1 /\ u = [0; -1]); [|destruct G as (-> & ->); exact N].
  clear E0 E1 E2.
  destruct N as (p & a & (W & Kp & Sp & X) & J & M & U & Z). cbn [ndim square2 c_points c_kind] in *.
  assert (J' : jacobian_of p [0] (JJ p [0])) by (apply jj_partial; auto; rewrite Kp; auto).
  assert (T : forall i, (i < 2)%nat -> a i 0%nat = (node_x p i 1%nat - node_x p i 0%nat) / 2).
  { intros i Hi. rewrite (jacobian_unique p [0] a _ i 0%nat J J') by (rewrite ?Sp, ?Kp; auto).
    rewrite jj_ent by (rewrite ?Sp, ?Kp; auto). rewrite Kp. unfold sum_n. cbn. unfold Q2R. simpl. field. }
  rewrite !T in M by lia. rewrite !T in U by lia.
  rewrite (X 0%nat 1%nat _ 0%nat eq_refl eq_refl ltac:(lia)), (X 1%nat 0%nat _ 0%nat eq_refl eq_refl ltac:(lia)) in *.
  rewrite (X 0%nat 1%nat _ 1%nat eq_refl eq_refl ltac:(lia)), (X 1%nat 0%nat _ 1%nat eq_refl eq_refl ltac:(lia)) in *. cbn [pt_coords nth] in *.
  replace (((0 - 0) / 2) ^ 2 + ((0 - 2) / 2) ^ 2) with 1 in M by field. rewrite sqrt_1 in M. subst g. split; auto.
  rewrite U by lra. f_equal; [field|f_equal; field].
Qed.
Example C86_ex : check_2d_edge_normals square2 lower_edge [((0, 1)%nat, (1, [0; -1]))] 0 = Ok tt.
Proof.
  destruct square2_ok as (C & K). apply (C86_edges square2 lower_edge _ 0 K eq_refl lower_edge_sound).
  - intros s [<-|[]]. reflexivity.
  - intros k mag un [[= <- <- <-]|[]]. exists (mkEdge Lin2 [1; 0]%nat 0%Z), 1, [0; -1]. split; [reflexivity|]. split; [exact lower_edge_normal|].
    unfold near. split; [rewrite Rminus_eq_0, Rabs_R0; lra|]. intros i Hi. unfold near. destruct i as [|[|i]]; [| |lia]; cbn [nth]; rewrite Rminus_eq_0, Rabs_R0; lra.
Qed.
(** the functions return a Result, but a wrong magnitude ends the program *)
Theorem C86_magnitude_refuted : exists m edges sols tol, consistent m /\ coords_complete m /\ 0 < tol /\
  (forall k ed, mget ekey_eqb edges k = Some ed -> sound_side m (e_kind ed) (e_points ed)) /\
  check_2d_edge_normals m edges sols tol = Panic.
Proof.
  destruct square2_ok as (C & K). exists square2, lower_edge, ([] ++ ((0, 1)%nat, (2, [0; -1])) :: []), (1/2).
  split; auto. split; auto. split; [lra|]. split; [exact lower_edge_sound|].
  destruct (C86_edges_fail square2 lower_edge [] (0, 1)%nat 2 [0; -1] [] (1/2) K eq_refl lower_edge_sound eq_refl eq_refl) as (_ & H).
  destruct (H (mkEdge Lin2 [1; 0]%nat 0%Z) eq_refl) as (g & u & N & P & _). apply P.
  destruct (normal_of_unique square2 Lin2 [1; 0]%nat g u 1 [0; -1] (or_introl eq_refl) (lower_edge_sound (0, 1)%nat _ eq_refl) N lower_edge_normal) as (-> & _).
  unfold near. intros Q. rewrite Rabs_left in Q by lra. lra.
Qed.
Print Assumptions C86_magnitude_refuted.

(** C87: wherever the determinant of the Jacobian is positive, the normal vector of an edge (face) of the features points
    out of the cell that gave the edge (face) its points: whoever enters the cell from there moves against the normal.
    Boundary features belong to one cell only. *)
Theorem C87_edges : forall (leb : R -> R -> bool) (shuffle : emap -> emap), (forall l, Permutation (shuffle l) l) ->
  forall m ea ft, consistent m -> coords_complete m -> ndim m = 2%nat ->
  features_new leb shuffle m ea = Ok ft -> forall a b ed, get_edge ft a b = Ok ed ->
  exists c e p s, has_edge m a b (c, e) /\ (ea = false -> forall ce, has_edge m a b ce -> ce = (c, e)) /\
    get_pad m c = Ok p /\ pad_of_side m (e_kind ed) (e_points ed) s /\
    forall z, exists xi mag un q,
      (-1 <= z <= 1 -> in_ref_cell (kind_class (p_kind p)) (nth 0 xi 0) (nth 1 xi 0) 0) /\
      (forall i, (i < 2)%nat -> pos s [z] i = pos p xi i) /\
      calc_normal_vector s 2 [z] = Ok (mag, un, q) /\
      forall j, jacobian_of p xi j ->
        (0 < det 2 j -> 0 < mag /\ points_out p xi un) /\ (det 2 j < 0 -> 0 < mag /\ points_in p xi un).
Proof. exact edges_outward. Qed.
Print Assumptions C87_edges.

Theorem C87_faces : forall (leb : R -> R -> bool) (shuffle : emap -> emap),
  forall m ea ft, consistent m -> coords_complete m -> ndim m = 3%nat ->
  features_new leb shuffle m ea = Ok ft -> forall ps fc, get_face ft (sort4 ps) = Ok fc ->
  exists c f p s, has_face4 m ps (c, f) /\ (ea = false -> forall cf, has_face4 m ps cf -> cf = (c, f)) /\
    get_pad m c = Ok p /\ pad_of_side m (f_kind fc) (f_points fc) s /\
    forall r t, exists xi mag un q,
      (in_ref_cell (kind_class (p_kind s)) r t 0 -> in_ref_cell (kind_class (p_kind p)) (nth 0 xi 0) (nth 1 xi 0) (nth 2 xi 0)) /\
      (forall i, (i < 3)%nat -> pos s [r; t] i = pos p xi i) /\
      calc_normal_vector s 3 [r; t] = Ok (mag, un, q) /\
      forall j, jacobian_of p xi j ->
        (0 < det 3 j -> 0 < mag /\ points_out p xi un) /\ (det 3 j < 0 -> 0 < mag /\ points_in p xi un).
Proof. exact faces_outward. Qed.
Print Assumptions C87_faces.

(** the same for all edges and faces of any cell, from the tables of local numbers (also for cells that are not in a mesh) *)
Theorem C87_cell_edge : forall p s e z mag un q, pad_wf p -> p_space p = 2%nat -> kind_ndim (p_kind p) = 2%nat ->
  kind_edge_kind (p_kind p) = Some (p_kind s) -> (e < kind_nedge (p_kind p))%nat ->
  side_pad p s (edge_node_id (p_kind p) e) ->
  calc_normal_vector s 2 [z] = Ok (mag, un, q) ->
  let xi := seg_point (ref_coords (p_kind p) (edge_node_id (p_kind p) e 0)) (ref_coords (p_kind p) (edge_node_id (p_kind p) e 1)) z in
  forall a, jacobian_of p xi a ->
  (0 < det 2 a -> 0 < mag /\ points_out p xi un) /\ (det 2 a < 0 -> 0 < mag /\ points_in p xi un).
Proof. exact edge_normal. Qed.
Print Assumptions C87_cell_edge.
Theorem C87_cell_face : forall p s f r t mag un q, pad_wf p -> p_space p = 3%nat ->
  kind_face_kind (p_kind p) = Some (p_kind s) -> (f < kind_nface (p_kind p))%nat ->
  side_pad p s (face_node_id (p_kind p) f) ->
  calc_normal_vector s 3 [r; t] = Ok (mag, un, q) ->
  forall a, jacobian_of p (face_point (p_kind p) f r t) a ->
  (0 < det 3 a -> 0 < mag /\ points_out p (face_point (p_kind p) f r t) un) /\
  (det 3 a < 0 -> 0 < mag /\ points_in p (face_point (p_kind p) f r t) un).
Proof. exact face_normal. Qed.
Print Assumptions C87_cell_face.

Example C87_ex : exists ft ed, features_new Rleb (fun l => l) square2 false = Ok ft /\ get_edge ft 0 1 = Ok ed.
Proof.
  destruct square2_ok as (C & K).
  destruct (new_total Rleb (fun l => l) (fun l => Permutation_refl l) square2 false C K (or_introl eq_refl)) as (ft & F).
  exists ft. destruct (edges_2d Rleb (fun l => l) (fun l => Permutation_refl l) square2 false ft C eq_refl F) as (_ & _ & Wt & _).
  destruct (proj2 (Wt 0%nat 1%nat)) as (ed & E); [|exists ed; auto]. split; [lia|]. exists (0%nat, 0%nat). split.
  - exists 1%nat, 0%nat. split; [|right; auto]. exists (mkCell 0 1%Z Qua4 [0; 1; 2; 3]%nat). split; [cbn; auto|]. split; [reflexivity|]. split; [reflexivity|]. split; [vm_compute; lia|]. split; reflexivity.
  - intros [c e] (x & y & (cl & [<-|[]] & Ec & _ & He & A & B) & Q). cbn [c_kind c_points c_id fst snd] in *. subst c. vm_compute in He. f_equal.
    destruct e as [|[|[|[|e]]]]; [reflexivity|..|lia]; exfalso; vm_compute in A, B; injection A as <-; injection B as <-; destruct Q as [(? & ?)|(? & ?)]; discriminate.
Qed.
(* a cell with a positive determinant at every point *)
Example C87_ex_det : forall p z xi j, get_pad square2 0 = Ok p -> xi = [z; -1] -> jacobian_of p xi j -> 0 < det 2 j.
Proof.
  intros p z xi j E -> J. destruct square2_ok as (C & K).
  destruct (get_pad_ok square2 0 _ C K (or_introl eq_refl) eq_refl (le_n 2)) as (p' & E' & (W & Kp & Sp & X) & _). rewrite E in E'. injection E' as <-.
  cbn [ndim square2 c_points c_kind] in *.
  assert (J' : jacobian_of p [z; -1] (JJ p [z; -1])) by (apply jj_partial; auto; rewrite Kp; auto).
  assert (D : det 2 j = det 2 (JJ p [z; -1])).
  { apply det_ext. intros a b Ha Hb. apply (jacobian_unique p [z; -1]); auto; rewrite ?Sp, ?Kp; auto. }
  rewrite D. cbn [det].
  rewrite !jj_ent by (rewrite ?Sp, ?Kp; auto; vm_compute; lia). rewrite Kp. unfold sum_n. change (kind_nnode Qua4) with 4%nat. cbn [seq map sum]. 
  rewrite !(X 0%nat 0%nat _ _ eq_refl eq_refl), !(X 1%nat 1%nat _ _ eq_refl eq_refl), !(X 2%nat 2%nat _ _ eq_refl eq_refl), !(X 3%nat 3%nat _ _ eq_refl eq_refl) by lia.
  cbn. unfold Q2R. simpl. lra.
Qed.
