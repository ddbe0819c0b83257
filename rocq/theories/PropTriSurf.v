(* C73, C74: triangulation of surfaces and of the boundary of a mesh of solids. *)
From Coq Require Import String Reals QArith Qreals List Arith ZArith Bool Lia Lra Permutation Sorted.
From Verif Require Import Base BaseFacts Kind MeshModel MeshQueryModel MeshQuerySpec MeshQueryProof ShapesData ShapesModel ShapesSpec ShapesTables
  PadModel PadSpec TopoModel TopoSpec TopoProof TopoFinal PropTopo
  TriSurfModel TriSurfSpec TriSurfProof2 TriSurfProof3 TriSurfProof4 TriSurfProof5 TriSurfProof6.
Import ListNotations.
Local Open Scope nat_scope.

(* Two solids with eight nodes with a common face in 3D; a strip of quadrilaterals of them with a triangle of six
   nodes, a cable and a quadrilateral of eight nodes (which has one extra node). *)
Local Open Scope R_scope.
Definition hexes : mesh R := mkMesh 3
  [mkPoint 0 0%Z [0; 0; 0]; mkPoint 1 0%Z [1; 0; 0]; mkPoint 2 0%Z [1; 1; 0]; mkPoint 3 0%Z [0; 1; 0];
   mkPoint 4 0%Z [0; 0; 1]; mkPoint 5 0%Z [1; 0; 1]; mkPoint 6 0%Z [1; 1; 1]; mkPoint 7 0%Z [0; 1; 1];
   mkPoint 8 0%Z [0; 0; 2]; mkPoint 9 0%Z [1; 0; 3]; mkPoint 10 0%Z [1; 1; 2]; mkPoint 11 0%Z [0; 1; 2]]
  [mkCell 0 1%Z Hex8 [0; 1; 2; 3; 4; 5; 6; 7]%nat; mkCell 1 1%Z Hex8 [4; 5; 6; 7; 8; 9; 10; 11]%nat] [] [].
Local Close Scope R_scope.
Definition strip : list (geokind * list nat) :=
  [(Qua4, [0; 1; 5; 4]); (Lin2, [0; 1]); (Qua4, [4; 5; 9; 8]); (Qua8, [0; 1; 2; 3; 4; 5; 6; 7]); (Tri6, [4; 5; 6; 8; 9; 10])].
Lemma hexes_consistent : consistent hexes.
Proof. apply check_iff. reflexivity. Qed.
Lemma hexes_complete : coords_complete hexes.
Proof. intros p H. simpl in H. repeat (destruct H as [<-|H]; [reflexivity|]). destruct H. Qed.
Lemma hexes_no_tets : no_quadratic_tets hexes.
Proof. intros c H. simpl in H. repeat (destruct H as [<-|H]; [split; discriminate|]). destruct H. Qed.
Lemma strip_valid : valid_surface hexes strip.
Proof.
  split; [right; reflexivity|]. split; [exact hexes_complete|]. intros k pts H P. simpl in H.
  repeat (destruct H as [[= <- <-]|H]; [|]); try destruct H; try (destruct P; discriminate);
  (split; [reflexivity|]); intros q H; simpl in H |- *; intuition lia.
Qed.

(* C73 *)
(** The points of the triangulation of a surface are the points of the mesh used by its triangles and quadrilaterals (once each) and the extra nodes of each cell (its own), with their coordinates, in order of first use; the triangles are those of the tables, cell by cell, in order. *)
Theorem C73_triangulation : forall m s, valid_surface m s -> exists tr lab, from_surface m s = Ok tr /\ triangulates m s tr lab.
Proof. intros m s V. destruct (from_surface_ok m s V) as (tr & E & T). eauto. Qed.
Print Assumptions C73_triangulation.
Example C73_triangulation_ex : valid_surface hexes strip /\ List.length (surface_triangles strip) = 16 /\
  surface_triangles [(Qua4, [4; 5; 9; 8])] = [[Node 4; Node 5; Node 8]; [Node 5; Node 9; Node 8]] /\ In (Extra 3 0) (concat (surface_triangles strip)).
Proof. split; [exact strip_valid|]. split; [reflexivity|]. split; [vm_compute; reflexivity|]. vm_compute. tauto. Qed.

(** The function returns a triangulation exactly when every triangle and quadrilateral of the surface has the points of its kind, all in the mesh; otherwise it panics, it never returns an error. *)
Theorem C73_returns : forall m s, ndim m = 2 \/ ndim m = 3 -> coords_complete m ->
  ((exists tr, from_surface m s = Ok tr) <-> valid_surface m s) /\ ((exists tr, from_surface m s = Ok tr) \/ from_surface m s = Panic).
Proof. intros m s D K. split; [now apply from_surface_iff|apply from_surface_or_panic]. Qed.
Print Assumptions C73_returns.
Example C73_returns_ex : (ndim hexes = 2 \/ ndim hexes = 3) /\ coords_complete hexes /\ ~ valid_surface hexes [(Tri3, [0; 1; 12])].
Proof.
  split; [right; reflexivity|]. split; [exact hexes_complete|]. intros (_ & _ & H). destruct (H Tri3 [0; 1; 12]) as (_ & H2); [now left|now left|].
  specialize (H2 12 ltac:(simpl; auto)). simpl in H2. lia.
Qed.

(** Cells of other classes do not matter. *)
Theorem C73_ignored : forall m s, from_surface m s = from_surface m (filter (fun c => match kind_class (fst c) with CTri | CQua => true | _ => false end) s).
Proof. exact from_surface_ignores. Qed.
Print Assumptions C73_ignored.

(** Number of triangles and points. *)
Theorem C73_size : forall m s, valid_surface m s -> exists tr, from_surface m s = Ok tr /\
  List.length (t_tris tr) = list_sum (map (fun q => if tri_or_qua (fst q) then triangulate_ntriangle (fst q) else 0) s) /\
  List.length (t_xx tr) = List.length (nodup Nat.eq_dec (ids_of s)) +
    list_sum (map (fun q => if tri_or_qua (fst q) then triangulate_extra_nnode (fst q) else 0) s).
Proof. exact from_surface_size. Qed.
Print Assumptions C73_size.
Example C73_size_ex : valid_surface hexes strip /\ List.length (nodup Nat.eq_dec (ids_of strip)) = 11 /\
  list_sum (map (fun q => if tri_or_qua (fst q) then triangulate_extra_nnode (fst q) else 0) strip) = 1.
Proof. split; [exact strip_valid|]. split; reflexivity. Qed.

(** The signed areas of the triangles, projected on two coordinates, add up to those of the polygons of the boundary nodes of the cells. *)
Theorem C73_area : forall m s, valid_surface m s -> exists tr, from_surface m s = Ok tr /\
  forall i j, i < ndim m -> j < ndim m -> sum (map (result_area tr i j) (t_tris tr)) = sum (map (cell_area m i j) s).
Proof.
  intros m s V. destruct (from_surface_ok m s V) as (tr & E & _). exists tr. split; [auto|]. intros i j Hi Hj.
  destruct (from_surface_area m s V i j Hi Hj) as (tr' & E' & A). congruence.
Qed.
Print Assumptions C73_area.
Example C73_area_ex : valid_surface hexes strip /\ cell_area hexes 0 2 (Qua4, [4; 5; 9; 8]) = (3 / 2)%R /\ cell_area hexes 0 2 (Lin2, [0; 1]) = 0%R.
Proof.
  split; [exact strip_valid|]. split; [|reflexivity]. unfold cell_area. change (tri_or_qua (fst (Qua4, [4; 5; 9; 8]))) with true.
  change (boundary_loop (fst (Qua4, [4; 5; 9; 8]))) with [0; 1; 2; 3]. unfold shoelace, point_x. cbn. lra.
Qed.

(** The directed edges of the triangles are those of the boundaries of the cells, node by node, and others that occur as often as their opposites: neighbouring cells with the same nodes on the common edge are glued without gaps. *)
Theorem C73_edges : forall m s, valid_surface m s -> exists tr lab num inner, from_surface m s = Ok tr /\ triangulates m s tr lab /\ balanced inner /\
  Permutation (all_edges (t_tris tr)) (map (fun e => (num (fst e), num (snd e))) (surface_boundary s) ++ inner) /\
  (forall a b, In (a, b) (surface_boundary s) -> nth_error lab (num a) = Some (Node a) /\ nth_error lab (num b) = Some (Node b)).
Proof.
  intros m s V. destruct (from_surface_ok m s V) as (tr & E & T). destruct (triangulation_edges m s tr _ T) as (num & inner & B & P & N).
  exists tr. eexists. exists num, inner. split; [exact E|]. split; [exact T|]. split; [exact B|]. split; [exact P|exact N].
Qed.
Print Assumptions C73_edges.
Example C73_edges_ex : valid_surface hexes strip /\ surface_boundary [(Qua4, [0; 1; 5; 4]); (Qua4, [4; 5; 9; 8])] =
  [(0, 1); (1, 5); (5, 4); (4, 0); (4, 5); (5, 9); (9, 8); (8, 4)].
Proof. split; [exact strip_valid|vm_compute; reflexivity]. Qed.

(** A surface whose cells cancel along all their edges has a closed triangulation. *)
Theorem C73_closed : forall m s, valid_surface m s -> balanced (surface_boundary s) ->
  exists tr, from_surface m s = Ok tr /\ balanced (all_edges (t_tris tr)).
Proof. intros m s V B. destruct (from_surface_ok m s V) as (tr & E & T). exists tr. split; [auto|]. eapply triangulation_closed; eauto. Qed.
Print Assumptions C73_closed.
Example C73_closed_ex : balanced (surface_boundary [(Tri3, [0; 2; 1]); (Tri3, [0; 1; 3]); (Tri3, [1; 2; 3]); (Tri3, [0; 3; 2])]) /\
  valid_surface hexes [(Tri3, [0; 2; 1]); (Tri3, [0; 1; 3]); (Tri3, [1; 2; 3]); (Tri3, [0; 3; 2])].
Proof.
  split; [apply closed_sym; [apply pnodup_ok; reflexivity|]; intros e H; vm_compute in H; repeat (destruct H as [<-|H]; [vm_compute; tauto|]); destruct H|].
  split; [right; reflexivity|]. split; [exact hexes_complete|]. intros k pts H P. simpl in H.
  repeat (destruct H as [[= <- <-]|H]; [|]); try destruct H; (split; [reflexivity|]); intros q H; simpl in H |- *; intuition lia.
Qed.

(** Scratchpad::triangulate calls the given function for the corners of the triangles of the table in order, with the coordinates of the node or the image of the extra node, and stops at its first failure. *)
Theorem C73_element : forall p, plane_kind (p_kind p) -> pad_wf p -> p_ok p = true ->
  exists calls q, same_element p q /\
    List.length calls = 3 * triangulate_ntriangle (p_kind p) /\
    (forall t i, t < triangulate_ntriangle (p_kind p) -> i < 3 -> exists x,
       nth_error calls (3 * t + i) = Some (t, i, tnode (p_kind p) t i, x) /\ List.length x = p_space p /\
       forall j, j < p_space p -> nth j x 0%R = corner_x p (tnode (p_kind p) t i) j) /\
    forall St (f : St -> nat -> nat -> nat -> list R -> res St) s,
      pad_triangulate p (p_space p) f s = (let! s' := foldM (do_call f) calls s in Ok (q, s')).
Proof. exact pad_triangulate_calls. Qed.
Print Assumptions C73_element.
(* other kinds and vectors of another dimension are errors *)
Theorem C73_element_errors : forall St p n (f : St -> nat -> nat -> nat -> list R -> res St) s,
  ~ plane_kind (p_kind p) \/ n <> p_space p -> exists e, pad_triangulate p n f s = Err e.
Proof.
  intros St p n f s H. unfold pad_triangulate. destruct (tri_or_qua (p_kind p)) eqn:E; cbn [negb]; [|eauto].
  apply plane_tri_or_qua in E. destruct H as [H|H]; [contradiction|]. destruct (Nat.eqb_spec n (p_space p)); [contradiction|]. cbn [negb]. eauto.
Qed.
Print Assumptions C73_element_errors.
Definition quad8 : pad := mkPad Qua8 2 (repeat 0%R 8) [] [] [] [] [[0; 2; 2; 0; 1; 2; 1; 0]%R; [0; 0; 1; 1; 0; 1 / 2; 1; 1 / 2]%R] true.
Example C73_element_ex : plane_kind (p_kind quad8) /\ pad_wf quad8 /\ p_ok quad8 = true /\ triangulate_extra_nnode (p_kind quad8) = 1 /\
  ~ plane_kind Tet4.
Proof.
  split; [right; reflexivity|]. split; [split; [left; reflexivity|]; split; [vm_compute; lia|]; split; [reflexivity|repeat constructor]|].
  split; [reflexivity|]. split; [reflexivity|]. intros [H|H]; discriminate.
Qed.

(* C74 *)
(** The triangulation of the boundary: the faces are exactly the local faces of solids that no other solid has, each once, with all its nodes, and the points and triangles are those of this surface; neither the order of the hash maps nor the choice of the features matters for this. *)
Theorem C74_boundary : forall leb sh shuffle m ea ft, (forall l, Permutation (shuffle l) l) ->
  consistent m -> ndim m = 3 -> no_quadratic_tets m -> coords_complete m -> features_new leb sh m ea = Ok ft ->
  exists fs own tr lab, boundary_faces shuffle ft = Ok fs /\
    NoDup own /\ (forall cf, In cf own <-> exists k, forall y, has_face m k y <-> y = cf) /\
    Forall2 (fun fc cf => face_nodes m (fst cf) (snd cf) (f_kind fc) (f_points fc)) fs own /\
    triangulate_3d_boundary shuffle m ft = Ok tr /\ triangulates m (as_surface fs) tr lab.
Proof.
  intros leb sh shuffle m ea ft Sh C D Q K F. destruct (boundary_triangulation leb sh shuffle Sh m ea ft C D Q F K) as (fs & own & tr & lab & H1 & H2 & H3 & H4 & H5 & H6 & _).
  exists fs, own, tr, lab. auto 10.
Qed.
Print Assumptions C74_boundary.
(** The triangulation of the boundary of conforming solids is closed: every edge is passed as often in one direction as in the other. *)
Theorem C74_closed : forall leb sh shuffle m ea ft, (forall l, Permutation (shuffle l) l) ->
  consistent m -> ndim m = 3 -> no_quadratic_tets m -> coords_complete m -> solids_conform m -> features_new leb sh m ea = Ok ft ->
  exists tr, triangulate_3d_boundary shuffle m ft = Ok tr /\ balanced (all_edges (t_tris tr)).
Proof.
  intros leb sh shuffle m ea ft Sh C D Q K S F. destruct (boundary_triangulation leb sh shuffle Sh m ea ft C D Q F K) as (fs & own & tr & lab & H1 & H2 & H3 & H4 & H5 & H6 & H7).
  exists tr. auto.
Qed.
Print Assumptions C74_closed.
(* a mesh that is not three-dimensional *)
Theorem C74_plane : forall shuffle m ft, ndim m <> 3 -> triangulate_3d_boundary shuffle m ft = Panic.
Proof. intros shuffle m ft H. unfold triangulate_3d_boundary. destruct (Nat.eqb_spec (ndim m) 3); [contradiction|reflexivity]. Qed.
Print Assumptions C74_plane.

(* the two solids conform *)
Lemma hexes_face k c f : has_face hexes k (c, f) -> exists qs, Permutation k qs /\
  In (c, f, qs) (map (fun cf => (fst cf, snd cf, map (fun i => nth (face_node_id Hex8 (snd cf) i) (nth (fst cf) [[0; 1; 2; 3; 4; 5; 6; 7]; [4; 5; 6; 7; 8; 9; 10; 11]] []) 0) (seq 0 4)))
    [(0, 0); (0, 1); (0, 2); (0, 3); (0, 4); (0, 5); (1, 0); (1, 1); (1, 2); (1, 3); (1, 4); (1, 5)]).
Proof.
  intros (qs & (cl & Hc & Ei & _ & Hf & E) & P). cbn [fst snd] in *. exists qs. split; [exact P|].
  simpl in Hc. destruct Hc as [<-|[<-|[]]]; cbn [c_id c_kind c_points] in *; subst c; change (kind_nface Hex8) with 6 in Hf; change (face_ncorner Hex8) with 4 in E;
  (do 6 (destruct f as [|f]; [vm_compute in E; destruct qs as [|q0 [|q1 [|q2 [|q3 [|]]]]]; try discriminate; injection E as <- <- <- <-; vm_compute; tauto|])); lia.
Qed.
Lemma sorted_sets k qs qs' : Permutation k qs -> Permutation k qs' -> isort Nat.leb qs = isort Nat.leb qs'.
Proof. intros P P'. apply sorted_perm_eq; try apply isort_sorted_le. rewrite !isort_perm. now rewrite <- P. Qed.
Lemma hexes_pairs k a b : has_face hexes k a -> has_face hexes k b -> a <> b -> (a = (0, 5) /\ b = (1, 4)) \/ (a = (1, 4) /\ b = (0, 5)).
Proof.
  destruct a as [c f], b as [c' f']. intros Ha Hb N. apply hexes_face in Ha as (qs & P & Ha). apply hexes_face in Hb as (qs' & P' & Hb).
  pose proof (sorted_sets _ _ _ P P') as E. clear P P'. vm_compute in Ha, Hb.
  repeat (destruct Ha as [[= <- <- <-]|Ha]; [repeat (destruct Hb as [[= <- <- <-]|Hb]; [first [exfalso; apply N; reflexivity|vm_compute in E; discriminate|auto]|]); destruct Hb|]).
  destruct Ha.
Qed.
Lemma hexes_conform : solids_conform hexes.
Proof.
  split.
  - intros k a b c A B C. destruct (Nat.eq_dec (fst a) (fst b)) as [E|E].
    + left. destruct a as [x y], b as [x' y']. simpl in E. subst x'. destruct (Nat.eq_dec y y') as [->|N]; [reflexivity|].
      destruct (hexes_pairs k _ _ A B) as [[[= -> ->] [=]]|[[= -> ->] [=]]]. congruence.
    + destruct (Nat.eq_dec (fst b) (fst c)) as [E2|E2].
      * right. left. destruct b as [x y], c as [x' y']. simpl in E2. subst x'. destruct (Nat.eq_dec y y') as [->|N]; [reflexivity|].
        destruct (hexes_pairs k _ _ B C) as [[[= -> ->] [=]]|[[= -> ->] [=]]]. congruence.
      * right. right. assert (Nab : a <> b) by congruence. assert (Nbc : b <> c) by congruence.
        destruct (hexes_pairs k a b A B Nab) as [(-> & ->)|(-> & ->)], (hexes_pairs k _ c B C Nbc) as [(? & ->)|(? & ->)]; congruence.
  - intros k a b kd ps kd' ps' A B N Fa Fb.
    assert (L : forall ps, face_nodes hexes 0 5 kd ps -> kd = Qua4 /\ ps = [4; 5; 6; 7]).
    { intros q (cl & Hc & Ei & _ & _ & Ek & E). simpl in Hc. destruct Hc as [<-|[<-|[]]]; cbn [c_id c_kind c_points] in *; [|discriminate].
      injection Ek as <-. change (kind_face_nnode Hex8) with 4 in E. vm_compute in E. destruct q as [|q0 [|q1 [|q2 [|q3 [|]]]]]; try discriminate. now injection E as <- <- <- <-. }
    assert (L' : forall kd ps, face_nodes hexes 0 5 kd ps -> kd = Qua4 /\ ps = [4; 5; 6; 7]).
    { clear. intros kd q (cl & Hc & Ei & _ & _ & Ek & E). simpl in Hc. destruct Hc as [<-|[<-|[]]]; cbn [c_id c_kind c_points] in *; [|discriminate].
      injection Ek as <-. change (kind_face_nnode Hex8) with 4 in E. vm_compute in E. destruct q as [|q0 [|q1 [|q2 [|q3 [|]]]]]; try discriminate. now injection E as <- <- <- <-. }
    assert (U : forall kd ps, face_nodes hexes 1 4 kd ps -> kd = Qua4 /\ ps = [4; 7; 6; 5]).
    { clear. intros kd q (cl & Hc & Ei & _ & _ & Ek & E). simpl in Hc. destruct Hc as [<-|[<-|[]]]; cbn [c_id c_kind c_points] in *; [discriminate|].
      injection Ek as <-. change (kind_face_nnode Hex8) with 4 in E. vm_compute in E. destruct q as [|q0 [|q1 [|q2 [|q3 [|]]]]]; try discriminate. now injection E as <- <- <- <-. }
    destruct (hexes_pairs k a b A B N) as [(-> & ->)|(-> & ->)]; cbn [fst snd] in Fa, Fb;
    first [apply L' in Fa as (-> & ->); apply U in Fb as (-> & ->)|apply U in Fa as (-> & ->); apply L' in Fb as (-> & ->)];
    (apply NoDup_Permutation; [apply pnodup_ok; reflexivity|apply pnodup_ok; reflexivity|intros e; vm_compute; tauto]).
Qed.
Example C74_ex : consistent hexes /\ ndim hexes = 3 /\ no_quadratic_tets hexes /\ coords_complete hexes /\ solids_conform hexes /\
  (forall leb sh ea, (forall l, Permutation (sh l) l) -> exists ft, features_new leb sh hexes ea = Ok ft) /\
  has_face hexes [4; 5; 6; 7] (0, 5) /\ has_face hexes [4; 5; 6; 7] (1, 4).
Proof.
  split; [exact hexes_consistent|]. split; [reflexivity|]. split; [exact hexes_no_tets|]. split; [exact hexes_complete|]. split; [exact hexes_conform|].
  split; [intros leb sh ea Hs; apply C21_new_total; auto; [exact hexes_consistent|exact hexes_complete]|]. split.
  - exists [4; 5; 6; 7]. split; [|apply Permutation_refl]. eexists. split; [left; reflexivity|]. vm_compute. repeat split; lia.
  - exists [4; 7; 6; 5]. split; [|apply NoDup_Permutation; [repeat constructor; simpl; lia|repeat constructor; simpl; lia|intros e; simpl; tauto]].
    eexists. split; [right; left; reflexivity|]. vm_compute. repeat split; lia.
Qed.

(* with ten-node tetrahedra an interior face is triangulated with the boundary, from both sides *)
Theorem C74_quadratic_tets_refuted : exists (m : mesh Q) ft fs fc fc',
  check_ids_and_kind m = Ok tt /\ features_new Qle_bool (fun l => l) m false = Ok ft /\ boundary_faces (fun l => l) ft = Ok fs /\
  In fc fs /\ In fc' fs /\ fc <> fc' /\
  face_nodes m 0 3 (f_kind fc) (f_points fc) /\ face_nodes m 1 2 (f_kind fc') (f_points fc') /\
  has_face m [1; 2; 3] (0, 3) /\ has_face m [1; 2; 3] (1, 2).
Proof.
  exists tets10. eexists. eexists. eexists. eexists. split; [reflexivity|]. split; [vm_compute; reflexivity|]. split; [vm_compute; reflexivity|].
  split; [|split]. 
  - instantiate (1 := mkFace Tri6 [1; 2; 3; 5; 9; 8] 0%Z). simpl. tauto.
  - instantiate (1 := mkFace Tri6 [1; 3; 2; 8; 9; 5] 0%Z). simpl. tauto.
  - split; [discriminate|]. split; [|split; [|split]].
    + eexists. split; [left; reflexivity|]. vm_compute. repeat split; lia.
    + eexists. split; [right; left; reflexivity|]. vm_compute. repeat split; lia.
    + exists [1; 2; 3]. split; [|apply Permutation_refl]. eexists. split; [left; reflexivity|]. vm_compute. repeat split; lia.
    + exists [1; 3; 2]. split; [|apply perm_skip, perm_swap]. eexists. split; [right; left; reflexivity|]. vm_compute. repeat split; lia.
Qed.
Print Assumptions C74_quadratic_tets_refuted.
