(* C98: renumbering the points of a mesh does not change its topology *)
From Coq Require Import String Reals List Arith Bool Lia ZArith Permutation Sorted.
From Verif Require Import Base BaseFacts Kind MeshModel MeshQueryModel GraphModel GraphSpec GraphVocab GraphProof4 GraphProof5 PropGraph MeshQuerySpec MeshQueryProof TopoModel TopoSpec TopoMaps TopoProof TopoFeat3 TopoFeat5 TopoFeat6 TopoFinal PadModel RenumProof.
Import ListNotations.
Local Open Scope list_scope.
Local Open Scope nat_scope.

Lemma ready_to_renumber {T} (m m' : mesh T) o2n : consistent m -> coords_complete m -> renumber_points m o2n = Ok m' ->
  Permutation o2n (seq 0 (List.length (points m))) /\ renumbered m o2n m'.
Proof.
  intros (_ & C) K H. destruct (renumber_points_ok m m' o2n) as (P & R & _); auto. split; [|exact K].
  intros c p I J. apply In_nth_error in I as (i & I). exact (proj2 (proj2 (C i c I)) p J).
Qed.

(* examples: two triangles with a marked edge, and two tetrahedra with a shell and a cable *)
Definition zpt (i : nat) (xs : list Z) : point Z := mkPoint i 0%Z xs.
Definition zsq : mesh Z :=
  mkMesh 2 [zpt 0 [0; 0]%Z; zpt 1 [2; 0]%Z; zpt 2 [2; 2]%Z; zpt 3 [0; 2]%Z] [mkCell 0 1%Z Tri3 [0; 1; 2]; mkCell 1 2%Z Tri3 [0; 2; 3]]
    [((-1)%Z, 0, 1)] [].
Definition zsq' : mesh Z :=
  mkMesh 2 [zpt 0 [2; 0]%Z; zpt 1 [0; 2]%Z; zpt 2 [0; 0]%Z; zpt 3 [2; 2]%Z] [mkCell 0 1%Z Tri3 [2; 0; 3]; mkCell 1 2%Z Tri3 [2; 3; 1]]
    [((-1)%Z, 0, 1)] [].
Definition ztets : mesh Z :=
  mkMesh 3 [zpt 0 [0; 0; 0]%Z; zpt 1 [1; 0; 0]%Z; zpt 2 [0; 1; 0]%Z; zpt 3 [0; 0; 1]%Z; zpt 4 [1; 1; 1]%Z; zpt 5 [0; 0; 3]%Z]
    [mkCell 0 1%Z Tet4 [0; 1; 2; 3]; mkCell 1 1%Z Tet4 [1; 2; 3; 4]; mkCell 2 2%Z Tri3 [0; 1; 2]; mkCell 3 3%Z Lin2 [3; 5]] [] [].
Definition ztets' : mesh Z :=
  mkMesh 3 [zpt 0 [0; 0; 3]%Z; zpt 1 [1; 1; 1]%Z; zpt 2 [0; 0; 1]%Z; zpt 3 [0; 1; 0]%Z; zpt 4 [1; 0; 0]%Z; zpt 5 [0; 0; 0]%Z]
    [mkCell 0 1%Z Tet4 [5; 4; 3; 2]; mkCell 1 1%Z Tet4 [4; 3; 2; 1]; mkCell 2 2%Z Tri3 [5; 4; 3]; mkCell 3 3%Z Lin2 [2; 0]] [] [].
Lemma zsq_consistent : consistent zsq. Proof. apply check_iff. reflexivity. Qed.
Lemma ztets_consistent : consistent ztets. Proof. apply check_iff. reflexivity. Qed.
Lemma zsq_complete : coords_complete zsq. Proof. intros p H. simpl in H. repeat (destruct H as [<-|H]; [reflexivity|]). destruct H. Qed.
Lemma ztets_complete : coords_complete ztets. Proof. intros p H. simpl in H. repeat (destruct H as [<-|H]; [reflexivity|]). destruct H. Qed.
Lemma ztets_no_quadratic : no_quadratic_tets ztets.
Proof. intros c H. simpl in H. repeat (destruct H as [<-|H]; [split; discriminate|]). destruct H. Qed.
Lemma zsq_fits : fits zsq.
Proof. intros c H. simpl in H. repeat (destruct H as [<-|H]; [vm_compute; lia|]). destruct H. Qed.
Lemma Zle_total : total_order Z.leb.
Proof. split; intros x y; [|intros z]; rewrite !Z.leb_le; lia. Qed.

Theorem C98_edges_2d : forall (T : Type) (m m' : mesh T) o2n (leb : T -> T -> bool) (shuffle shuffle' : emap -> emap) ea ft ft',
  consistent m -> coords_complete m -> ndim m = 2 -> renumber_points m o2n = Ok m' ->
  (forall l, Permutation (shuffle l) l) -> (forall l, Permutation (shuffle' l) l) ->
  features_new leb shuffle m ea = Ok ft -> features_new leb shuffle' m' ea = Ok ft' ->
  let new p := nth p o2n 0 in let n := List.length (points m) in
  (forall a b ed, a < n -> b < n -> get_edge ft (Nat.min a b) (Nat.max a b) = Ok ed ->
     exists ed', get_edge ft' (Nat.min (new a) (new b)) (Nat.max (new a) (new b)) = Ok ed' /\
       e_kind ed' = e_kind ed /\ e_points ed' = map new (e_points ed)) /\
  (forall a' b' ed', get_edge ft' a' b' = Ok ed' ->
     exists a b ed, a < n /\ b < n /\ a' = Nat.min (new a) (new b) /\ b' = Nat.max (new a) (new b) /\
       get_edge ft (Nat.min a b) (Nat.max a b) = Ok ed).
Proof.
  intros T m m' o2n leb sh sh' ea ft ft' C K D H S S' F F' new n. destruct (ready_to_renumber m m' o2n C K H) as (P & R). split.
  - intros a b ed A B G. exact (edges_moved m m' o2n C P R leb sh sh' S S' ea ft ft' F F' a b ed D A B G).
  - intros a' b' ed' G. exact (edges_back m m' o2n C P R leb sh sh' S S' ea ft ft' F F' a' b' ed' D G).
Qed.
Print Assumptions C98_edges_2d.
Example C98_edges_2d_ex : consistent zsq /\ coords_complete zsq /\ renumber_points zsq [2; 0; 3; 1] = Ok zsq' /\
  exists ft ft' ed ed', features_new Z.leb (fun l => l) zsq false = Ok ft /\ features_new Z.leb (@rev _) zsq' false = Ok ft' /\
    get_edge ft 1 2 = Ok ed /\ get_edge ft' 0 3 = Ok ed' /\ e_points ed = [2; 1] /\ e_points ed' = [3; 0].
Proof.
  split; [exact zsq_consistent|]. split; [exact zsq_complete|]. split; [reflexivity|].
  do 4 eexists. split; [vm_compute; reflexivity|]. split; [vm_compute; reflexivity|]. split; [vm_compute; reflexivity|]. split; [vm_compute; reflexivity|]. split; reflexivity.
Qed.

Theorem C98_faces : forall (T : Type) (m m' : mesh T) o2n (leb : T -> T -> bool) (shuffle shuffle' : emap -> emap) ea ft ft',
  consistent m -> coords_complete m -> ndim m = 3 -> no_quadratic_tets m -> renumber_points m o2n = Ok m' ->
  features_new leb shuffle m ea = Ok ft -> features_new leb shuffle' m' ea = Ok ft' ->
  let new p := nth p o2n 0 in let n := List.length (points m) in
  (forall k fc, get_face ft k = Ok fc ->
     exists fc', get_face ft' (sort4 (map new k)) = Ok fc' /\ f_kind fc' = f_kind fc /\ f_points fc' = map new (f_points fc)) /\
  (forall k' fc', get_face ft' k' = Ok fc' -> exists k fc, k' = sort4 (map new k) /\ get_face ft k = Ok fc) /\
  (forall a b, a < n -> b < n ->
     (exists ed', get_edge ft' (Nat.min (new a) (new b)) (Nat.max (new a) (new b)) = Ok ed') <->
     (exists ed, get_edge ft (Nat.min a b) (Nat.max a b) = Ok ed)).
Proof.
  intros T m m' o2n leb sh sh' ea ft ft' C K D Q H F F' new n. destruct (ready_to_renumber m m' o2n C K H) as (P & R). split; [|split].
  - intros k fc G. exact (faces_moved m m' o2n C P R leb sh sh' ea ft ft' F F' k fc D Q G).
  - intros k' fc' G. exact (faces_back m m' o2n C P R leb sh sh' ea ft ft' F F' k' fc' D Q G).
  - intros a b A B. exact (edges_3d_moved m m' o2n C P R leb sh sh' ea ft ft' F F' a b D Q A B).
Qed.
Print Assumptions C98_faces.
Example C98_faces_ex : consistent ztets /\ coords_complete ztets /\ no_quadratic_tets ztets /\ renumber_points ztets [5; 4; 3; 2; 1; 0] = Ok ztets' /\
  exists ft ft' fc fc', features_new Z.leb (fun l => l) ztets false = Ok ft /\ features_new Z.leb (@rev _) ztets' false = Ok ft' /\
    get_face ft (sort4 [0; 1; 2]) = Ok fc /\ get_face ft' (sort4 (map (fun p => nth p [5; 4; 3; 2; 1; 0] 0) (sort4 [0; 1; 2]))) = Ok fc' /\ f_points fc = [0; 2; 1] /\ f_points fc' = [5; 3; 4].
Proof.
  split; [exact ztets_consistent|]. split; [exact ztets_complete|]. split; [exact ztets_no_quadratic|]. split; [reflexivity|].
  do 4 eexists. split; [vm_compute; reflexivity|]. split; [vm_compute; reflexivity|]. split; [vm_compute; reflexivity|]. split; [vm_compute; reflexivity|]. split; reflexivity.
Qed.

Theorem C98_points_and_limits : forall (T : Type) (m m' : mesh T) o2n (leb : T -> T -> bool) (shuffle shuffle' : emap -> emap) ea ft ft',
  consistent m -> coords_complete m -> ndim m = 2 \/ ndim m = 3 -> no_quadratic_tets m -> renumber_points m o2n = Ok m' ->
  (forall l, Permutation (shuffle l) l) -> (forall l, Permutation (shuffle' l) l) -> total_order leb ->
  features_new leb shuffle m ea = Ok ft -> features_new leb shuffle' m' ea = Ok ft' ->
  Permutation (ft_points ft') (map (fun p => nth p o2n 0) (ft_points ft)) /\
  ((forall x y, leb x y = true -> leb y x = true -> x = y) -> ft_limits ft' = ft_limits ft).
Proof.
  intros T m m' o2n leb sh sh' ea ft ft' C K D Q H S S' O F F'. destruct (ready_to_renumber m m' o2n C K H) as (P & R).
  exact (points_moved m m' o2n C P R leb sh sh' S S' ea ft ft' F F' O D Q).
Qed.
Print Assumptions C98_points_and_limits.
Example C98_points_ex : total_order Z.leb /\ (forall x y, Z.leb x y = true -> Z.leb y x = true -> x = y) /\ exists ft ft',
  features_new Z.leb (fun l => l) ztets false = Ok ft /\ features_new Z.leb (@rev _) ztets' false = Ok ft' /\
  ft_limits ft' = ([Some 0; Some 0; Some 0], [Some 1; Some 1; Some 3])%Z /\ List.length (ft_points ft') = 6.
Proof.
  split; [exact Zle_total|]. split; [intros x y; rewrite !Z.leb_le; lia|].
  do 2 eexists. split; [vm_compute; reflexivity|]. split; [vm_compute; reflexivity|]. split; reflexivity.
Qed.

Theorem C98_neighbors : forall (T : Type) (m m' : mesh T) o2n (leb : T -> T -> bool) (shuffle shuffle' : emap -> emap) ea ft ft' c r,
  consistent m -> coords_complete m -> ndim m = 2 -> fits m -> renumber_points m o2n = Ok m' ->
  features_new leb shuffle m ea = Ok ft -> features_new leb shuffle' m' ea = Ok ft' ->
  get_neighbors_2d m ft c = Ok r -> exists r', get_neighbors_2d m' ft' c = Ok r' /\ Permutation r' r.
Proof.
  intros T m m' o2n leb sh sh' ea ft ft' c r C K D Fi H F F' G. destruct (ready_to_renumber m m' o2n C K H) as (P & R).
  exact (neighbors_moved m m' o2n C P R leb sh sh' ea ft ft' F F' c r D Fi G).
Qed.
Print Assumptions C98_neighbors.
Example C98_neighbors_ex : fits zsq /\ exists ft ft', features_new Z.leb (fun l => l) zsq true = Ok ft /\ features_new Z.leb (@rev _) zsq' true = Ok ft' /\
  get_neighbors_2d zsq ft 0 = Ok [(2, 1, 0)] /\ get_neighbors_2d zsq' ft' 0 = Ok [(2, 1, 0)].
Proof.
  split; [exact zsq_fits|]. do 2 eexists. split; [vm_compute; reflexivity|]. split; [vm_compute; reflexivity|]. split; vm_compute; reflexivity.
Qed.

Theorem C98_graph : forall (T : Type) (m m' : mesh T) o2n calc chk g g',
  consistent m -> coords_complete m -> renumber_points m o2n = Ok m' ->
  from_mesh m calc chk = Ok g -> from_mesh m' calc chk = Ok g' ->
  nv g' = nv g /\
  (forall a b, a < nv g -> b < nv g -> GraphVocab.edge g' (nth a o2n 0) (nth b o2n 0) <-> GraphVocab.edge g a b).
Proof.
  intros T m m' o2n calc chk g g' C K H G G'. destruct (ready_to_renumber m m' o2n C K H) as (P & R).
  assert (W : forall k : mesh T, consistent k -> cells_in_range k).
  { intros k (_ & Ck) c p I J. apply In_nth_error in I as (i & I). exact (proj2 (proj2 (Ck i c I)) p J). }
  destruct (C06_graph_of_mesh T m calc chk g (W m C) G) as (N & E & _).
  destruct (C06_graph_of_mesh T m' calc chk g' (W m' (consistent_moved m m' o2n C P R)) G') as (N' & E' & _).
  assert (L : List.length (points m') = List.length (points m)) by apply R. split; [congruence|]. intros a b A B. rewrite N in A, B. rewrite E, E'. exact (mesh_edge_moved m m' o2n C P R a b A B).
Qed.
Print Assumptions C98_graph.
Example C98_graph_ex : exists g g', from_mesh zsq true true = Ok g /\ from_mesh zsq' true true = Ok g' /\
  GraphModel.has_edge g 0 1 = true /\ GraphModel.has_edge g' 2 0 = true /\ GraphModel.has_edge g 1 3 = false /\ GraphModel.has_edge g' 0 1 = false.
Proof. do 2 eexists. split; [vm_compute; reflexivity|]. split; [vm_compute; reflexivity|]. repeat split; vm_compute; reflexivity. Qed.

Theorem C98_pads : forall (m m' : mesh R) o2n,
  consistent m -> coords_complete m -> renumber_points m o2n = Ok m' ->
  (forall c, get_pad m' c = get_pad m c) /\
  (forall p pts, (forall q, In q pts -> q < List.length (points m)) ->
     mesh_set_pad m' p (map (fun q => nth q o2n 0) pts) = mesh_set_pad m p pts) /\
  (forall zdet, check_jacobian zdet m' = check_jacobian zdet m).
Proof.
  intros m m' o2n C K H. destruct (ready_to_renumber m m' o2n C K H) as (P & R). split; [|split].
  - exact (get_pad_moved m m' o2n C R).
  - exact (set_pad_moved m m' o2n R).
  - exact (check_jacobian_moved m m' o2n C R).
Qed.
Print Assumptions C98_pads.
Example C98_pads_ex : forall x y : R, let pt i xs := mkPoint i 0%Z xs in
  let m := mkMesh 2 [pt 0 [x; y]; pt 1 [y; x]; pt 2 [x; x]] [mkCell 0 1%Z Tri3 [0; 1; 2]] [] [] in
  let m' := mkMesh 2 [pt 0 [x; x]; pt 1 [x; y]; pt 2 [y; x]] [mkCell 0 1%Z Tri3 [1; 2; 0]] [] [] in
  consistent m /\ coords_complete m /\ renumber_points m [1; 2; 0] = Ok m' /\ exists p, get_pad m' 0 = Ok p.
Proof.
  intros x y pt m m'. split; [apply check_iff; reflexivity|]. split; [intros p H; simpl in H; repeat (destruct H as [<-|H]; [reflexivity|]); destruct H|].
  split; [reflexivity|]. eexists. vm_compute. reflexivity.
Qed.

(* the markers of the features do not follow the points: the marked edges and faces keep the old numbers *)
Theorem C98_markers_refuted : exists (m m' : mesh Z) o2n ft ft' a b ed ed',
  consistent m /\ coords_complete m /\ renumber_points m o2n = Ok m' /\
  features_new Z.leb (fun l => l) m false = Ok ft /\ features_new Z.leb (fun l => l) m' false = Ok ft' /\
  get_edge ft a b = Ok ed /\ get_edge ft' (Nat.min (nth a o2n 0) (nth b o2n 0)) (Nat.max (nth a o2n 0) (nth b o2n 0)) = Ok ed' /\
  e_marker ed = (-1)%Z /\ e_marker ed' = 0%Z.
Proof.
  exists zsq, zsq', [2; 0; 3; 1]. do 2 eexists. exists 0, 1. do 2 eexists. split; [exact zsq_consistent|]. split; [exact zsq_complete|]. split; [reflexivity|].
  split; [vm_compute; reflexivity|]. split; [vm_compute; reflexivity|]. split; [vm_compute; reflexivity|]. split; [vm_compute; reflexivity|]. split; reflexivity.
Qed.
Print Assumptions C98_markers_refuted.
