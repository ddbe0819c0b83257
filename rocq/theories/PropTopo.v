(* C19-C24, C27: edges, faces and features of a mesh *)
From Coq Require Import String List Arith Bool ZArith QArith Lia Lqa Permutation Sorted.
From Verif Require Import Base BaseFacts Kind MeshModel MeshQueryModel MeshQuerySpec MeshQueryProof TopoModel TopoSpec TopoProof TopoFeat4 TopoFeat5 TopoFeat6 TopoPathSpec TopoPath TopoFinal PropMeshQuery.
Import ListNotations.
Open Scope nat_scope.

(* two tetrahedra sharing the face {1,2,3}, a shell on the face {0,1,2} and a cable; a marked face and a marked edge *)
Definition pt3 (i : nat) (x y z : Q) : point Q := mkPoint i 0%Z [x; y; z].
Definition tets : mesh Q :=
  mkMesh 3
    [pt3 0 0 0 0; pt3 1 1 0 0; pt3 2 0 1 0; pt3 3 0 0 1; pt3 4 1 1 1; pt3 5 0 0 3]
    [mkCell 0 1%Z Tet4 [0; 1; 2; 3]; mkCell 1 1%Z Tet4 [1; 2; 3; 4]; mkCell 2 2%Z Tri3 [0; 1; 2]; mkCell 3 3%Z Lin2 [3; 5]]
    [((-5)%Z, 4, 1)] [((-7)%Z, 2, 0, 1, None)].
Lemma tets_consistent : consistent tets.
Proof. apply check_iff. reflexivity. Qed.
Lemma tets_complete : coords_complete tets.
Proof. intros p H. simpl in H. repeat (destruct H as [<-|H]; [reflexivity|]). destruct H. Qed.
Lemma tets_no_quadratic : no_quadratic_tets tets.
Proof. intros c H. simpl in H. repeat (destruct H as [<-|H]; [split; discriminate|]). destruct H. Qed.
Lemma tets_nodup : forall cl, In cl (cells tets) -> NoDup (c_points cl).
Proof. intros c H. simpl in H. repeat (destruct H as [<-|H]; [repeat constructor; simpl; lia|]). destruct H. Qed.
Lemma sq_nodup : forall cl, In cl (cells sq) -> NoDup (c_points cl).
Proof. intros c H. simpl in H. repeat (destruct H as [<-|H]; [repeat constructor; simpl; lia|]). destruct H. Qed.
Lemma sq_fits : fits sq.
Proof. intros c H. simpl in H. repeat (destruct H as [<-|H]; [vm_compute; lia|]). destruct H. Qed.
Lemma Qle_total : total_order Qle_bool.
Proof.
  split.
  - intros x y. rewrite !Qle_bool_iff. destruct (Qlt_le_dec x y); [left; apply Qlt_le_weak|right]; assumption.
  - intros x y z. rewrite !Qle_bool_iff. apply Qle_trans.
Qed.
Definition sq_all := features_new Qle_bool (fun l => l) sq true.
Definition sq_boundary := features_new Qle_bool (@rev _) sq false.
Definition tets_all := features_new Qle_bool (fun l => l) tets true.
Definition tets_boundary := features_new Qle_bool (fun l => l) tets false.

(* ten-node tetrahedra sharing the face {1,2,3} (with middle points 5, 8, 9) *)
Definition tets10 : mesh Q :=
  mkMesh 3
    [pt3 0 0 0 0; pt3 1 1 0 0; pt3 2 0 1 0; pt3 3 0 0 1; pt3 4 (1#2) 0 0; pt3 5 (1#2) (1#2) 0; pt3 6 0 (1#2) 0;
     pt3 7 0 0 (1#2); pt3 8 (1#2) 0 (1#2); pt3 9 0 (1#2) (1#2); pt3 10 1 1 1; pt3 11 1 (1#2) (1#2); pt3 12 (1#2) 1 (1#2); pt3 13 (1#2) (1#2) 1]
    [mkCell 0 1%Z Tet10 [0; 1; 2; 3; 4; 5; 6; 7; 8; 9]; mkCell 1 1%Z Tet10 [1; 2; 3; 10; 5; 9; 8; 11; 12; 13]] []
    [((-7)%Z, 0, 1, 2, None)].

(* C19 *)
Theorem C19_edge_map : forall (T : Type) (m : mesh T) em,
  extract_all_2d_edges m = Ok em -> NoDup (map c_id (cells m)) ->
  NoDup (map fst em) /\
  (forall a b, a <= b ->
     match mget ekey_eqb em (a, b) with
     | Some l => l <> [] /\ NoDup l /\ forall ce, In ce l <-> has_edge m a b ce
     | None => forall ce, ~ has_edge m a b ce
     end) /\
  (forall a b, b < a -> mget ekey_eqb em (a, b) = None).
Proof. exact @edge_map_spec. Qed.
Print Assumptions C19_edge_map.
Theorem C19_edge_map_total : forall (T : Type) (m : mesh T), ndim m = 2 ->
  (forall c, In c (cells m) -> List.length (c_points c) = kind_nnode (c_kind c)) -> exists em, extract_all_2d_edges m = Ok em.
Proof. exact @edge_map_total. Qed.
Print Assumptions C19_edge_map_total.
Example C19_ex : extract_all_2d_edges sq =
  Ok [((0, 1), [(0, 0)]); ((1, 2), [(0, 1)]); ((0, 2), [(0, 2); (1, 0)]); ((2, 3), [(1, 1)]); ((0, 3), [(1, 2)])] /\
  NoDup (map c_id (cells sq)).
Proof. split; [vm_compute; reflexivity|]. repeat constructor; simpl; lia. Qed.

(* C20 *)
Theorem C20_face_map : forall (T : Type) (m : mesh T) fm,
  extract_all_faces m = Ok fm -> NoDup (map c_id (cells m)) -> no_quadratic_tets m ->
  NoDup (map fst fm) /\
  forall k, match mget fkey_eqb fm k with
    | Some l => StronglySorted le k /\ l <> [] /\ NoDup l /\ forall cf, In cf l <-> has_face m k cf
    | None => StronglySorted le k -> forall cf, ~ has_face m k cf
    end.
Proof. exact @face_map_spec. Qed.
Print Assumptions C20_face_map.
Theorem C20_orientation : forall (T : Type) (m : mesh T) ps qs c f,
  has_face m ps (c, f) -> Permutation ps qs -> has_face m qs (c, f).
Proof. exact @face_orientation. Qed.
Print Assumptions C20_orientation.
(* for every mesh, the map works with the first four points of a face *)
Theorem C20_first_four : forall (T : Type) (m : mesh T) fm,
  extract_all_faces m = Ok fm -> NoDup (map c_id (cells m)) ->
  NoDup (map fst fm) /\
  (forall ps, match mget fkey_eqb fm (sort4 ps) with
    | Some l => l <> [] /\ NoDup l /\ forall cf, In cf l <-> has_face4 m ps cf
    | None => forall cf, ~ has_face4 m ps cf
    end) /\
  (forall k l, mget fkey_eqb fm k = Some l -> StronglySorted le k).
Proof. exact @face_map_spec4. Qed.
Print Assumptions C20_first_four.
Theorem C20_face_map_total : forall (T : Type) (m : mesh T), ndim m = 3 ->
  (forall c, In c (cells m) -> List.length (c_points c) = kind_nnode (c_kind c)) -> exists fm, extract_all_faces m = Ok fm.
Proof. exact @face_map_total. Qed.
Print Assumptions C20_face_map_total.
Example C20_ex : (match extract_all_faces tets with Ok fm => mget fkey_eqb fm [1; 2; 3] | _ => None end) = Some [(0, 3); (1, 2)] /\
  NoDup (map c_id (cells tets)) /\ no_quadratic_tets tets.
Proof. split; [vm_compute; reflexivity|]. split; [repeat constructor; simpl; lia|exact tets_no_quadratic]. Qed.
(* ten-node tetrahedra that share a face do not share a key *)
Theorem C20_quadratic_tets_refuted : exists (m : mesh Q) fm,
  check_ids_and_kind m = Ok tt /\ extract_all_faces m = Ok fm /\
  has_face m [1; 2; 3] (0, 3) /\ has_face m [1; 2; 3] (1, 2) /\
  ~ exists k l, mget fkey_eqb fm k = Some l /\ In (0, 3) l /\ In (1, 2) l.
Proof.
  exists tets10. eexists. split; [reflexivity|]. split; [vm_compute; reflexivity|]. split; [|split].
  - exists [1; 2; 3]. split; [|apply Permutation_refl]. eexists. split; [left; reflexivity|]. vm_compute. repeat split; lia.
  - exists [1; 3; 2]. split; [|apply perm_skip, perm_swap]. eexists. split; [right; left; reflexivity|]. vm_compute. repeat split; lia.
  - intros (k & l & G & A & B). apply (TopoMaps.mget_in _ TopoMaps.fkey_eqb_eq) in G. simpl in G.
    repeat (destruct G as [G|G]; [injection G as <- <-; simpl in A, B; intuition congruence|]). destruct G.
Qed.
Print Assumptions C20_quadratic_tets_refuted.

(* C21; [shuffle] is the arbitrary order in which the hash map of edges is visited *)
Theorem C21_new_total : forall (T : Type) (leb : T -> T -> bool) (shuffle : emap -> emap),
  (forall l, Permutation (shuffle l) l) -> forall (m : mesh T) ea,
  consistent m -> coords_complete m -> ndim m = 2 \/ ndim m = 3 -> exists ft, features_new leb shuffle m ea = Ok ft.
Proof. exact @new_total. Qed.
Print Assumptions C21_new_total.
Theorem C21_listed_edges_2d : forall (T : Type) (leb : T -> T -> bool) (shuffle : emap -> emap),
  (forall l, Permutation (shuffle l) l) -> forall (m : mesh T) ea ft,
  consistent m -> ndim m = 2 -> features_new leb shuffle m ea = Ok ft ->
  forall a b, (exists ed, get_edge ft a b = Ok ed) <-> a <= b /\ wanted ea (has_edge m a b).
Proof. exact @listed_edges_2d. Qed.
Print Assumptions C21_listed_edges_2d.
Theorem C21_edge_data_2d : forall (T : Type) (leb : T -> T -> bool) (shuffle : emap -> emap),
  (forall l, Permutation (shuffle l) l) -> forall (m : mesh T) ea ft,
  consistent m -> ndim m = 2 -> features_new leb shuffle m ea = Ok ft ->
  ft_faces ft = [] /\
  forall a b ed, get_edge ft a b = Ok ed -> edge_marker m a b (e_marker ed) /\
    exists ce, first_with (has_edge m a b) ce /\ edge_nodes m (fst ce) (snd ce) (e_kind ed) (e_points ed).
Proof. intros T leb sh P m ea ft C D H. destruct (TopoFeat3.edges_2d leb sh P m ea ft C D H) as (_ & A & _ & B). auto. Qed.
Print Assumptions C21_edge_data_2d.
Definition same_faces {T} (r : res (@features T)) := match r with Ok ft => (map fst (ft_edges ft), map fst (ft_faces ft)) | _ => ([], []) end.
Example C21_ex_2d : same_faces sq_boundary = ([(0, 3); (2, 3); (1, 2); (0, 1)], []) /\
  same_faces sq_all = ([(0, 1); (1, 2); (0, 2); (2, 3); (0, 3)], []) /\ consistent sq /\ coords_complete sq /\ ndim sq = 2.
Proof. split; [vm_compute; reflexivity|]. split; [vm_compute; reflexivity|]. split; [exact sq_consistent|]. split; [exact sq_complete|reflexivity]. Qed.
Theorem C21_listed_faces_3d : forall (T : Type) (leb : T -> T -> bool) (shuffle : emap -> emap) (m : mesh T) ea ft,
  consistent m -> ndim m = 3 -> no_quadratic_tets m -> features_new leb shuffle m ea = Ok ft ->
  forall k, (exists fc, get_face ft k = Ok fc) <-> StronglySorted le k /\ wanted ea (has_face m k).
Proof. exact @listed_faces_3d. Qed.
Print Assumptions C21_listed_faces_3d.
Theorem C21_face_data_3d : forall (T : Type) (leb : T -> T -> bool) (shuffle : emap -> emap) (m : mesh T) ea ft,
  consistent m -> ndim m = 3 -> no_quadratic_tets m -> features_new leb shuffle m ea = Ok ft ->
  forall k fc, get_face ft k = Ok fc -> face_marker m k (f_marker fc) /\
    exists cf, first_with (has_face m k) cf /\ face_nodes m (fst cf) (snd cf) (f_kind fc) (f_points fc).
Proof. exact @face_data_3d. Qed.
Print Assumptions C21_face_data_3d.
Theorem C21_listed_edges_3d : forall (T : Type) (leb : T -> T -> bool) (shuffle : emap -> emap) (m : mesh T) ea ft,
  consistent m -> ndim m = 3 -> features_new leb shuffle m ea = Ok ft ->
  (forall a b, (exists ed, get_edge ft a b = Ok ed) <->
     a <= b /\ exists k fc e p q, get_face ft k = Ok fc /\ side_of (f_kind fc) (f_points fc) e p q /\ same_pair a b p q) /\
  (forall a b ed, get_edge ft a b = Ok ed ->
     edge_marker m a b (e_marker ed) /\
     exists k fc e p q, get_face ft k = Ok fc /\ side_of (f_kind fc) (f_points fc) e p q /\ same_pair a b p q /\
       side_nodes (f_kind fc) (f_points fc) e (e_kind ed) (e_points ed)).
Proof. exact @listed_edges_3d. Qed.
Print Assumptions C21_listed_edges_3d.
Example C21_ex_3d :
  same_faces tets_boundary = ([(0, 2); (1, 2); (0, 1); (1, 3); (0, 3); (2, 3); (2, 4); (1, 4); (3, 4)],
    [[0; 1; 2]; [0; 1; 3]; [0; 2; 3]; [1; 2; 4]; [1; 3; 4]; [2; 3; 4]]) /\
  map (fun k => match tets_all with Ok ft => is_ok (get_face ft k) | _ => false end) [[1; 2; 3]; [0; 1; 2]; [0; 1; 4]] = [true; true; false] /\
  map (fun k => match tets_boundary with Ok ft => is_ok (get_face ft k) | _ => false end) [[1; 2; 3]; [0; 1; 2]; [0; 1; 4]] = [false; true; false].
Proof. vm_compute. auto. Qed.
Example C21_ex_3d_hyp : consistent tets /\ ndim tets = 3 /\ no_quadratic_tets tets /\ coords_complete tets /\ is_ok tets_boundary = true.
Proof. split; [exact tets_consistent|]. split; [reflexivity|]. split; [exact tets_no_quadratic|]. split; [exact tets_complete|vm_compute; reflexivity]. Qed.
(* with ten-node tetrahedra an interior face is listed as boundary, twice, and a marked triangular face loses its marker *)
Theorem C21_quadratic_tets_refuted : exists (m : mesh Q) ft k fc k' fc',
  check_ids_and_kind m = Ok tt /\ features_new Qle_bool (fun l => l) m false = Ok ft /\
  get_face ft k = Ok fc /\ get_face ft k' = Ok fc' /\
  Permutation (firstn 3 (f_points fc)) (firstn 3 (f_points fc')) /\
  has_face m (firstn 3 (f_points fc)) (0, 3) /\ has_face m (firstn 3 (f_points fc)) (1, 2) /\ k <> k' /\
  marked_faces m = [((-7)%Z, 0, 1, 2, None)] /\ has_face m [0; 1; 2] (0, 2) /\
  forall k fc, get_face ft k = Ok fc -> f_marker fc = 0%Z.
Proof.
  exists tets10. eexists. exists [1; 2; 3; 5]. eexists. exists [1; 2; 3; 8]. eexists. split; [reflexivity|]. split; [vm_compute; reflexivity|].
  split; [vm_compute; reflexivity|]. split; [vm_compute; reflexivity|]. split; [vm_compute; apply perm_skip, perm_swap|].
  split; [|split; [|split; [discriminate|split; [reflexivity|split]]]].
  - exists [1; 2; 3]. split; [|vm_compute; apply Permutation_refl]. eexists. split; [left; reflexivity|]. vm_compute. repeat split; lia.
  - exists [1; 3; 2]. split; [|vm_compute; apply perm_skip, perm_swap]. eexists. split; [right; left; reflexivity|]. vm_compute. repeat split; lia.
  - exists [0; 2; 1]. split; [|apply perm_skip, perm_swap]. eexists. split; [left; reflexivity|]. vm_compute. repeat split; lia.
  - intros k fc G. apply TopoFeat3.get_face_iff in G. apply (TopoMaps.mget_in _ TopoMaps.fkey_eqb_eq) in G. simpl in G.
    repeat (destruct G as [G|G]; [injection G as <- <-; reflexivity|]). destruct G.
Qed.
Print Assumptions C21_quadratic_tets_refuted.
(* a stored feature is stored under its own key *)
Theorem C21_edge_keys : forall (T : Type) (leb : T -> T -> bool) (shuffle : emap -> emap),
  (forall l, Permutation (shuffle l) l) -> forall (m : mesh T) ea ft a b ed,
  consistent m -> ndim m = 2 \/ ndim m = 3 -> features_new leb shuffle m ea = Ok ft ->
  get_edge ft a b = Ok ed -> edge_key ed = Ok (a, b) /\ a <= b.
Proof. exact @get_edge_key. Qed.
Print Assumptions C21_edge_keys.
Theorem C21_face_keys : forall (T : Type) (leb : T -> T -> bool) (shuffle : emap -> emap) (m : mesh T) ea ft k fc,
  consistent m -> ndim m = 3 -> features_new leb shuffle m ea = Ok ft ->
  get_face ft k = Ok fc -> face_key fc = Ok k.
Proof.
  intros T leb sh m ea ft k fc C D H G.
  destruct (get_face_points leb sh m ea ft k fc C D H G) as (_ & _ & _ & _ & _ & _ & _ & _ & _ & _ & K). exact K.
Qed.
Print Assumptions C21_face_keys.
(* edges of the boundary *)
Theorem C21_boundary_edges_2d : forall (T : Type) (leb : T -> T -> bool) (shuffle : emap -> emap) (m : mesh T) ea ft r,
  consistent m -> ndim m = 2 -> features_new leb shuffle m ea = Ok ft -> get_boundary_edges m ft = Ok r ->
  NoDup r /\ forall a b, In (a, b) r <-> a <= b /\ exists! ce, has_edge m a b ce.
Proof. exact @boundary_edges_2d. Qed.
Print Assumptions C21_boundary_edges_2d.
Theorem C21_boundary_edges_3d : forall (T : Type) (leb : T -> T -> bool) (shuffle : emap -> emap) (m : mesh T) ea ft,
  consistent m -> ndim m = 3 -> no_quadratic_tets m -> features_new leb shuffle m ea = Ok ft ->
  exists r, get_boundary_edges m ft = Ok r /\
  NoDup r /\ forall a b, In (a, b) r <-> a <= b /\ exists k fc e p q, get_face ft k = Ok fc /\ (exists! cf, has_face m k cf) /\
    side_of (f_kind fc) (f_points fc) e p q /\ same_pair a b p q.
Proof.
  intros T leb sh m ea ft C D Q H. destruct (boundary_edges_total_3d leb sh m ea ft C D H) as (r & E). exists r. split; [exact E|].
  destruct (boundary_edges_3d leb sh m ea ft r C D H E) as [A B]. split; [exact A|]. intros a b. rewrite B.
  split; intros (L & k & fc & e & p & q & G & U & R); (split; [exact L|]); exists k, fc, e, p, q; (split; [exact G|]); (split; [|exact R]);
    (apply (wanted_ext false (has_face m k) (has_face4 m k)); [intros x; apply has_face_4; exact Q|exact U]).
Qed.
Print Assumptions C21_boundary_edges_3d.
Example C21_boundary_edges_ex :
  (match sq_all with Ok ft => get_boundary_edges sq ft | _ => Panic end) = Ok [(0, 1); (1, 2); (2, 3); (0, 3)] /\
  (match tets_all with Ok ft => match get_boundary_edges tets ft with Ok r => List.length r | _ => 0 end | _ => 0 end) = 9.
Proof. vm_compute. auto. Qed.
(* marked features, sorted by key *)
Theorem C21_marked_edges : forall (T : Type) (leb : T -> T -> bool) (shuffle : emap -> emap),
  (forall l, Permutation (shuffle l) l) -> forall (m : mesh T) ea ft mk,
  consistent m -> ndim m = 2 \/ ndim m = 3 -> features_new leb shuffle m ea = Ok ft ->
  exists r, search_marked_edges ft mk = Ok r /\
  (forall ed, In ed r <-> e_marker ed = mk /\ exists a b, get_edge ft a b = Ok ed) /\
  StronglySorted (fun x y => forall k k', edge_key x = Ok k -> edge_key y = Ok k' -> lex k k') r.
Proof. exact @marked_edges_spec. Qed.
Print Assumptions C21_marked_edges.
Theorem C21_marked_faces : forall (T : Type) (leb : T -> T -> bool) (shuffle : emap -> emap) (m : mesh T) ea ft mk,
  consistent m -> ndim m = 3 -> features_new leb shuffle m ea = Ok ft ->
  exists r, search_marked_faces ft mk = Ok r /\
  (forall fc, In fc r <-> f_marker fc = mk /\ exists k, get_face ft k = Ok fc) /\
  StronglySorted (fun x y => forall k k', face_key x = Ok k -> face_key y = Ok k' -> fkey_leb k' k = false) r.
Proof. exact @marked_faces_spec. Qed.
Print Assumptions C21_marked_faces.
Example C21_marked_ex :
  (match tets_boundary with Ok ft => search_marked_edges ft (-5) | _ => Panic end) = Ok [mkEdge Lin2 [1; 4] (-5)%Z] /\
  (match tets_boundary with Ok ft => search_marked_faces ft (-7) | _ => Panic end) = Ok [mkFace Tri3 [0; 2; 1] (-7)%Z].
Proof. vm_compute. auto. Qed.

(* C22 *)
Theorem C22_points_and_limits : forall (T : Type) (leb : T -> T -> bool) (shuffle : emap -> emap),
  (forall l, Permutation (shuffle l) l) -> forall (m : mesh T) ea ft,
  total_order leb -> consistent m -> ndim m = 2 \/ ndim m = 3 -> features_new leb shuffle m ea = Ok ft ->
  let used p := (exists a b ed, get_edge ft a b = Ok ed /\ In p (e_points ed)) \/ (exists k fc, get_face ft k = Ok fc /\ In p (f_points fc)) \/
                (exists cl, cable_or_shell m cl /\ In p (c_points cl)) in
  NoDup (ft_points ft) /\ (forall p, In p (ft_points ft) <-> used p) /\
  List.length (fst (ft_limits ft)) = ndim m /\ List.length (snd (ft_limits ft)) = ndim m /\
  forall j, j < ndim m -> let xs x := exists p, used p /\ coord_is m p j x in
    match nth j (fst (ft_limits ft)) None with Some z => least leb xs z | None => forall y, ~ xs y end /\
    match nth j (snd (ft_limits ft)) None with Some z => greatest leb xs z | None => forall y, ~ xs y end.
Proof. exact @points_and_limits. Qed.
Print Assumptions C22_points_and_limits.
Theorem C22_point_maps : forall (T : Type) (leb : T -> T -> bool) (shuffle : emap -> emap),
  (forall l, Permutation (shuffle l) l) -> forall (m : mesh T) ea ft,
  consistent m -> ndim m = 2 \/ ndim m = 3 -> features_new leb shuffle m ea = Ok ft ->
  (forall p a b, In (a, b) (match mget Nat.eqb (ft_point_to_edges ft) p with Some l => l | None => [] end) <->
     exists ed, get_edge ft a b = Ok ed /\ In p (e_points ed)) /\
  (forall p k, In k (match mget Nat.eqb (ft_point_to_faces ft) p with Some l => l | None => [] end) <->
     exists fc, get_face ft k = Ok fc /\ In p (f_points fc)).
Proof. exact @point_maps. Qed.
Print Assumptions C22_point_maps.
Example C22_ex :
  (match tets_boundary with Ok ft => Some (isort Nat.leb (ft_points ft), ft_limits ft, ft_cables ft, ft_shells ft) | _ => None end) =
    Some ([0; 1; 2; 3; 4; 5], ([Some 0; Some 0; Some 0], [Some 1; Some 1; Some 3])%Q, [3], [2]) /\
  (match sq_boundary with Ok ft => mget Nat.eqb (ft_point_to_edges ft) 2 | _ => None end) = Some [(2, 3); (1, 2)] /\
  total_order Qle_bool.
Proof. split; [vm_compute; reflexivity|]. split; [vm_compute; reflexivity|exact Qle_total]. Qed.

(* C23 *)
Theorem C23_neighbors : forall (T : Type) (leb : T -> T -> bool) (shuffle : emap -> emap) (m : mesh T) ea ft c r,
  consistent m -> fits m -> ndim m = 2 -> features_new leb shuffle m ea = Ok ft -> get_neighbors_2d m ft c = Ok r ->
  NoDup r /\ forall e n ne, In (e, n, ne) r <-> n <> c /\ exists a b, has_edge m a b (c, e) /\ has_edge m a b (n, ne).
Proof. exact @neighbors_iff. Qed.
Print Assumptions C23_neighbors.
Theorem C23_symmetric : forall (T : Type) (leb : T -> T -> bool) (shuffle : emap -> emap) (m : mesh T) ea ft c n e ne r r',
  consistent m -> fits m -> ndim m = 2 -> features_new leb shuffle m ea = Ok ft ->
  get_neighbors_2d m ft c = Ok r -> get_neighbors_2d m ft n = Ok r' -> In (e, n, ne) r <-> In (ne, c, e) r'.
Proof. exact @neighbors_symmetric. Qed.
Print Assumptions C23_symmetric.
Theorem C23_total : forall (T : Type) (leb : T -> T -> bool) (shuffle : emap -> emap) (m : mesh T) ea ft c,
  consistent m -> fits m -> ndim m = 2 -> features_new leb shuffle m ea = Ok ft ->
  c < List.length (cells m) -> exists r, get_neighbors_2d m ft c = Ok r.
Proof. exact @neighbors_total. Qed.
Print Assumptions C23_total.
Example C23_ex : (match sq_all with Ok ft => (get_neighbors_2d sq ft 0, get_neighbors_2d sq ft 1) | _ => (Panic, Panic) end) =
  (Ok [(2, 1, 0)], Ok [(0, 0, 2)]) /\ fits sq.
Proof. split; [vm_compute; reflexivity|exact sq_fits]. Qed.

(* C24 *)
Theorem C24_cells_via_edge : forall (T : Type) (leb : T -> T -> bool) (shuffle : emap -> emap),
  (forall l, Permutation (shuffle l) l) -> forall (m : mesh T) ea ft a b ed,
  consistent m -> ndim m = 2 -> features_new leb shuffle m ea = Ok ft -> get_edge ft a b = Ok ed ->
  exists ids, get_cells_via_2d_edge ft ed = Ok ids /\ ids <> [] /\
    (forall c, In c ids <-> exists e, has_edge m a b (c, e)) /\ StronglySorted le ids /\
    ((forall cl, In cl (cells m) -> NoDup (c_points cl)) -> StronglySorted lt ids).
Proof. exact @cells_of_edge. Qed.
Print Assumptions C24_cells_via_edge.
Theorem C24_cells_via_face : forall (T : Type) (leb : T -> T -> bool) (shuffle : emap -> emap) (m : mesh T) ea ft k fc,
  consistent m -> ndim m = 3 -> no_quadratic_tets m -> features_new leb shuffle m ea = Ok ft -> get_face ft k = Ok fc ->
  exists ids, get_cells_via_face ft fc = Ok ids /\ ids <> [] /\
    (forall c, In c ids <-> exists f, has_face m k (c, f)) /\ StronglySorted le ids /\
    ((forall cl, In cl (cells m) -> NoDup (c_points cl)) -> StronglySorted lt ids).
Proof. exact @cells_of_face. Qed.
Print Assumptions C24_cells_via_face.
Theorem C24_pairs_via_edge : forall (T : Type) (ft : @features T) ed ids, get_cells_via_2d_edge ft ed = Ok ids ->
  exists r, get_cells_pairs_via_2d_edge ft ed = Ok r /\ map fst r = ids /\ forall cp, In cp r -> snd cp = e_points ed.
Proof. exact @pairs_edge. Qed.
Print Assumptions C24_pairs_via_edge.
Theorem C24_pairs_via_face : forall (T : Type) (ft : @features T) fc ids, get_cells_via_face ft fc = Ok ids ->
  exists r, get_cells_pairs_via_face ft fc = Ok r /\ map fst r = ids /\ forall cp, In cp r -> snd cp = f_points fc.
Proof. exact @pairs_face. Qed.
Print Assumptions C24_pairs_via_face.
Theorem C24_cells_via_edges : forall (T : Type) (leb : T -> T -> bool) (shuffle : emap -> emap),
  (forall l, Permutation (shuffle l) l) -> forall (m : mesh T) ea ft eds,
  consistent m -> ndim m = 2 -> features_new leb shuffle m ea = Ok ft ->
  (forall ed, In ed eds -> exists a b, get_edge ft a b = Ok ed) ->
  exists ids, get_cells_via_2d_edges ft eds = Ok ids /\ StronglySorted le ids /\
    forall c, In c ids <-> exists ed a b e, In ed eds /\ get_edge ft a b = Ok ed /\ has_edge m a b (c, e).
Proof. exact @cells_of_edges. Qed.
Print Assumptions C24_cells_via_edges.
Theorem C24_cells_via_faces : forall (T : Type) (leb : T -> T -> bool) (shuffle : emap -> emap) (m : mesh T) ea ft fcs,
  consistent m -> ndim m = 3 -> no_quadratic_tets m -> features_new leb shuffle m ea = Ok ft ->
  (forall fc, In fc fcs -> exists k, get_face ft k = Ok fc) ->
  exists ids, get_cells_via_faces ft fcs = Ok ids /\ StronglySorted le ids /\
    forall c, In c ids <-> exists fc k f, In fc fcs /\ get_face ft k = Ok fc /\ has_face m k (c, f).
Proof. exact @cells_of_faces. Qed.
Print Assumptions C24_cells_via_faces.
Example C24_ex :
  (match sq_all with Ok ft => match get_edge ft 0 2 with Ok ed => (get_cells_via_2d_edge ft ed, get_cells_pairs_via_2d_edge ft ed) | _ => (Panic, Panic) end | _ => (Panic, Panic) end)
    = (Ok [0; 1], Ok [(0, [0; 2]); (1, [0; 2])]) /\
  (match tets_all with Ok ft => match get_face ft [1; 2; 3], get_face ft [0; 1; 2] with
     | Ok fc, Ok fd => (get_cells_via_face ft fc, get_cells_via_faces ft [fd; fc]) | _, _ => (Panic, Panic) end | _ => (Panic, Panic) end)
    = (Ok [0; 1], Ok [0; 0; 1]) /\ (forall cl, In cl (cells tets) -> NoDup (c_points cl)) /\ (forall cl, In cl (cells sq) -> NoDup (c_points cl)).
Proof. split; [vm_compute; reflexivity|]. split; [vm_compute; reflexivity|]. split; [exact tets_nodup|exact sq_nodup]. Qed.
(* the lookup with several edges lists a cell once per edge *)
Theorem C24_edges_lookup_distinct_refuted : exists (m : mesh Q) ft eds ids,
  check_ids_and_kind m = Ok tt /\ features_new Qle_bool (fun l => l) m false = Ok ft /\
  (forall ed, In ed eds -> exists a b, get_edge ft a b = Ok ed) /\ NoDup eds /\
  get_cells_via_2d_edges ft eds = Ok ids /\ ~ NoDup ids.
Proof.
  exists sq. eexists. exists [mkEdge Lin2 [1; 0] 0%Z; mkEdge Lin2 [2; 1] 0%Z]. eexists. split; [reflexivity|]. split; [vm_compute; reflexivity|].
  split; [|split; [|split; [vm_compute; reflexivity|]]].
  - intros ed [<-|[<-|[]]]; [exists 0, 1|exists 1, 2]; vm_compute; reflexivity.
  - repeat constructor; simpl; intuition discriminate.
  - intros N. inversion N as [|? ? X _]. apply X. left. reflexivity.
Qed.
Print Assumptions C24_edges_lookup_distinct_refuted.
Theorem C24_points_via_edges : forall (eds : list edge),
  StronglySorted lt (get_points_via_2d_edges eds) /\
  forall p, In p (get_points_via_2d_edges eds) <-> exists ed, In ed eds /\ In p (e_points ed).
Proof.
  intros eds. destruct (dedup_spec _ (isort_sorted_le (flat_map e_points eds))) as [A B]. split; [exact A|].
  intros p. unfold get_points_via_2d_edges. rewrite B, isort_in, in_flat_map. reflexivity.
Qed.
Print Assumptions C24_points_via_edges.
Theorem C24_points_via_faces : forall (fcs : list face),
  StronglySorted lt (get_points_via_faces fcs) /\
  forall p, In p (get_points_via_faces fcs) <-> exists fc, In fc fcs /\ In p (f_points fc).
Proof.
  intros fcs. destruct (dedup_spec _ (isort_sorted_le (flat_map f_points fcs))) as [A B]. split; [exact A|].
  intros p. unfold get_points_via_faces. rewrite B, isort_in, in_flat_map. reflexivity.
Qed.
Print Assumptions C24_points_via_faces.
Theorem C24_edges_all_points : forall (eds : list edge),
  StronglySorted lt (edges_all_points eds) /\
  forall p, In p (edges_all_points eds) <-> exists ed, In ed eds /\ In p (e_points ed).
Proof.
  intros eds. destruct (all_points_spec (flat_map e_points eds)) as [A B]. split; [exact A|].
  intros p. unfold edges_all_points. rewrite B, in_flat_map. reflexivity.
Qed.
Print Assumptions C24_edges_all_points.
Theorem C24_faces_all_points : forall (fcs : list face),
  StronglySorted lt (faces_all_points fcs) /\
  forall p, In p (faces_all_points fcs) <-> exists fc, In fc fcs /\ In p (f_points fc).
Proof.
  intros fcs. destruct (all_points_spec (flat_map f_points fcs)) as [A B]. split; [exact A|].
  intros p. unfold faces_all_points. rewrite B, in_flat_map. reflexivity.
Qed.
Print Assumptions C24_faces_all_points.
Example C24_points_ex : get_points_via_2d_edges [mkEdge Lin3 [7; 2; 5] 0%Z; mkEdge Lin2 [2; 1] 0%Z] = [1; 2; 5; 7] /\
  faces_all_points [mkFace Tri3 [7; 2; 5] 0%Z; mkFace Tri3 [2; 5; 1] 0%Z] = [1; 2; 5; 7].
Proof. vm_compute. auto. Qed.

(* C27 *)
Theorem C27_any_path : forall all, (forall ed, In ed all -> lin_edge ed) -> all <> [] ->
  exists s es pts c, any_path all = Ok (es, pts) /\ starts_at all s /\ es <> [] /\ path all s es pts c /\
    (forall l1 e l2, es <> l1 ++ e :: e :: l2) /\
    (c = s \/ loose all c \/ List.length es = S (List.length all)).
Proof.
  intros all L N. destruct (any_path_ok all L N) as (s & es & pts & c & A & B & C & D & E & F & _). exists s, es, pts, c. repeat split; assumption.
Qed.
Print Assumptions C27_any_path.
Theorem C27_simple_chain_or_loop : forall all, (forall ed, In ed all -> lin_edge ed) -> all <> [] -> unbranched all ->
  exists s es pts c, any_path all = Ok (es, pts) /\ starts_at all s /\ path all s es pts c /\ NoDup es /\
    (c = s \/ loose all c) /\ (connected all -> Permutation es (seq 0 (List.length all))).
Proof.
  intros all L N U. destruct (any_path_ok all L N) as (s & es & pts & c & A & B & C & D & E & F & G). destruct (G U) as [G1 G2].
  exists s, es, pts, c. split; [exact A|]. split; [exact B|]. split; [exact D|]. split; [exact G1|]. split.
  - destruct F as [F|[F|F]]; auto. exfalso. assert (X : List.length es <= List.length (seq 0 (List.length all))).
    { apply NoDup_incl_length; [exact G1|]. intros e He. apply in_seq. pose proof (path_lt all s es pts c D e He). lia. }
    rewrite seq_length in X. lia.
  - intros CN. apply closed_all; auto. intros e He. exact (path_lt all s es pts c D e He).
Qed.
Print Assumptions C27_simple_chain_or_loop.
(* the chain 3 - 9 - 4 - 8 - 1 given in disorder *)
Definition chain3 : list edge := [mkEdge Lin3 [4; 1; 8] 0%Z; mkEdge Lin3 [3; 4; 9] 0%Z].
Example C27_ex : any_path chain3 = Ok ([0; 1], [1; 8; 4; 9; 3]) /\ (forall ed, In ed chain3 -> lin_edge ed) /\ unbranched chain3 /\ connected chain3.
Proof.
  split; [vm_compute; reflexivity|]. split; [|split].
  - intros ed [<-|[<-|[]]]; (split; [reflexivity|]; split; [reflexivity|discriminate]).
  - assert (X : forall p i, touches chain3 p i -> i = 0 \/ i = 1).
    { intros p i (ed & E & _). assert (Y : i < List.length chain3) by (apply nth_error_Some; congruence). simpl in Y. lia. }
    intros p i j k A B C. apply X in A, B, C. lia.
  - assert (A : adjacent chain3 0 1).
    { exists 4. split; eexists; (split; [reflexivity|]); vm_compute; auto. }
    assert (B : adjacent chain3 1 0) by (destruct A as (p & A1 & A2); exists p; auto).
    intros i j Hi Hj. simpl in Hi, Hj. destruct i as [|[|?]], j as [|[|?]]; try lia; try (apply Relation_Operators.rt_refl); apply Relation_Operators.rt_step; assumption.
Qed.
(* with a branch an edge may be used twice *)
Theorem C27_edges_used_once_refuted : exists all es pts, (forall ed, In ed all -> lin_edge ed) /\ connected all /\
  any_path all = Ok (es, pts) /\ ~ NoDup es.
Proof.
  exists [mkEdge Lin2 [0; 1] 0%Z; mkEdge Lin2 [1; 2] 0%Z; mkEdge Lin2 [2; 3] 0%Z; mkEdge Lin2 [3; 1] 0%Z], [0; 1; 2; 3; 0], [0; 1; 2; 3; 1; 0].
  set (all := [mkEdge Lin2 [0; 1] 0%Z; mkEdge Lin2 [1; 2] 0%Z; mkEdge Lin2 [2; 3] 0%Z; mkEdge Lin2 [3; 1] 0%Z]).
  split; [|split; [|split; [vm_compute; reflexivity|]]].
  - intros ed H. simpl in H. repeat (destruct H as [<-|H]; [split; [reflexivity|]; split; [reflexivity|discriminate]|]). destruct H.
  - assert (A : forall i j p, touches all p i -> touches all p j -> adjacent all i j) by (intros i j p A B; exists p; auto).
    assert (T0 : touches all 1 0) by (eexists; split; [reflexivity|vm_compute; auto]).
    assert (T1 : touches all 1 1) by (eexists; split; [reflexivity|vm_compute; auto]).
    assert (T3 : touches all 1 3) by (eexists; split; [reflexivity|vm_compute; auto]).
    assert (T1' : touches all 2 1) by (eexists; split; [reflexivity|vm_compute; auto]).
    assert (T2' : touches all 2 2) by (eexists; split; [reflexivity|vm_compute; auto]).
    assert (X : forall i, i < 4 -> Relation_Operators.clos_refl_trans nat (adjacent all) i 1 /\ Relation_Operators.clos_refl_trans nat (adjacent all) 1 i).
    { intros i Hi. destruct i as [|[|[|[|?]]]]; try lia; split;
        first [apply Relation_Operators.rt_refl | apply Relation_Operators.rt_step; first [eapply (A _ _ 1); assumption | eapply (A _ _ 2); assumption]]. }
    intros i j Hi Hj. eapply Relation_Operators.rt_trans; [apply X; exact Hi|apply X; exact Hj].
  - intros N. inversion N as [|? ? Z _]. apply Z. simpl. auto 6.
Qed.
Print Assumptions C27_edges_used_once_refuted.
