(* Properties of the meshes made of collections of blocks: Structured::from_blocks_2d and from_blocks_3d
   (mesh/generators_qua_hex.rs). *)
From Coq Require Import String Reals List Lia Lra Bool Arith ZArith Permutation Sorted.
From Verif Require Import Base BaseFacts Kind GraphModel MeshModel MeshQuerySpec TopoModel TopoSpec TopoMaps TopoProof GeomModel GeomSpec GridModel GridSpec SearchModel SearchProof
  JoinModel JoinSpec PropJoin ShapesModel ShapesSpec BlockModel BlockSpec BlockProof2 StructModel StructSpec StructProof RingSpec BlocksSpec BlocksProof2 BlocksProof3 BlocksProof4 BlocksProof5 BlocksProof6 BlocksProof7 BlocksProof8.
Import ListNotations.
Local Open Scope list_scope.
Local Open Scope R_scope.

(* ---- what is in the mesh ---- *)
Theorem C78_cells_2d : forall zdet shp shuffle sh shc bl target renumber m,
  0 <= zdet -> any_order shp shuffle sh -> (forall l, Permutation (shc l) l) -> regions_fine (tolR 2) target (regions_2d bl) ->
  from_blocks_2d zdet shp shuffle sh shc bl target renumber = Ok m ->
  well_2d bl /\ kind_class target = CQua /\ (2 <= List.length (k2_regions bl))%nat /\
  consistent m /\ coords_complete m /\ all_used m /\ built 2 (tolR 2) target (regions_2d bl) m.
Proof.
  intros zdet shp shuffle sh shc bl target renumber m Hz AO P2 Fine H. destruct (of_2d zdet shp shuffle sh shc Hz AO P2 target bl m m renumber Fine H eq_refl) as (ms & m' & W & K & L & F & J & Rn).
  split; [exact W|]. split; [exact K|]. split; [exact L|]. eapply (whole shp shuffle sh AO target 2); [left; reflexivity|exact F|exact J|exact Rn].
Qed.
Print Assumptions C78_cells_2d.
Theorem C78_cells_3d : forall zdet shp shuffle sh shc bl target renumber m,
  0 <= zdet -> any_order shp shuffle sh -> (forall l, Permutation (shc l) l) -> regions_fine (tolR 3) target (regions_3d bl) ->
  from_blocks_3d zdet shp shuffle sh shc bl target renumber = Ok m ->
  well_3d bl /\ kind_class target = CHex /\ (2 <= List.length (k3_regions bl))%nat /\
  consistent m /\ coords_complete m /\ all_used m /\ built 3 (tolR 3) target (regions_3d bl) m.
Proof.
  intros zdet shp shuffle sh shc bl target renumber m Hz AO P2 Fine H. destruct (of_3d zdet shp shuffle sh shc Hz AO P2 target bl m m renumber Fine H eq_refl) as (ms & m' & W & K & L & F & J & Rn).
  split; [exact W|]. split; [exact K|]. split; [exact L|]. eapply (whole shp shuffle sh AO target 3); [right; reflexivity|exact F|exact J|exact Rn].
Qed.
Print Assumptions C78_cells_3d.

(* ---- marked edges: those of the marked edges of the blocks. The first region that marks an edge decides ---- *)
Theorem C78_edges_2d : forall zdet shp shuffle sh shc bl target m,
  0 <= zdet -> any_order shp shuffle sh -> (forall l, Permutation (shc l) l) -> regions_fine (tolR 2) target (regions_2d bl) ->
  from_blocks_2d zdet shp shuffle sh shc bl target false = Ok m ->
  let marked := edge_marked 2 target (k2_medges bl) (regions_2d bl) m in
  (forall mk x y, In (mk, x, y) (marked_edges m) -> (x <= y)%nat /\ exists i, marked i mk x y /\ forall i' mk', (i' < i)%nat -> ~ marked i' mk' x y) /\
  (forall i mk x y, marked i mk x y -> exists mk', In (mk', Nat.min x y, Nat.max x y) (marked_edges m)) /\
  (forall mk mk' x y, In (mk, x, y) (marked_edges m) -> In (mk', x, y) (marked_edges m) -> mk = mk') /\ marked_faces m = [].
Proof.
  intros zdet shp shuffle sh shc bl target m Hz AO P2 Fine H marked. destruct (of_2d zdet shp shuffle sh shc Hz AO P2 target bl m m false Fine H eq_refl) as (ms & m' & W & K & L & F & J & Rn). cbn in Rn. injection Rn as <-.
  set (EM := fun g => marks_edge 2 (k2_medges bl) g). set (FM := fun (_ : region) (_ : nat) (_ : Z) => False).
  destruct (joined_maps shp shuffle (proj1 (proj2 AO)) sh (proj2 (proj2 AO)) 2 target _ ms m' (or_introl eq_refl) EM FM F J) as (_ & _ & _ & _ & fs & Mv).
  destruct (maps_edges 2 target _ ms m' (or_introl eq_refl) EM FM F fs Mv) as (A & B & C). split; [exact A|]. split; [exact B|]. split; [exact C|].
  destruct (maps_faces 2 target _ ms m' (or_introl eq_refl) EM FM F fs Mv) as (D & _). destruct (marked_faces m') as [|q l]; [reflexivity|]. destruct (D q (or_introl eq_refl)) as (_ & i & (g & f & qs & _ & X & _) & _). destruct X.
Qed.
Print Assumptions C78_edges_2d.
Theorem C78_edges_3d : forall zdet shp shuffle sh shc bl target m,
  0 <= zdet -> any_order shp shuffle sh -> (forall l, Permutation (shc l) l) -> regions_fine (tolR 3) target (regions_3d bl) ->
  from_blocks_3d zdet shp shuffle sh shc bl target false = Ok m ->
  let marked := edge_marked 3 target (k3_medges bl) (regions_3d bl) m in
  (forall mk x y, In (mk, x, y) (marked_edges m) -> (x <= y)%nat /\ exists i, marked i mk x y /\ forall i' mk', (i' < i)%nat -> ~ marked i' mk' x y) /\
  (forall i mk x y, marked i mk x y -> exists mk', In (mk', Nat.min x y, Nat.max x y) (marked_edges m)) /\
  (forall mk mk' x y, In (mk, x, y) (marked_edges m) -> In (mk', x, y) (marked_edges m) -> mk = mk').
Proof.
  intros zdet shp shuffle sh shc bl target m Hz AO P2 Fine H marked. destruct (of_3d zdet shp shuffle sh shc Hz AO P2 target bl m m false Fine H eq_refl) as (ms & m' & W & K & L & F & J & Rn). cbn in Rn. injection Rn as <-.
  set (EM := fun g => marks_edge 3 (k3_medges bl) g). set (FM := fun g => marks_face (k3_mfaces bl) g).
  destruct (joined_maps shp shuffle (proj1 (proj2 AO)) sh (proj2 (proj2 AO)) 3 target _ ms m' (or_intror eq_refl) EM FM F J) as (_ & _ & _ & _ & fs & Mv).
  exact (maps_edges 3 target _ ms m' (or_intror eq_refl) EM FM F fs Mv).
Qed.
Print Assumptions C78_edges_3d.
(* ---- and faces ---- *)
Theorem C78_faces_3d : forall zdet shp shuffle sh shc bl target m,
  0 <= zdet -> any_order shp shuffle sh -> (forall l, Permutation (shc l) l) -> regions_fine (tolR 3) target (regions_3d bl) ->
  from_blocks_3d zdet shp shuffle sh shc bl target false = Ok m ->
  let marked := face_marked target (k3_mfaces bl) (regions_3d bl) m in
  (forall q, In q (marked_faces m) -> StronglySorted le (marked_face_points q) /\
     exists i, marked i (fst (fst (fst (fst q)))) (marked_face_points q) /\ forall i' mk', (i' < i)%nat -> ~ marked i' mk' (marked_face_points q)) /\
  (forall i mk ps, marked i mk ps -> exists q, In q (marked_faces m) /\ Permutation ps (marked_face_points q)) /\
  (forall q q', In q (marked_faces m) -> In q' (marked_faces m) -> Permutation (marked_face_points q) (marked_face_points q') -> q = q').
Proof.
  intros zdet shp shuffle sh shc bl target m Hz AO P2 Fine H marked. destruct (of_3d zdet shp shuffle sh shc Hz AO P2 target bl m m false Fine H eq_refl) as (ms & m' & W & K & L & F & J & Rn). cbn in Rn. injection Rn as <-.
  set (EM := fun g => marks_edge 3 (k3_medges bl) g). set (FM := fun g => marks_face (k3_mfaces bl) g).
  destruct (joined_maps shp shuffle (proj1 (proj2 AO)) sh (proj2 (proj2 AO)) 3 target _ ms m' (or_intror eq_refl) EM FM F J) as (_ & _ & _ & _ & fs & Mv).
  exact (maps_faces 3 target _ ms m' (or_intror eq_refl) EM FM F fs Mv).
Qed.
Print Assumptions C78_faces_3d.

(* ---- every block is meshed if it is not flat and no node of a side with a condition is too close to the centre: what is left is to join the meshes.
   zdet: tolerance of the determinant ---- *)
Theorem C78_total_2d : forall zdet shp shuffle sh shc bl target renumber,
  0 <= zdet -> any_order shp shuffle sh -> (forall l, Permutation (shc l) l) -> regions_fine (tolR 2) target (regions_2d bl) ->
  well_2d bl -> kind_class target = CQua ->
  (forall g, In g (regions_2d bl) -> off_center 2 target g /\ forall d, det_center 2 (g_nodes g) d -> zdet < d) ->
  exists ms, Forall2 (fun g mi => built 2 0 target [g] mi) (regions_2d bl) ms /\
    from_blocks_2d zdet shp shuffle sh shc bl target renumber = (let! m := join_meshes shp shuffle sh ms in maybe_renumber renumber m).
Proof.
  intros zdet shp shuffle sh shc bl target renumber Hz AO P2 Fine W K H. destruct (meshes_2d zdet sh shc bl target Hz (proj2 (proj2 AO)) P2 W K Fine H) as (ms & E). exists ms. split; [|unfold from_blocks_2d; rewrite E; reflexivity].
  destruct (meshed_all zdet shp shuffle sh shc Hz AO P2 target 2 (block_2d zdet bl) (region_2d bl) (fun g => marks_edge 2 (k2_medges bl) g) (fun _ _ _ => False) (List.length (k2_regions bl)) ms) as (_ & F); [exact Fine| |exact E|].
  { intros i b Eb. apply region_block_2d in Eb as (_ & _ & _ & _ & _ & X); [exact X|exact Hz]. }
  eapply f2_impl; [|exact F]. intros g mi R. eapply alone. exact R.
Qed.
Print Assumptions C78_total_2d.
Theorem C78_total_3d : forall zdet shp shuffle sh shc bl target renumber,
  0 <= zdet -> any_order shp shuffle sh -> (forall l, Permutation (shc l) l) -> regions_fine (tolR 3) target (regions_3d bl) ->
  well_3d bl -> kind_class target = CHex ->
  (forall g, In g (regions_3d bl) -> off_center 3 target g /\ forall d, det_center 3 (g_nodes g) d -> zdet < d) ->
  exists ms, Forall2 (fun g mi => built 3 0 target [g] mi) (regions_3d bl) ms /\
    from_blocks_3d zdet shp shuffle sh shc bl target renumber = (let! m := join_meshes shp shuffle sh ms in maybe_renumber renumber m).
Proof.
  intros zdet shp shuffle sh shc bl target renumber Hz AO P2 Fine W K H. destruct (meshes_3d zdet sh shc bl target Hz (proj2 (proj2 AO)) P2 W K Fine H) as (ms & E). exists ms. split; [|unfold from_blocks_3d; rewrite E; reflexivity].
  destruct (meshed_all zdet shp shuffle sh shc Hz AO P2 target 3 (block_3d zdet bl) (region_3d bl) (fun g => marks_edge 3 (k3_medges bl) g) (fun g => marks_face (k3_mfaces bl) g) (List.length (k3_regions bl)) ms) as (_ & F); [exact Fine| |exact E|].
  { intros i b Eb. apply region_block_3d in Eb as (_ & _ & _ & _ & _ & X); [exact X|exact Hz]. }
  eapply f2_impl; [|exact F]. intros g mi R. eapply alone. exact R.
Qed.
Print Assumptions C78_total_3d.

(* two squares with a common edge, marked twice; the second one divided *)
Example C78_2d_ex : forall shp shuffle sh, any_order shp shuffle sh -> exists m,
  from_blocks_2d (/ 100) shp shuffle sh (fun l => l) two_squares Qua4 false = Ok m /\ regions_fine (tolR 2) Qua4 (regions_2d two_squares) /\
  List.length (cells m) = 3%nat /\
  (exists c p, nth_error (cells m) 0 = Some c /\ c_marker c = 7%Z /\ nth_error (c_points c) 2 = Some p /\ coords_of m p [1; 1]) /\
  exists mk x y, In (mk, x, y) (marked_edges m).
Proof.
  intros shp shuffle sh O. assert (PC : forall l : list (nat * nat), Permutation ((fun l => l) l) l) by (intros; apply Permutation_refl). assert (Hz : 0 <= / 100 < / 4) by lra.
  destruct (two_squares_done (/ 100) shp shuffle sh (fun l => l) Hz O PC) as (m & E). exists m. split; [exact E|]. split; [exact two_squares_fine|].
  destruct (C78_cells_2d _ _ _ _ _ _ _ _ _ (proj1 Hz) O PC two_squares_fine E) as (_ & _ & _ & Cm & CC & _ & (_ & Nc & B)). rewrite two_squares_regions in Nc, B. split; [exact Nc|].
  destruct (B 0%nat square_1 [0; 0]%nat eq_refl) as (c & Ec & K & Mk & Lc & N); [repeat constructor|]. change (kind_nnode Qua4) with 4%nat in Lc. change (cell_number [square_1; square_2] 0 square_1 [0; 0]%nat) with 0%nat in Ec.
  assert (G : forall k, (k < 4)%nat -> exists p, nth_error (c_points c) k = Some p) by (intros k Hk; exists (nth k (c_points c) 0%nat); apply nth_error_nth'; lia).
  destruct (G 2%nat ltac:(lia)) as (p & Ep). split.
  - exists c, p. split; [exact Ec|]. split; [exact Mk|]. split; [exact Ep|]. destruct (N 2%nat p Ep) as (x & y & Cx & Lx & Ly & D & Y). unfold region_at in Y. cbn [g_sides square_1] in Y. rewrite square_nodes in Y by lia. cbn [nth] in Y.
    cbn [Nat.eqb] in D. assert (Exy : x = y) by (apply euclid_zero; [congruence|exact D]). rewrite <- Y, <- Exy. exact Cx.
  - destruct (C78_edges_2d _ _ _ _ _ _ _ _ (proj1 Hz) O PC two_squares_fine E) as (_ & Cp & _). destruct (G 1%nat ltac:(lia)) as (q & Eq).
    destruct (Cp 0%nat (-4)%Z q p) as (mk' & I).
    + exists square_1, 1%nat, p, q. split; [reflexivity|]. split; [|split; [|right; auto]].
      * split; [vm_compute; lia|]. exists 2%nat, 1%nat. split; [reflexivity|]. split; [reflexivity|]. exists ((-4)%Z, 2, 1)%nat. split; [|reflexivity]. split; [left; auto|].
        exists [((-1)%Z, 1, 2)%nat], [((-2)%Z, 0, 1)%nat]. split; [reflexivity|]. intros q' [<-|[]] [[X Y]|[X Y]]; discriminate X || discriminate Y.
      * exists square_1, [0; 0]%nat, c, 1%nat. split; [reflexivity|]. split; [repeat constructor|]. split; [rewrite two_squares_regions; exact Ec|]. split; [vm_compute; lia|]. split; [exact Ep|]. split; [exact Eq|].
        split; apply square_side; vm_compute; lia.
    + exists mk'. do 2 eexists. exact I.
Qed.

Example C78_3d_ex : forall shp shuffle sh, any_order shp shuffle sh -> exists m,
  from_blocks_3d (/ 100) shp shuffle sh (fun l => l) two_cubes Hex8 false = Ok m /\ regions_fine (tolR 3) Hex8 (regions_3d two_cubes) /\
  List.length (cells m) = 3%nat /\ (exists c p, nth_error (cells m) 0 = Some c /\ c_marker c = 7%Z /\ nth_error (c_points c) 6 = Some p /\ coords_of m p [1; 1; 1]) /\
  (exists f mk, marks_face (k3_mfaces two_cubes) cube_1 f mk) /\ (exists f mk, marks_face (k3_mfaces two_cubes) cube_2 f mk).
Proof.
  intros shp shuffle sh O. assert (PC : forall l : list (nat * nat), Permutation ((fun l => l) l) l) by (intros; apply Permutation_refl). assert (Hz : 0 <= / 100 < / 8) by lra.
  destruct (two_cubes_done (/ 100) shp shuffle sh (fun l => l) Hz O PC) as (m & E). exists m. split; [exact E|]. split; [exact two_cubes_fine|].
  destruct (C78_cells_3d _ _ _ _ _ _ _ _ _ (proj1 Hz) O PC two_cubes_fine E) as (_ & _ & _ & Cm & CC & _ & (_ & Nc & B)). rewrite two_cubes_regions in Nc, B. split; [exact Nc|].
  destruct (B 0%nat cube_1 [0; 0; 0]%nat eq_refl) as (c & Ec & K & Mk & Lc & N); [repeat constructor|]. change (kind_nnode Hex8) with 8%nat in Lc. change (cell_number [cube_1; cube_2] 0 cube_1 [0; 0; 0]%nat) with 0%nat in Ec.
  assert (Ep : nth_error (c_points c) 6 = Some (nth 6 (c_points c) 0%nat)) by (apply nth_error_nth'; lia). split.
  - eexists _, _. split; [exact Ec|]. split; [exact Mk|]. split; [exact Ep|]. destruct (N 6%nat _ Ep) as (x & y & Cx & Lx & Ly & D & Y). unfold region_at in Y. cbn [g_sides cube_1] in Y. rewrite cube_1_nodes in Y by lia. cbn [nth g_nodes cube_1] in Y.
    cbn [Nat.eqb] in D. assert (Exy : x = y) by (apply euclid_zero; [congruence|exact D]). rewrite <- Y, <- Exy. exact Cx.
  - split; [exists 1%nat, (-9)%Z|exists 0%nat, (-9)%Z].
    + split; [lia|]. exists [1; 2; 6; 5]%nat. split; [repeat constructor|]. exists ((-9)%Z, 1, 5, 6, 2)%nat. split; [|reflexivity]. split; [apply (sort4_perm [1; 2; 6; 5] [1; 5; 6; 2])%nat; reflexivity|].
      exists [], [((-10)%Z, 0, 1, 2, 3)%nat]. split; [reflexivity|]. intros q' [<-|[]] X. apply (Permutation_in 6%nat) in X; [|cbn; tauto]. cbn in X. lia.
    + split; [lia|]. exists [1; 5; 6; 2]%nat. split; [repeat constructor|]. exists ((-9)%Z, 1, 5, 6, 2)%nat. split; [|reflexivity]. split; [apply Permutation_refl|].
      exists [], [((-10)%Z, 0, 1, 2, 3)%nat]. split; [reflexivity|]. intros q' [<-|[]] X. apply (Permutation_in 6%nat) in X; [|cbn; tauto]. cbn in X. lia.
Qed.

(* ---- refuted: acceptable data give a mesh. A collection with a single block does not ---- *)
Theorem C78_single_refuted : exists bl, well_2d bl /\ List.length (k2_regions bl) = 1%nat /\ regions_fine (tolR 2) Qua4 (regions_2d bl) /\
  (forall g, In g (regions_2d bl) -> g_sides g = [] /\ forall d, det_center 2 (g_nodes g) d -> d = / 4) /\
  forall zdet shp shuffle sh shc renumber m, from_blocks_2d zdet shp shuffle sh shc bl Qua4 renumber <> Ok m.
Proof.
  exists one_square. split; [exact one_square_well|]. split; [reflexivity|]. split; [exact one_square_fine|]. split; [exact one_square_det|].
  intros. apply few_2d. cbn. lia.
Qed.
Print Assumptions C78_single_refuted.
