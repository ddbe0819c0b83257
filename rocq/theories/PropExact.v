(* Properties of collections of blocks that fit together exactly: Structured::from_blocks_2d and from_blocks_3d
   (mesh/generators_qua_hex.rs). *)
From Coq Require Import String Reals List Lia Lra Bool Arith ZArith Permutation Sorted.
From Verif Require Import Base BaseFacts Kind GraphModel MeshModel MeshQuerySpec TopoModel TopoSpec TopoMaps TopoProof TopoFeat3 TopoFinal GeomModel GeomSpec GeomProof GridModel GridSpec GridProof SearchModel SearchSpec SearchProof SearchProof2
  JoinModel JoinSpec JoinProof JoinProof2 JoinProof3 PropJoin Expr ShapesModel ShapesSpec PadModel PadSpec PadProof PadProof2 PadProof3 BlockModel BlockSpec BlockProof BlockProof2 BlockProof3 BlockProof10 PropBlock StructModel StructSpec StructProof StructProof4 RingSpec RingProof2 BlocksSpec BlocksProof BlocksProof2 BlocksProof3 BlocksProof4 BlocksProof5 BlocksProof6 BlocksProof7 BlocksProof8 BlocksProof9 ExactSpec ExactProof DiskModel DiskSpec DiskProof DiskProof2 DiskProof3 ShapesProof DiskProof4 PosSpec ExactProof2 StructProof6 DiskProof5 DiskProof6 DiskProof7 DiskProof8 DiskProof9 DiskProof10 DiskProof11 ExactProof3 ExactProof4.
Import ListNotations.
Local Open Scope list_scope.
Local Open Scope R_scope.

(* ---- the mesh is made, no two of its points are at the same place, and all nodes are exactly where the blocks put them ---- *)
Theorem C78_exact_2d : forall zdet shp shuffle sh shc bl target,
  0 <= zdet -> any_order shp shuffle sh -> (forall l, Permutation (shc l) l) -> regions_fine (tolR 2) target (regions_2d bl) ->
  well_2d bl -> kind_class target = CQua -> (2 <= List.length (k2_regions bl))%nat ->
  (forall g, In g (regions_2d bl) -> off_center 2 target g /\ forall d, det_center 2 (g_nodes g) d -> zdet < d) ->
  one_to_one 2 target (regions_2d bl) -> separated 2 (tolR 2) target (regions_2d bl) -> enclosing 2 target (regions_2d bl) ->
  made_exact 2 target (regions_2d bl) (from_blocks_2d zdet shp shuffle sh shc bl target).
Proof.
  intros zdet shp shuffle sh shc bl target Hz AO P2 Fine W K L H Inj Sep En. apply made_both; [left; reflexivity|]. apply exact_2d; assumption.
Qed.
Print Assumptions C78_exact_2d.
Theorem C78_exact_3d : forall zdet shp shuffle sh shc bl target,
  0 <= zdet -> any_order shp shuffle sh -> (forall l, Permutation (shc l) l) -> regions_fine (tolR 3) target (regions_3d bl) ->
  well_3d bl -> kind_class target = CHex -> (2 <= List.length (k3_regions bl))%nat ->
  (forall g, In g (regions_3d bl) -> off_center 3 target g /\ forall d, det_center 3 (g_nodes g) d -> zdet < d) ->
  one_to_one 3 target (regions_3d bl) -> separated 3 (tolR 3) target (regions_3d bl) -> enclosing 3 target (regions_3d bl) ->
  made_exact 3 target (regions_3d bl) (from_blocks_3d zdet shp shuffle sh shc bl target).
Proof.
  intros zdet shp shuffle sh shc bl target Hz AO P2 Fine W K L H Inj Sep En. apply made_both; [right; reflexivity|]. apply exact_3d; assumption.
Qed.
Print Assumptions C78_exact_3d.

(* two squares, the second one with two cells; two cubes *)
Example C78_exact_2d_ex : forall shp shuffle sh, any_order shp shuffle sh ->
  one_to_one 2 Qua4 (regions_2d two_squares) /\ separated 2 (tolR 2) Qua4 (regions_2d two_squares) /\ enclosing 2 Qua4 (regions_2d two_squares) /\
  made_exact 2 Qua4 (regions_2d two_squares) (from_blocks_2d (/ 100) shp shuffle sh (fun l => l) two_squares Qua4).
Proof.
  intros shp shuffle sh AO. assert (E1 : one_to_one 2 Qua4 (regions_2d two_squares)) by (apply fit_one_to_one; exact square_at).
  assert (E2 : separated 2 (tolR 2) Qua4 (regions_2d two_squares)) by (apply fit_separated; [left; reflexivity|exact square_at]).
  assert (E3 : enclosing 2 Qua4 (regions_2d two_squares)) by (apply fit_enclosing; [left; reflexivity|exact square_at|reflexivity..]).
  split; [exact E1|]. split; [exact E2|]. split; [exact E3|]. apply C78_exact_2d; try assumption; try reflexivity.
  - lra.
  - exact two_squares_fine.
  - exact two_squares_well.

  - intros g I. split; [rewrite two_squares_regions in I; destruct I as [<-|[<-|[]]]; intros idx k s c _ _ []|apply square_not_flat; [lra|exact I]].
Qed.
Example C78_exact_3d_ex : forall shp shuffle sh, any_order shp shuffle sh ->
  one_to_one 3 Hex8 (regions_3d two_cubes) /\ separated 3 (tolR 3) Hex8 (regions_3d two_cubes) /\ enclosing 3 Hex8 (regions_3d two_cubes) /\
  made_exact 3 Hex8 (regions_3d two_cubes) (from_blocks_3d (/ 100) shp shuffle sh (fun l => l) two_cubes Hex8).
Proof.
  intros shp shuffle sh AO. assert (E1 : one_to_one 3 Hex8 (regions_3d two_cubes)) by (apply fit_one_to_one; exact cube_at_node).
  assert (E2 : separated 3 (tolR 3) Hex8 (regions_3d two_cubes)) by (apply fit_separated; [right; reflexivity|exact cube_at_node]).
  assert (E3 : enclosing 3 Hex8 (regions_3d two_cubes)) by (apply fit_enclosing; [right; reflexivity|exact cube_at_node|reflexivity..]).
  split; [exact E1|]. split; [exact E2|]. split; [exact E3|]. apply C78_exact_3d; try assumption; try reflexivity.
  - lra.
  - exact two_cubes_fine.
  - exact two_cubes_well.

  - intros g I. split; [rewrite two_cubes_regions in I; destruct I as [<-|[<-|[]]]; intros idx k s c _ _ []|apply cube_not_flat; [lra|exact I]].
Qed.
