(* More properties of the quarter disks and plates: B-version and plate with one linear cell in each block, all sizes. *)
From Coq Require Import String Reals List Lia Lra Bool Arith ZArith Permutation Sorted.
From Verif Require Import Base BaseFacts Kind GraphModel MeshModel MeshQuerySpec TopoModel TopoSpec TopoMaps TopoProof TopoFeat3 TopoFinal GeomModel GeomSpec GeomProof GridModel GridSpec GridProof SearchModel SearchSpec SearchProof SearchProof2
  JoinModel JoinSpec JoinProof JoinProof2 JoinProof3 PropJoin Expr ShapesModel ShapesSpec PadModel PadSpec PadProof PadProof2 PadProof3 BlockModel BlockSpec BlockProof BlockProof2 BlockProof3 BlockProof10 PropBlock StructModel StructSpec StructProof StructProof4 RingSpec RingProof2 BlocksSpec BlocksProof BlocksProof2 BlocksProof3 BlocksProof4 BlocksProof5 BlocksProof6 BlocksProof7 BlocksProof8 BlocksProof9 ExactSpec ExactProof DiskModel DiskSpec DiskProof DiskProof2 DiskProof3 ShapesProof DiskProof4 PosSpec ExactProof2 StructProof6 DiskProof5 DiskProof6 DiskProof7 DiskProof8 DiskProof9 DiskProof10 DiskProof11 ExactProof3 DiskProof12 ExactProof4 DiskProof13 DiskProof14 DiskProof15 PropDisk.
Import ListNotations.
Local Open Scope list_scope.
Local Open Scope R_scope.

Theorem C79_one_2d_b : forall zdet shp shuffle sh shc a r,
  0 <= zdet -> any_order shp shuffle sh -> (forall l, Permutation (shc l) l) ->
  tolR 2 < a / 4 -> tolR 2 < (r - a) / 4 -> zdet < a ^ 2 / 10 -> zdet < (r ^ 2 - a ^ 2) * (3 / 32) ->
  made_exact 2 Qua4 (disk_2d (core_b a) (right_b a r) (top_b a r) r 1 1) (quarter_disk_2d_b zdet shp shuffle sh shc a r 1 1 Qua4).
Proof. intros zdet shp shuffle sh shc a r Hz AO P2. exact (one_2d_b zdet shp shuffle sh shc Hz AO P2 a r). Qed.
Print Assumptions C79_one_2d_b.
Theorem C79_one_3d_b : forall zdet shp shuffle sh shc a r h,
  0 <= zdet -> any_order shp shuffle sh -> (forall l, Permutation (shc l) l) ->
  tolR 3 < a / 4 -> tolR 3 < (r - a) / 4 -> tolR 3 < h -> zdet < a ^ 2 / 10 * (h / 2) -> zdet < (r ^ 2 - a ^ 2) * (3 / 32) * (h / 2) ->
  made_exact 3 Hex8 (disk_3d (core_b a) (right_b a r) (top_b a r) r h 1 1 1) (quarter_disk_3d_b zdet shp shuffle sh shc a r h 1 1 1 Hex8).
Proof. intros zdet shp shuffle sh shc a r h Hz AO P2. exact (one_3d_b zdet shp shuffle sh shc Hz AO P2 a r h). Qed.
Print Assumptions C79_one_3d_b.
Theorem C79_one_plate_2d : forall zdet shp shuffle sh shc r a b,
  0 <= zdet -> any_order shp shuffle sh -> (forall l, Permutation (shc l) l) ->
  tolR 2 < r / 4 -> tolR 2 < a / 4 -> tolR 2 < b / 4 -> zdet < ((r + a) ^ 2 - r ^ 2) * (3 / 32) -> zdet < b * (r + a + b) / 8 ->
  made_exact 2 Qua4 (plate_2d r a b 1 1 1) (quarter_plate_hole_2d zdet shp shuffle sh shc r a b 1 1 1 Qua4).
Proof. intros zdet shp shuffle sh shc r a b Hz AO P2. exact (one_plate_2d zdet shp shuffle sh shc Hz AO P2 r a b). Qed.
Print Assumptions C79_one_plate_2d.
Theorem C79_one_plate_3d : forall zdet shp shuffle sh shc r a b h,
  0 <= zdet -> any_order shp shuffle sh -> (forall l, Permutation (shc l) l) ->
  tolR 3 < r / 4 -> tolR 3 < a / 4 -> tolR 3 < b / 4 -> tolR 3 < h -> zdet < ((r + a) ^ 2 - r ^ 2) * (3 / 32) * (h / 2) -> zdet < b * (r + a + b) / 8 * (h / 2) ->
  made_exact 3 Hex8 (plate_3d r a b h 1 1 1 1) (quarter_plate_hole_3d zdet shp shuffle sh shc r a b h 1 1 1 1 Hex8).
Proof. intros zdet shp shuffle sh shc r a b h Hz AO P2. exact (one_plate_3d zdet shp shuffle sh shc Hz AO P2 r a b h). Qed.
Print Assumptions C79_one_plate_3d.

(* inner radius 1, outer radius 2 *)
Example C79_2d_b_ex : forall shp shuffle sh, any_order shp shuffle sh -> exists m,
  quarter_disk_2d_b (/ 1000) shp shuffle sh (fun l => l) 1 2 1 1 Qua4 false = Ok m /\ distinct_points m /\
  contents 2 (tolR 2) Qua4 (disk_2d (core_b 1) (right_b 1 2) (top_b 1 2) 2 1 1) 3 m.
Proof.
  intros shp shuffle sh AO. pose proof (tol_small 2 (or_introl eq_refl)) as T. assert (P2 : forall l : list (nat * nat), Permutation ((fun l => l) l) l) by (intros l; apply Permutation_refl).
  assert (C1 : coarse (tolR 2) Qua4 1) by (unfold coarse; cbn; lra).
  destruct (C79_one_2d_b (/ 1000) shp shuffle sh (fun l => l) 1 2) as (m & E & (X1 & X2 & X3 & X4 & X5) & _); try assumption; try lra.
  destruct (C79_disk_2d_b (/ 1000) shp shuffle sh (fun l => l) 1 2 1%nat 1%nat Qua4 false m ltac:(lra) AO P2 C1 C1 E) as (_ & _ & _ & Cn).
  exists m. split; [exact E|]. split; [exact X4|exact Cn].
Qed.
Example C79_3d_b_ex : forall shp shuffle sh, any_order shp shuffle sh -> exists m,
  quarter_disk_3d_b (/ 1000) shp shuffle sh (fun l => l) 1 2 1 1 1 1 Hex8 false = Ok m /\ distinct_points m /\
  contents 3 (tolR 3) Hex8 (disk_3d (core_b 1) (right_b 1 2) (top_b 1 2) 2 1 1 1 1) 3 m.
Proof.
  intros shp shuffle sh AO. pose proof (tol_small 3 (or_intror eq_refl)) as T. assert (P2 : forall l : list (nat * nat), Permutation ((fun l => l) l) l) by (intros l; apply Permutation_refl).
  assert (C1 : coarse (tolR 3) Hex8 1) by (unfold coarse; cbn; lra).
  destruct (C79_one_3d_b (/ 1000) shp shuffle sh (fun l => l) 1 2 1) as (m & E & (X1 & X2 & X3 & X4 & X5) & _); try assumption; try lra.
  destruct (C79_disk_3d_b (/ 1000) shp shuffle sh (fun l => l) 1 2 1 1%nat 1%nat 1%nat Hex8 false m ltac:(lra) AO P2 C1 C1 C1 E) as (_ & _ & _ & Cn).
  exists m. split; [exact E|]. split; [exact X4|exact Cn].
Qed.
(* a hole of radius 1 and two layers of thickness 1 *)
Example C79_plate_2d_ex : forall shp shuffle sh, any_order shp shuffle sh -> exists m,
  quarter_plate_hole_2d (/ 1000) shp shuffle sh (fun l => l) 1 1 1 1 1 1 Qua4 false = Ok m /\ distinct_points m /\ contents 2 (tolR 2) Qua4 (plate_2d 1 1 1 1 1 1) 4 m.
Proof.
  intros shp shuffle sh AO. pose proof (tol_small 2 (or_introl eq_refl)) as T. assert (P2 : forall l : list (nat * nat), Permutation ((fun l => l) l) l) by (intros l; apply Permutation_refl).
  assert (C1 : coarse (tolR 2) Qua4 1) by (unfold coarse; cbn; lra).
  destruct (C79_one_plate_2d (/ 1000) shp shuffle sh (fun l => l) 1 1 1) as (m & E & (X1 & X2 & X3 & X4 & X5) & _); try assumption; try lra.
  destruct (C79_plate_2d (/ 1000) shp shuffle sh (fun l => l) 1 1 1 1%nat 1%nat 1%nat Qua4 false m ltac:(lra) AO P2 C1 C1 C1 E) as (_ & _ & Cn).
  exists m. split; [exact E|]. split; [exact X4|exact Cn].
Qed.
Example C79_plate_3d_ex : forall shp shuffle sh, any_order shp shuffle sh -> exists m,
  quarter_plate_hole_3d (/ 1000) shp shuffle sh (fun l => l) 1 1 1 1 1 1 1 1 Hex8 false = Ok m /\ distinct_points m /\ contents 3 (tolR 3) Hex8 (plate_3d 1 1 1 1 1 1 1 1) 4 m.
Proof.
  intros shp shuffle sh AO. pose proof (tol_small 3 (or_intror eq_refl)) as T. assert (P2 : forall l : list (nat * nat), Permutation ((fun l => l) l) l) by (intros l; apply Permutation_refl).
  assert (C1 : coarse (tolR 3) Hex8 1) by (unfold coarse; cbn; lra).
  destruct (C79_one_plate_3d (/ 1000) shp shuffle sh (fun l => l) 1 1 1 1) as (m & E & (X1 & X2 & X3 & X4 & X5) & _); try assumption; try lra.
  destruct (C79_plate_3d (/ 1000) shp shuffle sh (fun l => l) 1 1 1 1 1%nat 1%nat 1%nat 1%nat Hex8 false m ltac:(lra) AO P2 C1 C1 C1 C1 E) as (_ & _ & Cn).
  exists m. split; [exact E|]. split; [exact X4|exact Cn].
Qed.
