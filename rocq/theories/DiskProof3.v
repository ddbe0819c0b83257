(* Quarter disks and plates: the meshes. *)
From Coq Require Import String Reals List Lia Lra Bool Arith ZArith Permutation Sorted.
From Verif Require Import Base BaseFacts Kind MeshModel MeshQuerySpec TopoModel GeomModel GridModel SearchModel SearchProof JoinModel PropJoin PadModel BlockModel BlockSpec
  StructModel StructSpec StructProof3 StructProof6 RingSpec RingProof2 BlocksSpec BlocksProof2 BlocksProof8 DiskModel DiskSpec DiskProof DiskProof2.
Import ListNotations.
Local Open Scope list_scope.
Local Open Scope R_scope.

Ltac same := unfold quarter_disk_2d_a, quarter_disk_3d_a, disk_body_2d, disk_body_3d, plate_body_2d, plate_body_3d, extrude; cbv zeta; cbn [firstn skipn map app]; reflexivity.
Section Fns.
Variables (zdet : R) (shp : list nat -> list nat) (shuffle : emap -> emap) (sh : container -> container) (shc : list (nat * nat) -> list (nat * nat)).
Variables (target : geokind) (renumber : bool).

Lemma fn_2d_a r na nb : quarter_disk_2d_a zdet shp shuffle sh shc r na nb target renumber = disk_body_2d zdet shp shuffle sh shc target renumber (core_a r) (right_a r) (top_a r) r na nb.
Proof. rewrite core_a_eq, right_a_eq, top_a_eq. same. Qed.
Lemma fn_3d_a r h na nb nz : quarter_disk_3d_a zdet shp shuffle sh shc r h na nb nz target renumber = disk_body_3d zdet shp shuffle sh shc target renumber (extrude h (core_a r)) (extrude h (right_a r)) (extrude h (top_a r)) r na nb nz.
Proof. rewrite core_a_eq, right_a_eq, top_a_eq. same. Qed.
Lemma mid_eq (a r : R) : a + (r - a) / 2 = (a + r) / 2. Proof. lra. Qed.
Lemma fn_2d_b a r na nb : a < r -> quarter_disk_2d_b zdet shp shuffle sh shc a r na nb target renumber = disk_body_2d zdet shp shuffle sh shc target renumber (core_b a) (right_b a r) (top_b a r) r na nb.
Proof. intros H. unfold quarter_disk_2d_b. destruct (Rleb r a) eqn:E; [apply StructProof6.Rleb_iff in E; lra|]. unfold right_b, top_b. rewrite core_b_eq, part_1_eq, part_2'_eq. cbv zeta. rewrite mid_eq. same. Qed.
Lemma fn_3d_b a r h na nb nz : a < r -> quarter_disk_3d_b zdet shp shuffle sh shc a r h na nb nz target renumber = disk_body_3d zdet shp shuffle sh shc target renumber (extrude h (core_b a)) (extrude h (right_b a r)) (extrude h (top_b a r)) r na nb nz.
Proof. intros H. unfold quarter_disk_3d_b. destruct (Rleb r a) eqn:E; [apply StructProof6.Rleb_iff in E; lra|]. unfold right_b, top_b. rewrite core_b_eq, part_1_eq, part_2'_eq. cbv zeta. rewrite mid_eq. same. Qed.
Lemma half_1 (r a : R) : r + a / 2 = (r + (r + a)) / 2. Proof. lra. Qed.
Lemma half_2 (r a : R) : (r * COS_PI_BY_4 + (r + a) * COS_PI_BY_4) / 2 = (r + (r + a)) / 2 * COS_PI_BY_4. Proof. lra. Qed.
Lemma fn_plate_2d r a b na nb n : quarter_plate_hole_2d zdet shp shuffle sh shc r a b na nb n target renumber =
  plate_body_2d zdet shp shuffle sh shc target renumber (ring_part r (r + a) 0 (PI / 4)) (ring_part r (r + a) (PI / 4) (PI / 2)) (far_1 (r + a) (r + a + b)) (far_2 (r + a) (r + a + b)) r (r + a) na nb n.
Proof. unfold quarter_plate_hole_2d. rewrite part_1_eq, part_2_eq, far_1_eq, far_2_eq. cbv zeta. rewrite half_2, (half_1 r a), (half_1 (r + a) b). same. Qed.
Lemma fn_plate_3d r a b h na nb n nz : quarter_plate_hole_3d zdet shp shuffle sh shc r a b h na nb n nz target renumber =
  plate_body_3d zdet shp shuffle sh shc target renumber (extrude h (ring_part r (r + a) 0 (PI / 4))) (extrude h (ring_part r (r + a) (PI / 4) (PI / 2))) (extrude h (far_1 (r + a) (r + a + b))) (extrude h (far_2 (r + a) (r + a + b))) r (r + a) na nb n nz.
Proof. unfold quarter_plate_hole_3d. rewrite part_1_eq, part_2_eq, far_1_eq, far_2_eq. cbv zeta. rewrite half_2, (half_1 r a), (half_1 (r + a) b). same. Qed.
End Fns.

Lemma pts2 l : Forall (fun x => List.length x = 2%nat) l -> forall x : list R, In x l -> List.length x = 2%nat.
Proof. intros F. apply Forall_forall. exact F. Qed.
Ltac pts := split; [cbn; tauto|apply pts2; repeat constructor].
Definition planar (l : mat) : Prop := (List.length l = 4%nat \/ List.length l = 8%nat) /\ forall x, In x l -> List.length x = 2%nat.
Lemma planar_core_a r : planar (core_a r). Proof. pts. Qed.
Lemma planar_right_a r : planar (right_a r). Proof. pts. Qed.
Lemma planar_top_a r : planar (top_a r). Proof. pts. Qed.
Lemma planar_core_b r : planar (core_b r). Proof. pts. Qed.
Lemma planar_part r s t u : planar (ring_part r s t u). Proof. pts. Qed.
Lemma planar_part' r s t u : planar (ring_part' r s t u). Proof. pts. Qed.
Lemma planar_far_1 r l : planar (far_1 r l). Proof. pts. Qed.
Lemma planar_far_2 r l : planar (far_2 r l). Proof. pts. Qed.
Lemma planar_2 l : planar l -> shaped 2 l. Proof. intros (A & B). apply shaped_2d; assumption. Qed.
Lemma planar_3 h l : planar l -> shaped 3 (extrude h l). Proof. intros (A & B). apply shaped_3d; assumption. Qed.

(* equal divisions are not too fine *)
Lemma coarse_fine e target gs ns : 0 < e -> (forall n, In n ns -> coarse e target n) -> (forall g, In g gs -> exists dv, g_weights g = map (repeat 1) dv /\ incl dv ns) -> regions_fine e target gs.
Proof.
  intros He C G g w Ig Iw. destruct (G g Ig) as (dv & E & I). rewrite E in Iw. apply in_map_iff in Iw as (n & <- & In_). specialize (C n (I n In_)). intros v Iv.
  assert (N : 0 < INR n) by (destruct n; [destruct Iv|apply lt_0_INR; lia]). apply repeat_spec in Iv. subst v. rewrite sum_ones. unfold coarse in C.
  apply (Rmult_lt_reg_r (INR n)); [exact N|]. replace (2 * (1 / INR n) * INR n) with 2 by (field; lra). exact C.
Qed.

Section Done.
Variables (zdet : R) (shp : list nat -> list nat) (shuffle : emap -> emap) (sh : container -> container) (shc : list (nat * nat) -> list (nat * nat)).
Hypothesis Hz : 0 <= zdet.
Hypothesis AO : any_order shp shuffle sh.
Hypothesis P2 : forall l, Permutation (shc l) l.
Variables (target : geokind) (renumber : bool) (nd : nat) (ns : list nat) (gs : list region) (run : res (mesh R)).
Hypothesis Hnd : (nd = 2 \/ nd = 3)%nat.
Hypothesis Cases : made_or_error zdet shp shuffle sh shc target renumber nd ns gs run.
Hypothesis Dv : forall g, In g gs -> exists dv, g_weights g = map (repeat 1) dv /\ incl dv ns.
Hypothesis Ne : gs <> [].

Lemma done_ok m : (forall n, In n ns -> coarse (tolR nd) target n) -> run = Ok m ->
  (forall n, In n ns -> (1 <= n)%nat) /\ kind_class target = (if (nd =? 2)%nat then CQua else CHex) /\ consistent m /\ coords_complete m /\ all_used m /\ marked_edges m = [] /\ marked_faces m = [] /\
  built nd (tolR nd) target gs m.
Proof.
  intros C E. destruct Cases as [(bs & Pos & F & R)|(_ & msg & X)]; [|rewrite X in E; discriminate E]. split; [exact Pos|]. rewrite E in R. symmetry in R.
  eapply (blocks_done zdet shp shuffle sh shc Hz AO P2 nd target Hnd gs bs F); [|exact R].
  apply coarse_fine with (ns := ns); [apply (tol_small nd Hnd)|exact C|exact Dv].
Qed.
Lemma done_err : In 0%nat ns \/ kind_class target <> (if (nd =? 2)%nat then CQua else CHex) -> exists msg, run = Err msg.
Proof.
  intros H. destruct Cases as [(bs & Pos & F & R)|(_ & X)]; [|exact X]. destruct H as [H|H]; [specialize (Pos 0%nat H); lia|]. rewrite R.
  assert (B : bs <> []) by (intros ->; inversion F; congruence).
  eapply blocks_class; [exact Hz|exact F|exact B|exact H].
Qed.
(* all blocks are meshed *)
Lemma done_total : (forall n, In n ns -> coarse (tolR nd) target n /\ (1 <= n)%nat) -> kind_class target = (if (nd =? 2)%nat then CQua else CHex) ->
  (forall g, In g gs -> off_center nd target g /\ ~ flat zdet nd (g_nodes g)) ->
  exists ms, Forall2 (fun g mi => region_mesh nd target nothing nothing g mi) gs ms /\ run = (let! m := join_meshes shp shuffle sh ms in maybe_renumber renumber m).
Proof.
  intros C K H. destruct Cases as [(bs & Pos & F & R)|([X|(cs & I & Fl)] & _)].
  - destruct (blocks_total zdet shp shuffle sh shc Hz AO P2 nd target Hnd gs bs F) as (ms & Q & E); [apply coarse_fine with (ns := ns); [apply (tol_small nd Hnd)|intros n I; apply C; exact I|exact Dv]|intros g I; apply H; exact I|exact K|].
    exists ms. split; [exact Q|]. rewrite R. unfold mesh_blocks. rewrite E. reflexivity.
  - apply C in X. lia.
  - apply in_map_iff in I as (g & <- & Ig). destruct (proj2 (H g Ig) Fl).
Qed.
End Done.
