(* The blocks of the quarter disks and plates are meshed. *)
From Coq Require Import String Reals List Lia Lra Bool Arith ZArith Permutation Sorted.
From Verif Require Import Base BaseFacts Kind GraphModel MeshModel MeshQuerySpec TopoModel TopoSpec TopoMaps TopoProof TopoFeat3 TopoFinal GeomModel GeomSpec GeomProof GridModel GridSpec GridProof SearchModel SearchSpec SearchProof SearchProof2
  JoinModel JoinSpec JoinProof JoinProof2 JoinProof3 PropJoin Expr ShapesModel ShapesSpec PadModel PadSpec PadProof PadProof2 PadProof3 BlockModel BlockSpec BlockProof BlockProof2 BlockProof3 BlockProof10 PropBlock StructModel StructSpec StructProof StructProof4 RingSpec RingProof2 BlocksSpec BlocksProof BlocksProof2 BlocksProof3 BlocksProof4 BlocksProof5 BlocksProof6 BlocksProof7 BlocksProof8 BlocksProof9 ExactSpec ExactProof DiskModel DiskSpec DiskProof DiskProof2 DiskProof3 ShapesProof DiskProof4 PosSpec ExactProof2 StructProof6 DiskProof5 DiskProof6.
Import ListNotations.
Local Open Scope list_scope.
Local Open Scope R_scope.

Definition sound (zdet : R) (nd : nat) (target : geokind) (gs : list region) : Prop := forall g, In g gs -> off_center nd target g /\ ~ flat zdet nd (g_nodes g).
Lemma no_sides_off nd target cs dv : off_center nd target (piece cs dv []).
Proof. intros idx k s c _ _ []. Qed.
Lemma thick_2d zdet cs : planar cs -> zdet < center_det cs -> ~ flat zdet 2 cs.
Proof. intros (L & _) H (d & D & Hd). rewrite (det_2d cs d L D) in Hd. lra. Qed.
Lemma thick_3d zdet h cs : planar cs -> zdet < center_det cs * (h / 2) -> ~ flat zdet 3 (extrude h cs).
Proof. intros (L & P) H (d & D & Hd). rewrite (det_3d h cs d L P D) in Hd. lra. Qed.
Lemma half_h (h a b zdet : R) : 0 < h -> zdet < a * (h / 2) -> a <= b -> zdet < b * (h / 2).
Proof. intros Hh H L. eapply Rlt_le_trans; [exact H|]. apply Rmult_le_compat_r; lra. Qed.

Ltac off2 := apply off_2d; [assumption|reflexivity|cbn [In]; intros s c I].
Definition flat_side (s : nat) : nat := match s with 0 => 3 | 1 => 1 | 2 => 0 | _ => 2 end%nat.
Lemma flat_at s x y z : (s < 4)%nat -> at_side 3 s [x; y; z] -> at_side 2 (flat_side s) [x; y].
Proof. intros H. unfold at_side. destruct s as [|[|[|[|s]]]]; [| | | |lia]; cbn; intros ->; reflexivity. Qed.

(* 2d *)
Lemma sound_2d_a zdet target r na nb : In target (targets 2) -> / 1000000 <= r -> zdet < r ^ 2 / 20 -> sound zdet 2 target (disk_2d (core_a r) (right_a r) (top_a r) r na nb).
Proof.
  intros Kt Hr Hd g Ig. unfold disk_2d in Ig. cbn [In] in Ig. destruct Ig as [<-|[<-|[<-|[]]]]; (split; [|cbn [piece g_nodes]; apply thick_2d; [first [apply planar_core_a|apply planar_right_a|apply planar_top_a]|eapply Rlt_le_trans; [exact Hd|]; apply (flat_a r); cbn; tauto]]).
  - apply no_sides_off.
  - off2. destruct I as [I|[]]. injection I as <- <-. exists r. split; [reflexivity|apply far_right_a; exact Hr].
  - off2. destruct I as [I|[]]. injection I as <- <-. exists r. split; [reflexivity|apply far_top_a; exact Hr].
Qed.
Lemma part_center r0 r1 t0 t1 : t1 = t0 + PI / 4 -> 0 <= r0 <= r1 -> (r1 ^ 2 - r0 ^ 2) * (3 / 32) <= center_det (ring_part r0 r1 t0 t1) /\ (r1 ^ 2 - r0 ^ 2) * (3 / 32) <= center_det (ring_part' r0 r1 t0 t1).
Proof.
  intros -> H. rewrite det_part, det_part'. destruct sc_bounds as (_ & _ & _ & Sb & _). assert (0 <= r1 ^ 2 - r0 ^ 2) by nra. split; nra.
Qed.
Lemma arc_out r0 r1 t0 t1 : t1 = t0 + PI / 4 -> / 1000000 <= r1 -> far_side (ring_part r0 r1 t0 t1) 1 (/ 10000000).
Proof.
  intros -> Hr. apply (far_arc _ _ r1 (t0 + PI / 8) 1 2 5); [reflexivity|cbn; tauto|exact Hr|left; split; unfold ring_part; cbn [nth]; f_equal; field|unfold ring_part; cbn [nth]; f_equal; field].
Qed.
Lemma arc_in r0 r1 t0 t1 : t1 = t0 + PI / 4 -> / 1000000 <= r0 -> far_side (ring_part r0 r1 t0 t1) 3 (/ 10000000).
Proof.
  intros -> Hr. apply (far_arc _ _ r0 (t0 + PI / 8) 0 3 7); [reflexivity|cbn; tauto|exact Hr|left; split; unfold ring_part; cbn [nth]; f_equal; field|unfold ring_part; cbn [nth]; f_equal; field].
Qed.
Lemma arc_out' r0 r1 t0 t1 : t1 = t0 + PI / 4 -> / 1000000 <= r1 -> far_side (ring_part' r0 r1 t0 t1) 2 (/ 10000000).
Proof.
  intros -> Hr. apply (far_arc _ _ r1 (t0 + PI / 8) 3 2 6); [reflexivity|cbn; tauto|exact Hr|right; split; unfold ring_part'; cbn [nth]; f_equal; field|unfold ring_part'; cbn [nth]; f_equal; field].
Qed.
Lemma arc_far_1 r l : / 1000000 <= r -> far_side (far_1 r l) 3 (/ 10000000).
Proof.
  intros Hr. apply (far_arc _ _ r (PI / 8) 0 3 7); [reflexivity|cbn; tauto|exact Hr|left; split; unfold far_1; cbn [nth]; f_equal; field|unfold far_1; cbn [nth]; reflexivity].
Qed.
Lemma arc_far_2 r l : / 1000000 <= r -> far_side (far_2 r l) 3 (/ 10000000).
Proof.
  intros Hr. apply (far_arc _ _ r (3 * PI / 8) 0 3 7); [reflexivity|cbn; tauto|exact Hr|left; split; unfold far_2; cbn [nth]; f_equal; field|unfold far_2; cbn [nth]; reflexivity].
Qed.
Lemma quarter_1 : PI / 4 = 0 + PI / 4. Proof. lra. Qed.
Lemma quarter_2 : PI / 2 = PI / 4 + PI / 4. Proof. lra. Qed.
Lemma sound_2d_b zdet target a r na nb : In target (targets 2) -> 0 < a < r -> / 1000000 <= r -> zdet < a ^ 2 / 10 -> zdet < (r ^ 2 - a ^ 2) * (3 / 32) -> sound zdet 2 target (disk_2d (core_b a) (right_b a r) (top_b a r) r na nb).
Proof.
  intros Kt Ha Hr H1 H2 g Ig. unfold disk_2d in Ig. cbn [In] in Ig. destruct Ig as [<-|[<-|[<-|[]]]]; (split; [|cbn [piece g_nodes]; apply thick_2d]).
  - apply no_sides_off.
  - apply planar_core_b.
  - eapply Rlt_le_trans; [exact H1|apply det_core_b].
  - off2. destruct I as [I|[]]. injection I as <- <-. exists r. split; [reflexivity|apply arc_out; [exact quarter_1|exact Hr]].
  - apply planar_part.
  - eapply Rlt_le_trans; [exact H2|apply part_center; [exact quarter_1|lra]].
  - off2. destruct I as [I|[]]. injection I as <- <-. exists r. split; [reflexivity|apply arc_out'; [exact quarter_2|exact Hr]].
  - apply planar_part'.
  - eapply Rlt_le_trans; [exact H2|apply part_center; [exact quarter_2|lra]].
Qed.
Lemma sound_plate_2d zdet target r a b na nb n : In target (targets 2) -> / 1000000 <= r -> 0 < a -> 0 < b -> zdet < ((r + a) ^ 2 - r ^ 2) * (3 / 32) -> zdet < b * (r + a + b) / 8 -> sound zdet 2 target (plate_2d r a b na nb n).
Proof.
  intros Kt Hr Ha Hb H1 H2 g Ig. unfold plate_2d in Ig. cbv zeta in Ig. cbn [In] in Ig. assert (Hra : / 1000000 <= r + a) by lra.
  destruct Ig as [<-|[<-|[<-|[<-|[]]]]]; (split; [|cbn [piece g_nodes]; apply thick_2d]); try apply planar_part; try apply planar_far_1; try apply planar_far_2.
  - off2. destruct I as [I|[I|[]]]; injection I as <- <-; eexists; (split; [reflexivity|]); [apply arc_out|apply arc_in]; try exact quarter_1; assumption.
  - eapply Rlt_le_trans; [exact H1|apply part_center; [exact quarter_1|lra]].
  - off2. destruct I as [I|[I|[]]]; injection I as <- <-; eexists; (split; [reflexivity|]); [apply arc_out|apply arc_in]; try exact quarter_2; assumption.
  - eapply Rlt_le_trans; [exact H1|apply part_center; [exact quarter_2|lra]].
  - off2. destruct I as [I|[]]; injection I as <- <-; eexists; (split; [reflexivity|]). apply arc_far_1; assumption.
  - eapply Rlt_le_trans; [exact H2|]. eapply Rle_trans; [|apply (det_far (r + a) (r + a + b)); [lra|cbn; tauto]]. lra.
  - off2. destruct I as [I|[]]; injection I as <- <-; eexists; (split; [reflexivity|]). apply arc_far_2; assumption.
  - eapply Rlt_le_trans; [exact H2|]. eapply Rle_trans; [|apply (det_far (r + a) (r + a + b)); [lra|cbn; tauto]]. lra.
Qed.
(* 3d *)
Ltac off3 P := apply (off_3d _ _ _ _ _ flat_side); [assumption|reflexivity|apply P|apply P|cbn [In]; intros s c I].
Ltac round3 I := injection I as <- <-; (split; [intros x y z; apply flat_at; lia|]); eexists; (split; [reflexivity|]); cbn [flat_side].
Lemma sound_3d_a zdet target r h na nb nz : In target (targets 3) -> 0 < h -> / 1000000 <= r -> zdet < r ^ 2 / 20 * (h / 2) -> sound zdet 3 target (disk_3d (core_a r) (right_a r) (top_a r) r h na nb nz).
Proof.
  intros Kt Hh Hr Hd g Ig. unfold disk_3d in Ig. cbn [In] in Ig. destruct Ig as [<-|[<-|[<-|[]]]]; (split; [|cbn [piece g_nodes]; apply thick_3d; [first [apply planar_core_a|apply planar_right_a|apply planar_top_a]|eapply half_h; [exact Hh|exact Hd|]; apply (flat_a r); cbn; tauto]]).
  - apply no_sides_off.
  - off3 planar_right_a. destruct I as [I|[]]. round3 I. apply far_right_a; exact Hr.
  - off3 planar_top_a. destruct I as [I|[]]. round3 I. apply far_top_a; exact Hr.
Qed.
Lemma sound_3d_b zdet target a r h na nb nz : In target (targets 3) -> 0 < h -> 0 < a < r -> / 1000000 <= r -> zdet < a ^ 2 / 10 * (h / 2) -> zdet < (r ^ 2 - a ^ 2) * (3 / 32) * (h / 2) -> sound zdet 3 target (disk_3d (core_b a) (right_b a r) (top_b a r) r h na nb nz).
Proof.
  intros Kt Hh Ha Hr H1 H2 g Ig. unfold disk_3d in Ig. cbn [In] in Ig. destruct Ig as [<-|[<-|[<-|[]]]]; (split; [|cbn [piece g_nodes]; apply thick_3d]).
  - apply no_sides_off.
  - apply planar_core_b.
  - eapply half_h; [exact Hh|exact H1|apply det_core_b].
  - off3 planar_part. destruct I as [I|[]]. round3 I. apply arc_out; [exact quarter_1|exact Hr].
  - apply planar_part.
  - eapply half_h; [exact Hh|exact H2|apply part_center; [exact quarter_1|lra]].
  - off3 planar_part'. destruct I as [I|[]]. round3 I. apply arc_out'; [exact quarter_2|exact Hr].
  - apply planar_part'.
  - eapply half_h; [exact Hh|exact H2|apply part_center; [exact quarter_2|lra]].
Qed.
Lemma sound_plate_3d zdet target r a b h na nb n nz : In target (targets 3) -> 0 < h -> / 1000000 <= r -> 0 < a -> 0 < b -> zdet < ((r + a) ^ 2 - r ^ 2) * (3 / 32) * (h / 2) -> zdet < b * (r + a + b) / 8 * (h / 2) -> sound zdet 3 target (plate_3d r a b h na nb n nz).
Proof.
  intros Kt Hh Hr Ha Hb H1 H2 g Ig. unfold plate_3d in Ig. cbv zeta in Ig. cbn [In] in Ig. assert (Hra : / 1000000 <= r + a) by lra.
  destruct Ig as [<-|[<-|[<-|[<-|[]]]]]; (split; [|cbn [piece g_nodes]; apply thick_3d]); try apply planar_part; try apply planar_far_1; try apply planar_far_2.
  - off3 planar_part. destruct I as [I|[I|[]]]; round3 I; [apply arc_out|apply arc_in]; try exact quarter_1; assumption.
  - eapply half_h; [exact Hh|exact H1|apply part_center; [exact quarter_1|lra]].
  - off3 planar_part. destruct I as [I|[I|[]]]; round3 I; [apply arc_out|apply arc_in]; try exact quarter_2; assumption.
  - eapply half_h; [exact Hh|exact H1|apply part_center; [exact quarter_2|lra]].
  - off3 planar_far_1. destruct I as [I|[]]; round3 I. apply arc_far_1; assumption.
  - eapply half_h; [exact Hh|exact H2|]. eapply Rle_trans; [|apply (det_far (r + a) (r + a + b)); [lra|cbn; tauto]]. lra.
  - off3 planar_far_2. destruct I as [I|[]]; round3 I. apply arc_far_2; assumption.
  - eapply half_h; [exact Hh|exact H2|]. eapply Rle_trans; [|apply (det_far (r + a) (r + a + b)); [lra|cbn; tauto]]. lra.
Qed.
