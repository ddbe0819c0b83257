(* The mesh of a quarter ring: Structured::quarter_ring_2d and quarter_ring_3d. *)
From Coq Require Import String Reals List Lia Lra Bool Arith ZArith Permutation.
From Verif Require Import Base BaseFacts Kind MeshModel MeshQuerySpec TopoModel TopoSpec GeomModel GeomSpec GeomProof GridModel GridSpec GridProof SearchModel SearchProof
  JoinModel JoinSpec JoinProof JoinProof2 ShapesModel ShapesSpec PadModel PadSpec BlockModel BlockSpec BlockProof BlockProof2 BlockProof3 BlockProof8 BlockProof9 BlockProof10 PropBlock GraphModel StructModel StructSpec StructProof StructProof3 StructProof4 RingSpec RingProof RingProof2.
Import ListNotations.
Local Open Scope list_scope.
Local Open Scope R_scope.

Lemma weighted_nth w ds d : weighted w ds -> In d ds -> exists v, In v w /\ d = 2 * (v / sum w).
Proof.
  intros (L & H) I. apply In_nth with (d := 0) in I as (i & Hi & <-). exists (nth i w 0). split; [apply nth_In; lia|]. rewrite H by lia. unfold Rdiv. ring.
Qed.
Lemma stretch_inj a b u v : a < b -> stretch a b u = stretch a b v -> u = v.
Proof. unfold stretch. intros H E. nra. Qed.
Lemma stretch_in a b u : a < b -> -1 <= u <= 1 -> a <= stretch a b u <= b.
Proof. unfold stretch. intros H E. nra. Qed.

Section Ring.
Variables (zdet : R) (sh : container -> container) (shc : list (nat * nat) -> list (nat * nat)) (target : geokind).
Hypothesis Z0 : 0 <= zdet.
Hypothesis P : forall c, Permutation (sh c) c.
Hypothesis PC : forall l, Permutation (shc l) l.
Variables (ra rb h : R) (wr : list R) (na nz : nat).
Hypothesis Sw : 1 <= sum wr.
Hypothesis Na : (1 <= na)%nat.
Hypothesis Nz : (1 <= nz)%nat.
Let args := mkRing 0 (PI / 2) ra rb 0 h.

Lemma ring_map ksi i : ring_point args ksi i = match i with
  | 0%nat => stretch ra rb (nth 0 ksi 0) * cos (stretch 0 (PI / 2) (nth 1 ksi 0))
  | 1%nat => stretch ra rb (nth 0 ksi 0) * sin (stretch 0 (PI / 2) (nth 1 ksi 0))
  | _ => stretch 0 h (nth 2 ksi 0) end.
Proof.
  assert (E1 : (1 - nth 0 ksi 0) / 2 * ra + (1 + nth 0 ksi 0) / 2 * rb = stretch ra rb (nth 0 ksi 0)) by (unfold stretch; field).
  assert (E2 : (1 - nth 1 ksi 0) / 2 * 0 + (1 + nth 1 ksi 0) / 2 * (PI / 2) = stretch 0 (PI / 2) (nth 1 ksi 0)) by (unfold stretch; field).
  assert (E3 : (1 - nth 2 ksi 0) / 2 * 0 + (1 + nth 2 ksi 0) / 2 * h = stretch 0 h (nth 2 ksi 0)) by (unfold stretch; field).
  destruct i as [|[|i]]; unfold ring_point, args; cbn [rmin rmax amin amax zmin zmax]; rewrite ?E1, ?E2, ?E3; reflexivity.
Qed.
Lemma ring_2d b dr da : made zdet b -> b_ndim b = 2%nat -> b_ndiv b = [List.length wr; List.length (repeat 1 na)] -> b_delta b = [dr; da] -> weighted wr dr -> weighted (repeat 1 na) da ->
  has_constraints b = false -> b_em b = [] -> b_fm b = [] -> b_marker b = 1%Z -> b_ring b = true -> b_args b = args ->
  kind_class target = CQua -> not_fine (tolR 2) target wr -> not_fine (tolR 2) target (repeat 1 na) ->
  exists m, subdivide sh shc b target = Ok m /\ pictures 2 m (map (sector_shape 2 target) (ring_sectors ra rb 1 wr na 1)) /\ (0 < ra < rb -> distinct_points m).
Proof.
  intros M ND DV DD Wr Wa HC EM FM MK RG AR Ft NFr NFa. rewrite repeat_length in DV.
  assert (T : tol b = tolR 2) by (unfold tol, tolR; rewrite ND; reflexivity). assert (T0 : 0 < tolR 2). { unfold tolR. assert (0 < sqrt (INR 2)) by (apply sqrt_lt_R0; cbn; lra). lra. }
  assert (F : fits b target) by (unfold fits; rewrite ND; exact Ft).
  assert (Sp : spaced b target).
  { intros a d Ha Hd. rewrite ND in Ha. rewrite T. unfold widths in Hd. rewrite DD in Hd. destruct a as [|[|a]]; cbn [nth] in Hd; [| |lia].
    - destruct (weighted_nth _ _ _ Wr Hd) as (v & Iv & ->). exact (NFr v Iv).
    - destruct (weighted_nth _ _ _ Wa Hd) as (v & Iv & ->). exact (NFa v Iv). }
  destruct (C45_total zdet sh shc b target Z0 P M F HC) as (m & Run). { intros a d Ha Hd. pose proof (Sp a d Ha Hd). rewrite T in *. pose proof (pos_INR (per target)). nra. }
  assert (SD : subdivided zdet sh shc b target m) by (repeat (split; [assumption|]); exact Run).
  exists m. split; [exact Run|]. split.
  - rewrite <- ND at 1. apply (plain_pictures zdet sh shc b target m SD HC EM FM).
    + rewrite map_length, length_sectors, DV. cbn. lia.
    + intros idx (L & V). rewrite ND in L, V. destruct idx as [|i [|j [|k idx]]]; cbn [List.length] in L; [lia|lia| |lia].
      pose proof (V 0%nat ltac:(lia)) as Hi. pose proof (V 1%nat ltac:(lia)) as Hj. unfold ndivs in Hi, Hj. rewrite DV in Hi, Hj |- *. cbn [nth] in Hi, Hj.
      rewrite nth_error_map. cbn [rank]. replace (i + List.length wr * (j + na * 0))%nat with (i + List.length wr * (j + na * 0))%nat by reflexivity. rewrite nth_sectors by lia. cbn [option_map]. f_equal.
      unfold sector_shape, index_shape. rewrite MK. f_equal. apply map_ext. intros q. unfold sector_node, polar, block_map. rewrite RG, ND, AR. cbn [seq map firstn r_0 r_1 t_0 t_1]. rewrite !ring_map.
      unfold node_ksi. rewrite ND. cbn [seq map nth]. unfold widths. rewrite DD. cbn [nth]. rewrite !(cut_node _ _ wr dr) by (assumption || lra).
      rewrite !(cut_node _ _ (repeat 1 na) da) by (assumption || (rewrite sum_ones; apply not_0_INR; lia) || (rewrite repeat_length; lia)). rewrite !cut_ones by lia. reflexivity.
  - intros (R0 & R1). apply (plain_distinct zdet sh shc b target m SD HC). intros u v (Lu & U) (Lv & V). rewrite ND in *. unfold block_map. rewrite RG, ND, AR. cbn [seq map]. rewrite !ring_map. intros E. injection E as E1 E2.
    destruct u as [|u0 [|u1 [|u2 u]]]; cbn [List.length] in Lu; [lia|lia| |lia]. destruct v as [|v0 [|v1 [|v2 v]]]; cbn [List.length] in Lv; [lia|lia| |lia]. cbn [nth] in E1, E2.
    pose proof (U 0%nat ltac:(lia)) as U0. pose proof (U 1%nat ltac:(lia)) as U1. pose proof (V 0%nat ltac:(lia)) as V0. pose proof (V 1%nat ltac:(lia)) as V1. cbn [nth] in U0, U1, V0, V1. pose proof PI_RGT_0 as Pi.
    pose proof (stretch_in ra rb u0 R1 U0). pose proof (stretch_in ra rb v0 R1 V0). pose proof (stretch_in 0 (PI / 2) u1 ltac:(lra) U1). pose proof (stretch_in 0 (PI / 2) v1 ltac:(lra) V1).
    destruct (polar_inj (stretch ra rb u0) (stretch 0 (PI / 2) u1) (stretch ra rb v0) (stretch 0 (PI / 2) v1)) as (X1 & X2); [lra|lra|assumption..|]. apply stretch_inj in X1; [|lra]. apply stretch_inj in X2; [|lra]. congruence.
Qed.

Lemma ring_3d b dr da dz : made zdet b -> b_ndim b = 3%nat -> b_ndiv b = [List.length wr; List.length (repeat 1 na); List.length (repeat 1 nz)] -> b_delta b = [dr; da; dz] -> weighted wr dr -> weighted (repeat 1 na) da -> weighted (repeat 1 nz) dz ->
  has_constraints b = false -> b_em b = [] -> b_fm b = [] -> b_marker b = 1%Z -> b_ring b = true -> b_args b = args ->
  kind_class target = CHex -> not_fine (tolR 3) target wr -> not_fine (tolR 3) target (repeat 1 na) -> not_fine (tolR 3) target (repeat 1 nz) ->
  exists m, subdivide sh shc b target = Ok m /\ pictures 3 m (map (sector_shape 3 target) (ring_sectors ra rb h wr na nz)) /\ (0 < ra < rb -> 0 < h -> distinct_points m).
Proof.
  intros M ND DV DD Wr Wa Wz HC EM FM MK RG AR Ft NFr NFa NFz. rewrite !repeat_length in DV.
  assert (T : tol b = tolR 3) by (unfold tol, tolR; rewrite ND; reflexivity). assert (T0 : 0 < tolR 3). { unfold tolR. assert (0 < sqrt (INR 3)) by (apply sqrt_lt_R0; cbn; lra). lra. }
  assert (F : fits b target) by (unfold fits; rewrite ND; exact Ft).
  assert (Sp : spaced b target).
  { intros a d Ha Hd. rewrite ND in Ha. rewrite T. unfold widths in Hd. rewrite DD in Hd. destruct a as [|[|[|a]]]; cbn [nth] in Hd; [| | |lia].
    - destruct (weighted_nth _ _ _ Wr Hd) as (v & Iv & ->). exact (NFr v Iv).
    - destruct (weighted_nth _ _ _ Wa Hd) as (v & Iv & ->). exact (NFa v Iv).
    - destruct (weighted_nth _ _ _ Wz Hd) as (v & Iv & ->). exact (NFz v Iv). }
  destruct (C45_total zdet sh shc b target Z0 P M F HC) as (m & Run). { intros a d Ha Hd. pose proof (Sp a d Ha Hd). rewrite T in *. pose proof (pos_INR (per target)). nra. }
  assert (SD : subdivided zdet sh shc b target m) by (repeat (split; [assumption|]); exact Run).
  exists m. split; [exact Run|]. split.
  - rewrite <- ND at 1. apply (plain_pictures zdet sh shc b target m SD HC EM FM).
    + rewrite map_length, length_sectors, DV. cbn. lia.
    + intros idx (L & V). rewrite ND in L, V. destruct idx as [|i [|j [|k [|l idx]]]]; cbn [List.length] in L; [lia|lia|lia| |lia].
      pose proof (V 0%nat ltac:(lia)) as Hi. pose proof (V 1%nat ltac:(lia)) as Hj. pose proof (V 2%nat ltac:(lia)) as Hk. unfold ndivs in Hi, Hj, Hk. rewrite DV in Hi, Hj, Hk |- *. cbn [nth] in Hi, Hj, Hk.
      rewrite nth_error_map. cbn [rank]. rewrite Nat.mul_0_r, Nat.add_0_r. rewrite nth_sectors by lia. cbn [option_map]. f_equal.
      unfold sector_shape, index_shape. rewrite MK. f_equal. apply map_ext. intros q. unfold sector_node, polar, block_map. rewrite RG, ND, AR. cbn [seq map firstn r_0 r_1 t_0 t_1 z_0 z_1]. rewrite !ring_map.
      unfold node_ksi. rewrite ND. cbn [seq map nth]. unfold widths. rewrite DD. cbn [nth]. rewrite !(cut_node _ _ wr dr) by (assumption || lra).
      rewrite !(cut_node _ _ (repeat 1 na) da) by (assumption || (rewrite sum_ones; apply not_0_INR; lia) || (rewrite repeat_length; lia)).
      rewrite !(cut_node _ _ (repeat 1 nz) dz) by (assumption || (rewrite sum_ones; apply not_0_INR; lia) || (rewrite repeat_length; lia)). rewrite !cut_ones by lia. reflexivity.
  - intros (R0 & R1) H0. apply (plain_distinct zdet sh shc b target m SD HC). intros u v (Lu & U) (Lv & V). rewrite ND in *. unfold block_map. rewrite RG, ND, AR. cbn [seq map]. rewrite !ring_map. intros E. injection E as E1 E2 E3.
    destruct u as [|u0 [|u1 [|u2 [|u3 u]]]]; cbn [List.length] in Lu; [lia|lia|lia| |lia]. destruct v as [|v0 [|v1 [|v2 [|v3 v]]]]; cbn [List.length] in Lv; [lia|lia|lia| |lia]. cbn [nth] in E1, E2, E3.
    pose proof (U 0%nat ltac:(lia)) as U0. pose proof (U 1%nat ltac:(lia)) as U1. pose proof (V 0%nat ltac:(lia)) as V0. pose proof (V 1%nat ltac:(lia)) as V1. cbn [nth] in U0, U1, V0, V1. pose proof PI_RGT_0 as Pi.
    pose proof (stretch_in ra rb u0 R1 U0). pose proof (stretch_in ra rb v0 R1 V0). pose proof (stretch_in 0 (PI / 2) u1 ltac:(lra) U1). pose proof (stretch_in 0 (PI / 2) v1 ltac:(lra) V1).
    destruct (polar_inj (stretch ra rb u0) (stretch 0 (PI / 2) u1) (stretch ra rb v0) (stretch 0 (PI / 2) v1)) as (X1 & X2); [lra|lra|assumption..|]. apply stretch_inj in X1; [|lra]. apply stretch_inj in X2; [|lra]. apply stretch_inj in E3; [|lra]. congruence.
Qed.
End Ring.
