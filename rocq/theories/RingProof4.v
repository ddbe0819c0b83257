(* Structured::quarter_ring_2d and quarter_ring_3d: results and errors. *)
From Coq Require Import String Reals List Lia Lra Bool Arith ZArith Permutation.
From Verif Require Import Base BaseFacts Kind MeshModel MeshQuerySpec TopoModel TopoSpec GeomModel GeomSpec GeomProof GridModel GridSpec GridProof SearchModel SearchProof
  JoinModel JoinSpec JoinProof JoinProof2 ShapesModel ShapesSpec PadModel PadSpec BlockModel BlockSpec BlockProof BlockProof2 BlockProof3 BlockProof8 BlockProof9 BlockProof10 PropBlock GraphModel StructModel StructSpec StructProof StructProof3 StructProof4 RingSpec RingProof RingProof2 RingProof3.
Import ListNotations.
Local Open Scope list_scope.
Local Open Scope R_scope.

Lemma Rltb_iff a b : Rltb a b = true <-> a < b.
Proof. unfold Rltb. destruct (Rlt_dec a b); split; auto; congruence. Qed.
Lemma Rltb_not a b : Rltb a b = false <-> b <= a.
Proof. unfold Rltb. destruct (Rlt_dec a b); split; try congruence; lra. Qed.
Lemma ones_sum n : (1 <= n)%nat -> 1 <= sum (repeat 1 n).
Proof. intros H. rewrite sum_ones. replace 1 with (INR 1) by reflexivity. apply le_INR. exact H. Qed.
Lemma ones_nil n : (1 <= n)%nat -> repeat 1 n <> [].
Proof. destruct n; [lia|discriminate]. Qed.

Definition same_but_ring (b b' : block) : Prop := b_ndim b' = b_ndim b /\ b_ndiv b' = b_ndiv b /\ b_delta b' = b_delta b /\ b_ec b' = b_ec b /\ b_fc b' = b_fc b /\ b_em b' = b_em b /\ b_fm b' = b_fm b /\ b_marker b' = b_marker b.
Section Done.
Variables (zdet : R) (sh : container -> container) (shc : list (nat * nat) -> list (nat * nat)) (target : geokind).
Hypothesis Z0 : 0 <= zdet.
Hypothesis P : forall c, Permutation (sh c) c.
Hypothesis PC : forall l, Permutation (shc l) l.
Variables (ra rb h : R) (wr : list R) (na nz : nat) (renumber : bool).

(* the block before it is subdivided *)
Lemma block_2d_ring : zdet < / 4 -> wr <> [] -> 1 <= sum wr -> (1 <= na)%nat -> exists b dr da,
  (let! b := new_square zdet 1 in or_panic (call (set_div_weights_2d b wr (repeat 1 na)))) = Ok b /\
  made zdet b /\ b_ndim b = 2%nat /\ b_ndiv b = [List.length wr; List.length (repeat 1 na)] /\ b_delta b = [dr; da] /\ weighted wr dr /\ weighted (repeat 1 na) da /\
  b_ec b = [] /\ b_fc b = [] /\ b_em b = [] /\ b_fm b = [] /\ b_marker b = 1%Z.
Proof.
  intros Hz Nw Sw Na. destruct (box_2d_ok zdet 0 0 1 1 Z0 ltac:(lra)) as (p & E & _).
  assert (EB : [[0; 0]; [1; 0]; [1; 1]; [0; 1]] = box_2d 0 0 1 1). { unfold box_2d. replace (0 + 1) with 1 by lra. reflexivity. }
  unfold new_square. rewrite EB, E. cbn [or_panic bind]. set (b0 := mkBlock MARKER 2 [2; 2]%nat [[1; 1]; [1; 1]] [] [] [] [] p (mkRing 0 (PI / 2) 1 2 0 1) false) in *.
  assert (M0 : made zdet b0) by (eapply made_new; exact E).
  destruct (proj1 (C54_weights_2d zdet b0 wr (repeat 1 na) Z0 M0) eq_refl Nw (ones_nil na Na) Sw (ones_sum na Na)) as (b & dr & da & Es & (S1 & S2 & S3 & S4 & S5 & S6 & S7 & S8 & S9) & DV & DD & W1 & W2).
  exists b, dr, da. rewrite Es. split; [reflexivity|]. split; [replace b with (snd (set_div_weights_2d b0 wr (repeat 1 na))) by (rewrite Es; reflexivity); apply made_w2; exact M0|].
  split; [exact S2|]. split; [exact DV|]. split; [exact DD|]. split; [exact W1|]. split; [exact W2|]. split; [exact S3|]. split; [exact S4|]. split; [exact S5|]. split; [exact S6|exact S1].
Qed.
Lemma block_3d_ring : zdet < / 8 -> wr <> [] -> 1 <= sum wr -> (1 <= na)%nat -> (1 <= nz)%nat -> exists b dr da dz,
  (let! b := new_cube zdet 1 in or_panic (call (set_div_weights_3d b wr (repeat 1 na) (repeat 1 nz)))) = Ok b /\
  made zdet b /\ b_ndim b = 3%nat /\ b_ndiv b = [List.length wr; List.length (repeat 1 na); List.length (repeat 1 nz)] /\ b_delta b = [dr; da; dz] /\ weighted wr dr /\ weighted (repeat 1 na) da /\ weighted (repeat 1 nz) dz /\
  b_ec b = [] /\ b_fc b = [] /\ b_em b = [] /\ b_fm b = [] /\ b_marker b = 1%Z.
Proof.
  intros Hz Nw Sw Na Nz. destruct (cube_ok zdet 1 Z0 ltac:(lra)) as (p & E). unfold cube_nodes in E.
  unfold new_cube. rewrite E. cbn [or_panic bind]. match type of E with _ = Ok ?b => set (b0 := b) in * end.
  assert (M0 : made zdet b0) by (eapply made_new; exact E).
  destruct (proj1 (C54_weights_3d zdet b0 wr (repeat 1 na) (repeat 1 nz) Z0 M0) eq_refl Nw (ones_nil na Na) (ones_nil nz Nz) Sw (ones_sum na Na) (ones_sum nz Nz)) as (b & dr & da & dz & Es & (S1 & S2 & S3 & S4 & S5 & S6 & S7 & S8 & S9) & DV & DD & W1 & W2 & W3).
  exists b, dr, da, dz. rewrite Es. split; [reflexivity|]. split; [replace b with (snd (set_div_weights_3d b0 wr (repeat 1 na) (repeat 1 nz))) by (rewrite Es; reflexivity); apply made_w3; exact M0|].
  split; [exact S2|]. split; [exact DV|]. split; [exact DD|]. split; [exact W1|]. split; [exact W2|]. split; [exact W3|]. split; [exact S3|]. split; [exact S4|]. split; [exact S5|]. split; [exact S6|exact S1].
Qed.

Lemma checks_2d : wr <> [] -> 1 <= sum wr -> (1 <= na)%nat -> quarter_ring_2d zdet sh shc ra rb wr na target renumber =
  let! b := (let! b := new_square zdet 1 in or_panic (call (set_div_weights_2d b wr (repeat 1 na)))) in
  let! b := call (set_transform_into_ring b (Some (mkRing 0 (PI / 2) ra rb 0 1))) in
  let! m := subdivide sh shc b target in maybe_renumber renumber m.
Proof.
  intros Nw Sw Na. unfold quarter_ring_2d. replace (List.length wr <? 1)%nat with false by (symmetry; apply Nat.ltb_ge; destruct wr; [congruence|cbn; lia]).
  replace (fold_left Rplus wr 0) with (sum wr) by (symmetry; apply sum_w_sum). replace (Rltb (sum wr) 1) with false by (symmetry; apply Rltb_not; exact Sw).
  replace (na <? 1)%nat with false by (symmetry; apply Nat.ltb_ge; exact Na). destruct (new_square zdet 1); reflexivity.
Qed.
Lemma checks_3d : wr <> [] -> 1 <= sum wr -> (1 <= na)%nat -> (1 <= nz)%nat -> quarter_ring_3d zdet sh shc ra rb h wr na nz target renumber =
  let! b := (let! b := new_cube zdet 1 in or_panic (call (set_div_weights_3d b wr (repeat 1 na) (repeat 1 nz)))) in
  let! b := call (set_transform_into_ring b (Some (mkRing 0 (PI / 2) ra rb 0 h))) in
  let! m := subdivide sh shc b target in maybe_renumber renumber m.
Proof.
  intros Nw Sw Na Nz. unfold quarter_ring_3d. replace (List.length wr <? 1)%nat with false by (symmetry; apply Nat.ltb_ge; destruct wr; [congruence|cbn; lia]).
  replace (fold_left Rplus wr 0) with (sum wr) by (symmetry; apply sum_w_sum). replace (Rltb (sum wr) 1) with false by (symmetry; apply Rltb_not; exact Sw).
  replace (na <? 1)%nat with false by (symmetry; apply Nat.ltb_ge; exact Na). replace (nz <? 1)%nat with false by (symmetry; apply Nat.ltb_ge; exact Nz). destruct (new_cube zdet 1); reflexivity.
Qed.
Lemma ring_set b a : made zdet b -> good_ring a -> exists b', call (set_transform_into_ring b (Some a)) = Ok b' /\ made zdet b' /\ b_ring b' = true /\ b_args b' = a /\ same_but_ring b b'.
Proof.
  intros M G. destruct (ring_cases b a) as [[_ E]|[N _]]; [|contradiction]. cbv zeta in E. eexists. unfold call. rewrite E. split; [reflexivity|].
  split. { pose proof (made_ring zdet b (Some a) M) as X. rewrite E in X. exact X. }
  repeat split.
Qed.

Lemma no_constraints b : b_ec b = [] -> b_fc b = [] -> has_constraints b = false.
Proof. intros E F. unfold has_constraints. rewrite E, F. reflexivity. Qed.
Lemma good_quarter z : 0 < z -> ra < rb -> good_ring (mkRing 0 (PI / 2) ra rb 0 z).
Proof. intros H R. pose proof PI_RGT_0. split; [cbn; lra|]. split; [cbn; lra|]. split; cbn; assumption. Qed.
End Done.

Section Results.
Variables (zdet : R) (sh : container -> container) (shc : list (nat * nat) -> list (nat * nat)) (target : geokind).
Hypothesis Z0 : 0 <= zdet.
Hypothesis P : forall c, Permutation (sh c) c.
Hypothesis PC : forall l, Permutation (shc l) l.
Variables (ra rb h : R) (wr : list R) (na nz : nat).

Lemma done_2d : zdet < / 4 -> wr <> [] -> 1 <= sum wr -> (1 <= na)%nat -> ra < rb -> kind_class target = CQua -> not_fine (tolR 2) target wr -> not_fine (tolR 2) target (repeat 1 na) ->
  exists m, pictures 2 m (map (sector_shape 2 target) (ring_sectors ra rb 1 wr na 1)) /\ (0 < ra -> distinct_points m) /\
    forall renumber, quarter_ring_2d zdet sh shc ra rb wr na target renumber = maybe_renumber renumber m.
Proof.
  intros Hz Nw Sw Na Hr Ft NF NA.
  destruct (block_2d_ring zdet Z0 wr na Hz Nw Sw Na) as (b & dr & da & Eb & M & ND & DV & DD & W1 & W2 & EC & FC & EM & FM & MK).
  destruct (ring_set zdet b _ M (good_quarter ra rb 1 ltac:(lra) Hr)) as (b' & Es & M' & RG & AR & (S1 & S2 & S3 & S4 & S5 & S6 & S7 & S8)).
  rewrite <- S1 in ND. rewrite <- S2 in DV. rewrite <- S3 in DD. rewrite <- S4 in EC. rewrite <- S5 in FC. rewrite <- S6 in EM. rewrite <- S7 in FM. rewrite <- S8 in MK.
  destruct (ring_2d zdet sh shc target Z0 P PC ra rb 1 wr na 1 Sw Na (le_n _) b' dr da M' ND DV DD W1 W2 (no_constraints b' EC FC) EM FM MK RG AR Ft NF NA) as (m & Run & Pic & D).
  exists m. split; [exact Pic|]. split; [intros R0; apply D; lra|]. intros renumber. rewrite checks_2d, Eb by assumption. cbn [bind]. rewrite Es. cbn [bind]. rewrite Run. reflexivity.
Qed.
Lemma done_3d : zdet < / 8 -> wr <> [] -> 1 <= sum wr -> (1 <= na)%nat -> (1 <= nz)%nat -> ra < rb -> 0 < h -> kind_class target = CHex ->
  not_fine (tolR 3) target wr -> not_fine (tolR 3) target (repeat 1 na) -> not_fine (tolR 3) target (repeat 1 nz) ->
  exists m, pictures 3 m (map (sector_shape 3 target) (ring_sectors ra rb h wr na nz)) /\ (0 < ra -> distinct_points m) /\
    forall renumber, quarter_ring_3d zdet sh shc ra rb h wr na nz target renumber = maybe_renumber renumber m.
Proof.
  intros Hz Nw Sw Na Nz Hr Hh Ft NF NA NZ.
  destruct (block_3d_ring zdet Z0 wr na nz Hz Nw Sw Na Nz) as (b & dr & da & dz & Eb & M & ND & DV & DD & W1 & W2 & W3 & EC & FC & EM & FM & MK).
  destruct (ring_set zdet b _ M (good_quarter ra rb h Hh Hr)) as (b' & Es & M' & RG & AR & (S1 & S2 & S3 & S4 & S5 & S6 & S7 & S8)).
  rewrite <- S1 in ND. rewrite <- S2 in DV. rewrite <- S3 in DD. rewrite <- S4 in EC. rewrite <- S5 in FC. rewrite <- S6 in EM. rewrite <- S7 in FM. rewrite <- S8 in MK.
  destruct (ring_3d zdet sh shc target Z0 P PC ra rb h wr na nz Sw Na Nz b' dr da dz M' ND DV DD W1 W2 W3 (no_constraints b' EC FC) EM FM MK RG AR Ft NF NA NZ) as (m & Run & Pic & D).
  exists m. split; [exact Pic|]. split; [intros R0; apply D; lra|]. intros renumber. rewrite checks_3d, Eb by assumption. cbn [bind]. rewrite Es. cbn [bind]. rewrite Run. reflexivity.
Qed.

(* ---------------------------------------------------------------- errors *)
Variable renumber : bool.
Lemma first_checks_2d : wr = [] \/ sum wr < 1 \/ na = 0%nat -> exists msg, quarter_ring_2d zdet sh shc ra rb wr na target renumber = Err msg.
Proof.
  intros H. unfold quarter_ring_2d. destruct (List.length wr <? 1)%nat eqn:E1; [eauto|]. replace (fold_left Rplus wr 0) with (sum wr) by (symmetry; apply sum_w_sum).
  destruct (Rltb (sum wr) 1) eqn:E2; [eauto|]. destruct (na <? 1)%nat eqn:E3; [eauto|]. exfalso.
  apply Nat.ltb_ge in E1, E3. apply Rltb_not in E2. destruct H as [->|[H| ->]]; [cbn in E1; lia|lra|lia].
Qed.
Lemma first_checks_3d : wr = [] \/ sum wr < 1 \/ na = 0%nat \/ nz = 0%nat -> exists msg, quarter_ring_3d zdet sh shc ra rb h wr na nz target renumber = Err msg.
Proof.
  intros H. unfold quarter_ring_3d. destruct (List.length wr <? 1)%nat eqn:E1; [eauto|]. replace (fold_left Rplus wr 0) with (sum wr) by (symmetry; apply sum_w_sum).
  destruct (Rltb (sum wr) 1) eqn:E2; [eauto|]. destruct (na <? 1)%nat eqn:E3; [eauto|]. destruct (nz <? 1)%nat eqn:E4; [eauto|]. exfalso.
  apply Nat.ltb_ge in E1, E3, E4. apply Rltb_not in E2. destruct H as [->|[H|[->|H]]]; [cbn in E1; lia|lra|lia|lia].
Qed.
Lemma refused b a : ~ good_ring a -> exists msg, call (set_transform_into_ring b (Some a)) = Err msg.
Proof. intros N. destruct (ring_cases b a) as [[G _]|[_ (msg & E)]]; [contradiction|]. unfold call. rewrite E. exists msg. reflexivity. Qed.
Lemma errors_2d : zdet < / 4 -> wr = [] \/ sum wr < 1 \/ na = 0%nat \/ rb <= ra \/ kind_class target <> CQua -> exists msg, quarter_ring_2d zdet sh shc ra rb wr na target renumber = Err msg.
Proof.
  intros Hz H. destruct (list_eq_dec Req_EM_T wr []) as [E1|E1]; [apply first_checks_2d; tauto|]. destruct (Rlt_le_dec (sum wr) 1) as [E2|E2]; [apply first_checks_2d; tauto|].
  destruct (Nat.eq_dec na 0) as [E3|E3]; [apply first_checks_2d; tauto|]. destruct (block_2d_ring zdet Z0 wr na Hz E1 E2 ltac:(lia)) as (b & dr & da & Eb & M & ND & _).
  rewrite checks_2d, Eb by (assumption || lia). cbn [bind]. destruct (Rlt_le_dec ra rb) as [L|L].
  - destruct (ring_set zdet b _ M (good_quarter ra rb 1 ltac:(lra) L)) as (b' & Es & M' & _ & _ & (S1 & _)). rewrite Es. cbn [bind].
    destruct (C45_wrong_class zdet sh shc b' target Z0 M') as (msg & X). { unfold fits. rewrite S1, ND. destruct H as [H|[H|[H|[H|H]]]]; [contradiction|lra|contradiction|lra|exact H]. }
    rewrite X. exists msg. reflexivity.
  - destruct (refused b (mkRing 0 (PI / 2) ra rb 0 1)) as (msg & X). { intros (_ & _ & G & _). cbn in G. lra. } rewrite X. exists msg. reflexivity.
Qed.
Lemma errors_3d : zdet < / 8 -> wr = [] \/ sum wr < 1 \/ na = 0%nat \/ nz = 0%nat \/ rb <= ra \/ h <= 0 \/ kind_class target <> CHex -> exists msg, quarter_ring_3d zdet sh shc ra rb h wr na nz target renumber = Err msg.
Proof.
  intros Hz H. destruct (list_eq_dec Req_EM_T wr []) as [E1|E1]; [apply first_checks_3d; tauto|]. destruct (Rlt_le_dec (sum wr) 1) as [E2|E2]; [apply first_checks_3d; tauto|].
  destruct (Nat.eq_dec na 0) as [E3|E3]; [apply first_checks_3d; tauto|]. destruct (Nat.eq_dec nz 0) as [E4|E4]; [apply first_checks_3d; tauto|].
  destruct (block_3d_ring zdet Z0 wr na nz Hz E1 E2 ltac:(lia) ltac:(lia)) as (b & dr & da & dz & Eb & M & ND & _).
  rewrite checks_3d, Eb by (assumption || lia). cbn [bind]. destruct (Rlt_le_dec ra rb) as [L|L]; [destruct (Rlt_le_dec 0 h) as [L'|L']|].
  - destruct (ring_set zdet b _ M (good_quarter ra rb h L' L)) as (b' & Es & M' & _ & _ & (S1 & _)). rewrite Es. cbn [bind].
    destruct (C45_wrong_class zdet sh shc b' target Z0 M') as (msg & X). { unfold fits. rewrite S1, ND. destruct H as [H|[H|[H|[H|[H|[H|H]]]]]]; [contradiction|lra|contradiction|contradiction|lra|lra|exact H]. }
    rewrite X. exists msg. reflexivity.
  - destruct (refused b (mkRing 0 (PI / 2) ra rb 0 h)) as (msg & X). { intros (_ & _ & _ & G). cbn in G. lra. } rewrite X. exists msg. reflexivity.
  - destruct (refused b (mkRing 0 (PI / 2) ra rb 0 h)) as (msg & X). { intros (_ & _ & G & _). cbn in G. lra. } rewrite X. exists msg. reflexivity.
Qed.
End Results.

(* ---------------------------------------------------------------- a ring without a hole *)
Lemma zero_radius zdet sh shc : 0 <= zdet < / 4 -> (forall c, Permutation (sh c) c) -> (forall l, Permutation (shc l) l) ->
  exists m i j, quarter_ring_2d zdet sh shc 0 1 [1] 1 Qua4 false = Ok m /\ i <> j /\ coords_of m i [0; 0] /\ coords_of m j [0; 0].
Proof.
  intros (Z0 & Hz) P PC.
  assert (S1 : sum [1] = 1) by (cbn; lra). assert (Nw : [1] <> []) by discriminate. assert (Sw : 1 <= sum [1]) by lra.
  destruct (block_2d_ring zdet Z0 [1] 1 Hz Nw Sw (le_n _)) as (b & dr & da & Eb & M & ND & DV & DD & W1 & W2 & EC & FC & EM & FM & MK).
  destruct (ring_set zdet b _ M (good_quarter 0 1 1 ltac:(lra) ltac:(lra))) as (b' & Es & M' & RG & AR & (S2 & S3 & S4 & S5 & S6 & S7 & S8 & S9)).
  rewrite <- S2 in ND. rewrite <- S3 in DV. rewrite <- S4 in DD. rewrite <- S5 in EC. rewrite <- S6 in FC.
  assert (T : tol b' < 1). { unfold tol. rewrite ND. assert (B : sqrt (INR 2) <= 2). { rewrite <- (sqrt_Rsqr 2) by lra. apply sqrt_le_1_alt. unfold Rsqr. cbn. lra. } lra. }
  assert (Sp : spaced b' Qua4).
  { intros a d Ha Hd. rewrite ND in Ha. unfold widths in Hd. rewrite DD in Hd. change (INR (per Qua4)) with 1. destruct a as [|[|a]]; cbn [nth] in Hd; [| |lia].
    - destruct (weighted_nth _ _ _ W1 Hd) as (v & [<-|[]] & ->). rewrite S1. lra.
    - destruct (weighted_nth _ _ _ W2 Hd) as (v & [<-|[]] & ->). rewrite sum_ones. cbn. lra. }
  assert (Ft : fits b' Qua4) by (unfold fits; rewrite ND; reflexivity). pose proof (no_constraints b' EC FC) as HC.
  destruct (C45_total zdet sh shc b' Qua4 Z0 P M' Ft HC) as (m & Run).
  { intros a d Ha Hd. pose proof (Sp a d Ha Hd) as X. change (INR (per Qua4)) with 1 in X. pose proof (tol_pos b' (made_wf _ _ Z0 M')). lra. }
  assert (SD : subdivided zdet sh shc b' Qua4 m) by (repeat (split; [assumption|]); exact Run).
  assert (V : valid_index b' [0; 0]%nat). { split; [rewrite ND; reflexivity|]. intros a Ha. rewrite ND in Ha. unfold ndivs. rewrite DV. destruct a as [|[|a]]; cbn; lia. }
  destruct (C45_nodes _ _ _ _ _ _ SD) as (N1 & _). destruct (N1 [0; 0]%nat 0%nat V ltac:(vm_compute; lia)) as (i & Pi & _). destruct (N1 [0; 0]%nat 3%nat V ltac:(vm_compute; lia)) as (j & Pj & _).
  exists m, i, j. split. { rewrite checks_2d, Eb by (assumption || lia). cbn [bind]. rewrite Es. cbn [bind]. rewrite Run. reflexivity. }
  split. { intros E. apply (C45_conforming _ _ _ _ _ _ [0; 0]%nat 0%nat i [0; 0]%nat 3%nat j SD V V ltac:(vm_compute; lia) ltac:(vm_compute; lia) Pi Pj) in E. vm_compute in E. discriminate E. }
  assert (X : forall q p, (q < 4)%nat -> nth 0 (ref_coords Qua4 q) 0 = -1 -> point_at b' m [0; 0]%nat q p -> coords_of m p [0; 0]).
  { intros q p Hq Hr PA. pose proof (C45_positions _ _ _ _ _ _ [0; 0]%nat q p SD HC V Hq PA) as X. unfold block_map in X. rewrite RG, ND, AR in X. cbn [seq map] in X. rewrite !ring_map in X.
    assert (K : nth 0 (node_ksi b' Qua4 [0; 0]%nat q) 0 = -1). { unfold node_ksi. rewrite ND. cbn [seq map nth]. rewrite Hr. unfold line. cbn. lra. }
    rewrite K in X. replace (stretch 0 1 (-1)) with 0 in X by (unfold stretch; lra). rewrite !Rmult_0_l in X. exact X. }
  split; [apply (X 0%nat i); [lia| |exact Pi]|apply (X 3%nat j); [lia| |exact Pj]]; unfold ref_coords; cbn; unfold Q2R; cbn; lra.
Qed.

