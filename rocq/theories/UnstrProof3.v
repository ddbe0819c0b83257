(* Unstructured quarter rings: points moved to the circles; distinct corners; the seed of the region. *)
From Coq Require Import String List Arith Bool ZArith Reals Lia Lra.
From Verif Require Import Base BaseFacts Kind MeshModel TopoModel GeomModel MeshQuerySpec UnstrModel UnstrSpec UnstrProof UnstrProof2.
Import ListNotations.
Local Open Scope list_scope.
Local Open Scope R_scope.

Lemma TOL_eq : TOL = / 10 ^ 15. Proof. reflexivity. Qed.

(* snap moves along the ray from the axis *)
Lemma snap_spec r c : 0 <= r -> (2 <= List.length c)%nat -> radius c <> 0 ->
  on_circle r (snap r c) /\ List.length (snap r c) = List.length c /\
  (forall i, (2 <= i)%nat -> nth i (snap r c) 0 = nth i c 0) /\
  exists k, 0 <= k /\ nth 0 (snap r c) 0 = k * nth 0 c 0 /\ nth 1 (snap r c) 0 = k * nth 1 c 0.
Proof.
  intros Hr L D. destruct c as [|x [|y rest]]; try (simpl in L; lia). unfold radius in *. cbn [nth] in *.
  replace (x ^ 2 + y ^ 2) with (x * x + y * y) in * by ring. unfold snap. cbv zeta.
  set (d := sqrt (x * x + y * y)) in *. unfold Rltb.
  assert (Dp : 0 < d) by (assert (0 <= d) by apply sqrt_pos; lra).
  destruct (Rlt_dec TOL (Rabs (r - d))) as [H|H].
  - assert (E1 : x + (r - d) * x / d = r / d * x) by (field; lra). assert (E2 : y + (r - d) * y / d = r / d * y) by (field; lra).
    rewrite E1, E2. split; [|split; [reflexivity|split]].
    + unfold on_circle, radius. cbn [nth]. replace ((r / d * x) ^ 2 + (r / d * y) ^ 2) with ((r / d) ^ 2 * (x * x + y * y)) by ring.
      rewrite sqrt_mult; [|apply pow2_ge_0|pose proof (pow2_ge_0 x); pose proof (pow2_ge_0 y); simpl in *; lra].
      fold d. rewrite <- Rsqr_pow2, sqrt_Rsqr by (apply Rmult_le_pos; [auto|apply Rlt_le, Rinv_0_lt_compat; auto]).
      replace (r / d * d - r) with 0 by (field; lra). rewrite Rabs_R0. apply Rlt_le, Rinv_0_lt_compat, pow_lt. lra.
    + intros [|[|i]] Hi; try lia. reflexivity.
    + exists (r / d). split; [apply Rmult_le_pos; [auto|apply Rlt_le, Rinv_0_lt_compat; auto]|auto].
  - split; [|split; [reflexivity|split; [reflexivity|exists 1; split; [lra|split; cbn [nth]; ring]]]].
    unfold on_circle, radius. cbn [nth]. replace (x ^ 2 + y ^ 2) with (x * x + y * y) by ring. fold d. rewrite <- TOL_eq, Rabs_minus_sym. lra.
Qed.

Lemma constrain_spec rmin rmax p : 0 <= rmin -> 0 <= rmax -> (2 <= List.length (pt_coords p))%nat ->
  let q := constrain rmin rmax p in
  pt_id q = pt_id p /\ pt_marker q = pt_marker p /\ List.length (pt_coords q) = List.length (pt_coords p) /\
  (pt_marker p = (-5)%Z -> radius (pt_coords p) <> 0 -> on_circle rmin (pt_coords q)) /\
  (pt_marker p = (-6)%Z -> radius (pt_coords p) <> 0 -> on_circle rmax (pt_coords q)) /\
  (pt_marker p <> (-5)%Z -> pt_marker p <> (-6)%Z -> pt_coords q = pt_coords p) /\
  (forall i, (2 <= i)%nat -> nth i (pt_coords q) 0 = nth i (pt_coords p) 0).
Proof.
  intros H1 H2 L. cbv zeta. unfold constrain, MARKER_INNER, MARKER_OUTER.
  assert (SL : forall r c, List.length (snap r c) = List.length c /\ forall i, (2 <= i)%nat -> nth i (snap r c) 0 = nth i c 0).
  { intros r c. unfold snap. destruct c as [|x [|y rest]]; auto. cbv zeta. destruct (Rltb _ _); [|auto]. split; [reflexivity|]. intros [|[|i]]; auto; lia. }
  destruct (pt_marker p =? -5)%Z eqn:E5; [apply Z.eqb_eq in E5|apply Z.eqb_neq in E5].
  - cbn [pt_marker pt_id pt_coords]. rewrite E5. change (-5 =? -6)%Z with false. cbn [pt_marker pt_id pt_coords].
    split; [auto|]. split; [auto|]. split; [apply SL|]. split; [|split; [discriminate|split; [congruence|apply SL]]].
    intros _ D. now apply snap_spec.
  - destruct (pt_marker p =? -6)%Z eqn:E6; [apply Z.eqb_eq in E6|apply Z.eqb_neq in E6]; cbn [pt_marker pt_id pt_coords].
    + split; [auto|]. split; [auto|]. split; [apply SL|]. split; [congruence|]. split; [|split; [congruence|apply SL]].
      intros _ D. now apply snap_spec.
    + split; [auto|]. split; [auto|]. split; [auto|]. split; [congruence|]. split; [congruence|]. split; auto.
Qed.

(* no two corners of the polygon coincide *)
Lemma frac_lt k n : (1 <= n)%nat -> (k < n)%nat -> INR k * (PI / 2 / INR n) < PI / 2.
Proof.
  intros Hn Hk. pose proof (INR_pos n Hn). apply lt_INR in Hk. pose proof PI_RGT_0.
  replace (INR k * (PI / 2 / INR n)) with (INR k * / INR n * (PI / 2)) by (field; lra).
  rewrite <- (Rmult_1_l (PI / 2)) at 2. apply Rmult_lt_compat_r; [lra|]. apply (Rmult_lt_reg_r (INR n)); [auto|]. rewrite Rmult_assoc, Rinv_l by lra. lra.
Qed.
Lemma frac_pos k n : (1 <= n)%nat -> (1 <= k)%nat -> 0 < INR k * (PI / 2 / INR n).
Proof.
  intros Hn Hk. pose proof (INR_pos n Hn). pose proof (INR_pos k Hk). pose proof PI_RGT_0.
  apply Rmult_lt_0_compat; [auto|]. apply Rmult_lt_0_compat; [lra|]. now apply Rinv_0_lt_compat.
Qed.
Lemma frac_le k n : (1 <= n)%nat -> (k <= n)%nat -> INR k * (PI / 2 / INR n) <= PI / 2.
Proof.
  intros Hn Hk. apply Nat.lt_eq_cases in Hk. destruct Hk as [Hk| ->]; [now apply Rlt_le, frac_lt|].
  pose proof (INR_pos n Hn). right. field. lra.
Qed.
Lemma frac_inj j k n : (1 <= n)%nat -> (j < k)%nat -> INR j * (PI / 2 / INR n) < INR k * (PI / 2 / INR n).
Proof.
  intros Hn H. apply lt_INR in H. apply Rmult_lt_compat_r; [|auto]. pose proof (INR_pos n Hn). pose proof PI_RGT_0.
  apply Rmult_lt_0_compat; [lra|]. now apply Rinv_0_lt_compat.
Qed.
Lemma pyth a : cos a * cos a + sin a * sin a = 1.
Proof. pose proof (sin2_cos2 a) as H. unfold Rsqr in H. lra. Qed.
Lemma polar_norm r a : fst (polar r a) ^ 2 + snd (polar r a) ^ 2 = r ^ 2.
Proof. unfold polar. cbn [fst snd]. pose proof (pyth a). replace ((r * cos a) ^ 2 + (r * sin a) ^ 2) with (r ^ 2 * (cos a * cos a + sin a * sin a)) by ring. rewrite H. ring. Qed.

Section Distinct.
Variables (rmin rmax : R) (nr na : nat).
Hypothesis H0 : 0 < rmin. Hypothesis H1 : rmin < rmax. Hypothesis Hr : (1 <= nr)%nat. Hypothesis Ha : (1 <= na)%nat.
Notation P := (ring_corner rmin rmax nr na).
Notation dr := ((rmax - rmin) / INR nr).
Lemma dr_pos : 0 < dr. Proof. apply Rmult_lt_0_compat; [lra|apply Rinv_0_lt_compat, INR_pos; auto]. Qed.
Lemma step_le k : (k <= nr)%nat -> INR k * dr <= rmax - rmin.
Proof.
  intros Hk. apply le_INR in Hk. pose proof (INR_pos nr Hr). replace (rmax - rmin) with (INR nr * dr) at 2 by (field; lra).
  apply Rmult_le_compat_r; [pose proof dr_pos; lra|auto].
Qed.
Lemma step_lt j k : (j < k)%nat -> INR j * dr < INR k * dr.
Proof. intros H. apply lt_INR in H. apply Rmult_lt_compat_r; [apply dr_pos|auto]. Qed.

(* the four parts *)
Definition part (i : nat) : nat := if (i <=? nr)%nat then 0%nat else if (i <=? nr + na)%nat then 1%nat else if (i <=? nr + na + nr)%nat then 2%nat else 3%nat.
Lemma part0 i : (i <= nr)%nat -> P i = (rmin + INR i * dr, 0).
Proof. intros H. unfold ring_corner. now rewrite (proj2 (Nat.leb_le i nr)). Qed.
Lemma part1 i : (nr < i <= nr + na)%nat -> P i = polar rmax (INR (i - nr) * (PI / 2 / INR na)).
Proof. intros H. unfold ring_corner. rewrite (proj2 (Nat.leb_gt i nr)) by lia. now rewrite (proj2 (Nat.leb_le i (nr + na))) by lia. Qed.
Lemma part2 i : (nr + na < i <= nr + na + nr)%nat -> P i = (0, rmax - INR (i - nr - na) * dr).
Proof. intros H. unfold ring_corner. rewrite (proj2 (Nat.leb_gt i nr)) by lia. rewrite (proj2 (Nat.leb_gt i (nr + na))) by lia. now rewrite (proj2 (Nat.leb_le i (nr + na + nr))) by lia. Qed.
Lemma part3 i : (nr + na + nr < i)%nat -> P i = polar rmin (INR (nr + na + nr + na - i) * (PI / 2 / INR na)).
Proof. intros H. unfold ring_corner. rewrite (proj2 (Nat.leb_gt i nr)) by lia. rewrite (proj2 (Nat.leb_gt i (nr + na))) by lia. now rewrite (proj2 (Nat.leb_gt i (nr + na + nr))) by lia. Qed.

Lemma cos_differ a b : 0 <= a -> a < b -> b <= PI / 2 -> cos a <> cos b.
Proof. intros A B C E. pose proof PI_RGT_0. pose proof (cos_decreasing_1 a b). lra. Qed.

Lemma corners_differ i j : (i < j)%nat -> (j < 2 * nr + 2 * na)%nat -> P i <> P j.
Proof.
  intros Hij Hj E. pose proof dr_pos as D.
  destruct (Nat.le_gt_cases i nr) as [A0|A0].
  - rewrite (part0 i A0) in E. destruct (Nat.le_gt_cases j nr) as [B0|B0].
    { rewrite (part0 j B0) in E. pose proof (step_lt i j Hij). injection E. lra. }
    destruct (Nat.le_gt_cases j (nr + na)) as [B1|B1].
    { rewrite (part1 j) in E by lia. injection E as E1 E2. pose proof (frac_pos (j - nr) na Ha ltac:(lia)). pose proof (frac_le (j - nr) na Ha ltac:(lia)).
      assert (0 < sin (INR (j - nr) * (PI / 2 / INR na))) by (apply sin_gt_0; pose proof PI_RGT_0; lra).
      pose proof (Rmult_lt_0_compat rmax _ ltac:(lra) H3). lra. }
    destruct (Nat.le_gt_cases j (nr + na + nr)) as [B2|B2].
    { rewrite (part2 j) in E by lia. injection E as E1 E2. pose proof (step_le (j - nr - na) ltac:(lia)). lra. }
    rewrite (part3 j) in E by lia. injection E as E1 E2. pose proof (frac_pos (nr + na + nr + na - j) na Ha ltac:(lia)). pose proof (frac_lt (nr + na + nr + na - j) na Ha ltac:(lia)).
    assert (0 < sin (INR (nr + na + nr + na - j) * (PI / 2 / INR na))) by (apply sin_gt_0; pose proof PI_RGT_0; lra).
    pose proof (Rmult_lt_0_compat rmin _ H0 H3). lra.
  - destruct (Nat.le_gt_cases i (nr + na)) as [A1|A1].
    + rewrite (part1 i) in E by lia. pose proof (polar_norm rmax (INR (i - nr) * (PI / 2 / INR na))) as N. rewrite E in N.
      destruct (Nat.le_gt_cases j (nr + na)) as [B1|B1].
      { rewrite (part1 j) in E by lia. injection E as E1 E2. apply Rmult_eq_reg_l in E1; [|lra].
        revert E1. apply cos_differ; [apply Rlt_le, frac_pos; auto; lia|apply frac_inj; auto; lia|apply frac_le; auto; lia]. }
      destruct (Nat.le_gt_cases j (nr + na + nr)) as [B2|B2].
      { rewrite (part2 j) in N by lia. cbn [fst snd] in N. pose proof (step_le (j - nr - na) ltac:(lia)). pose proof (step_lt 0 (j - nr - na) ltac:(lia)).
        cbn [INR] in *. nra. }
      rewrite (part3 j) in N by lia. rewrite polar_norm in N. nra.
    + destruct (Nat.le_gt_cases i (nr + na + nr)) as [A2|A2].
      * rewrite (part2 i) in E by lia. destruct (Nat.le_gt_cases j (nr + na + nr)) as [B2|B2].
        { rewrite (part2 j) in E by lia. injection E as E1. pose proof (step_lt (i - nr - na) (j - nr - na) ltac:(lia)). lra. }
        rewrite (part3 j) in E by lia. injection E as E1 E2. pose proof (frac_pos (nr + na + nr + na - j) na Ha ltac:(lia)). pose proof (frac_lt (nr + na + nr + na - j) na Ha ltac:(lia)).
        assert (0 < cos (INR (nr + na + nr + na - j) * (PI / 2 / INR na))) by (apply cos_gt_0; pose proof PI_RGT_0; lra).
        pose proof (Rmult_lt_0_compat rmin _ H0 H3). lra.
      * rewrite (part3 i), (part3 j) in E by lia. injection E as E1 E2. apply Rmult_eq_reg_l in E1; [|lra]. symmetry in E1.
        revert E1. apply cos_differ; [apply Rlt_le, frac_pos; auto; lia|apply frac_inj; auto; lia|apply frac_le; auto; lia].
Qed.
End Distinct.

(* every corner is on the side it belongs to *)
Lemma corner_places rmin rmax nr na i : (1 <= nr)%nat -> (1 <= na)%nat -> (i < 2 * nr + 2 * na)%nat -> let P := ring_corner rmin rmax nr na in let q := P ((i + 1) mod (2 * nr + 2 * na))%nat in
  (ring_side_marker nr na i = (-7)%Z -> snd (P i) = 0 /\ snd q = 0) /\
  (ring_side_marker nr na i = (-6)%Z -> fst (P i) ^ 2 + snd (P i) ^ 2 = rmax ^ 2 /\ fst q ^ 2 + snd q ^ 2 = rmax ^ 2) /\
  (ring_side_marker nr na i = (-8)%Z -> fst (P i) = 0 /\ fst q = 0) /\
  (ring_side_marker nr na i = (-5)%Z -> fst (P i) ^ 2 + snd (P i) ^ 2 = rmin ^ 2 /\ fst q ^ 2 + snd q ^ 2 = rmin ^ 2).
Proof.
  intros Hr Ha Hi P q. pose proof (INR_pos nr Hr) as Pr. pose proof (INR_pos na Ha) as Pa.
  assert (C : P nr = (rmax, 0)) by (unfold P; rewrite part0 by lia; f_equal; field; lra).
  assert (Dp : P (nr + na)%nat = (0, rmax)).
  { unfold P. rewrite part1 by lia. replace (nr + na - nr)%nat with na by lia. unfold polar. replace (INR na * (PI / 2 / INR na)) with (PI / 2) by (field; lra).
    rewrite cos_PI2, sin_PI2. f_equal; ring. }
  assert (B : P (nr + na + nr)%nat = (0, rmin)) by (unfold P; rewrite part2 by lia; replace (nr + na + nr - nr - na)%nat with nr by lia; f_equal; field; lra).
  assert (A : P 0%nat = (rmin, 0)) by (unfold P; rewrite part0 by lia; cbn [INR]; f_equal; ring).
  assert (Q : (i + 1 < 2 * nr + 2 * na)%nat -> q = P (i + 1)%nat) by (intros; unfold q; now rewrite Nat.mod_small).
  unfold ring_side_marker. destruct (i <? nr)%nat eqn:E0; [apply Nat.ltb_lt in E0|apply Nat.ltb_ge in E0].
  { repeat split; try discriminate; [unfold P; now rewrite part0 by lia|rewrite Q by lia; unfold P; now rewrite part0 by lia]. }
  destruct (i <? nr + na)%nat eqn:E1; [apply Nat.ltb_lt in E1|apply Nat.ltb_ge in E1].
  { split; [discriminate|]. split; [|split; discriminate]. intros _. split.
    - destruct (Nat.eq_dec i nr) as [->|]; [rewrite C; cbn [fst snd]; ring|]. unfold P. rewrite part1 by lia. apply polar_norm.
    - rewrite Q by lia. unfold P. rewrite part1 by lia. apply polar_norm. }
  destruct (i <? nr + na + nr)%nat eqn:E2; [apply Nat.ltb_lt in E2|apply Nat.ltb_ge in E2].
  { split; [discriminate|]. split; [discriminate|]. split; [|discriminate]. intros _. split.
    - destruct (Nat.eq_dec i (nr + na)) as [->|]; [now rewrite Dp|]. unfold P. now rewrite part2 by lia.
    - rewrite Q by lia. unfold P. now rewrite part2 by lia. }
  split; [discriminate|]. split; [discriminate|]. split; [discriminate|]. intros _. split.
  - destruct (Nat.eq_dec i (nr + na + nr)) as [->|]; [rewrite B; cbn [fst snd]; ring|]. unfold P. rewrite part3 by lia. apply polar_norm.
  - destruct (Nat.eq_dec (i + 1) (2 * nr + 2 * na)) as [Z|Z].
    + unfold q. rewrite Z, Nat.mod_same by lia. rewrite A. cbn [fst snd]. ring.
    + rewrite Q by lia. unfold P. rewrite part3 by lia. apply polar_norm.
Qed.
