(* The tables of integration points against the integrals of the monomials. *)
From Coquelicot Require Import Coquelicot.
From Coq Require Import Reals QArith Qreals Qabs List Arith Bool Lia Lra ZArith Psatz.
From Verif Require Import Base BaseFacts Kind ShapesSpec GaussData GaussModel GaussSpec GaussProof PadProof.
Import ListNotations.
Local Open Scope R_scope.

Definition scale : positive := Eval vm_compute in (2 ^ 62)%positive.
Lemma scale_eq : Z.pos scale = f64_scale. Proof. reflexivity. Qed.

Notation row := (Z * Z * Z * Z)%type.
Definition row_mono (e : exponents) (r : row) : Z :=
  let '(a, b, c) := e in let '(x, y, z, w) := r in (w * (x ^ Z.of_nat a * y ^ Z.of_nat b * z ^ Z.of_nat c))%Z.
Definition zsum (l : list Z) : Z := fold_right Z.add 0%Z l.
Definition table_sum (l : list row) (e : exponents) : Q :=
  let '(a, b, c) := e in (zsum (map (row_mono e) l) # (scale ^ Pos.of_nat (a + b + c + 1))).

Lemma IZR_zsum l : IZR (zsum l) = sum (map IZR l).
Proof. induction l as [|z l IH]; cbn [zsum map sum fold_right]; auto. rewrite plus_IZR. unfold zsum in IH. now rewrite IH. Qed.

Lemma scale_pow n : IZR (Z.pos (scale ^ Pos.of_nat (n + 1))) = IZR f64_scale ^ (n + 1).
Proof.
  rewrite Pos2Z.inj_pow, scale_eq. rewrite (pow_IZR f64_scale (n + 1)). f_equal. f_equal. lia.
Qed.
Lemma f64_scale_pos : IZR f64_scale <> 0.
Proof. apply not_0_IZR. discriminate. Qed.

Definition row_at (r : row) (f : R -> R -> R -> R) : R :=
  let '(x, y, z, w) := r in f64 w * f (f64 x) (f64 y) (f64 z).

Lemma quadrature_rows g f : quadrature g f = sum (map (fun r => row_at r f) (g_data g)).
Proof.
  unfold quadrature, sum_n, npoint. f_equal.
  apply (nth_ext _ _ 0 0); [now rewrite !map_length, seq_length|]. intros i Hi. rewrite map_length, seq_length in Hi.
  set (d := (0, 0, 0, 0)%Z).
  rewrite (nth_map_in _ (g_data g) i d) by auto.
  rewrite (nth_map_in _ (seq 0 _) i 0%nat) by (now rewrite seq_length). rewrite seq_nth by auto. simpl (0 + i)%nat.
  unfold wt, pt, g_weight, g_coords. rewrite (get_ok (g_data g) i d) by auto. cbn [bind].
  destruct (nth i (g_data g) d) as [[[x y] z] w]. reflexivity.
Qed.

Lemma row_mono_eq e r : row_at r (monomial e) =
  IZR (row_mono e r) * / (let '(a, b, c) := e in IZR f64_scale ^ (a + b + c + 1)).
Proof.
  destruct e as [[a b] c], r as [[[x y] z] w]. unfold row_at, monomial, row_mono, f64.
  rewrite !mult_IZR, <- !pow_IZR. unfold Rdiv. rewrite !Rpow_mult_distr, !pow_inv, !pow_add. pose proof f64_scale_pos.
  field. repeat split; try apply pow_nonzero; auto.
Qed.

Lemma sum_scal (l : list R) k : sum (map (fun x => x * k) l) = sum l * k.
Proof. induction l as [|x l IH]; cbn [map sum fold_right]; [ring|]. unfold sum in *. rewrite IH. ring. Qed.

Lemma quadrature_mono g e : quadrature g (monomial e) = Q2R (table_sum (g_data g) e).
Proof.
  rewrite quadrature_rows. rewrite (map_ext _ _ (row_mono_eq e)). destruct e as [[a b] c].
  rewrite <- (map_map (fun r => IZR (row_mono (a, b, c) r)) (fun x => x * / IZR f64_scale ^ (a + b + c + 1))), sum_scal.
  unfold table_sum, Q2R. cbn [Qnum Qden]. rewrite scale_pow, IZR_zsum, map_map. reflexivity.
Qed.

Lemma quadrature_lin g f h k : quadrature g (fun x y z => k * f x y z + h x y z) = k * quadrature g f + quadrature g h.
Proof.
  rewrite !quadrature_rows. induction (g_data g) as [|[[[x y] z] w] l IH]; cbn [map sum fold_right]; [ring|].
  unfold sum in *. rewrite IH. unfold row_at. ring.
Qed.
Lemma quadrature_poly g P : quadrature g (polynomial P) = sum (map (fun t => fst t * Q2R (table_sum (g_data g) (snd t))) P).
Proof.
  induction P as [|[k e] P IH].
  - rewrite quadrature_rows. unfold polynomial. cbn [map sum fold_right]. induction (g_data g) as [|[[[x y] z] w] l IH]; cbn [map sum fold_right]; auto.
    unfold sum in *. rewrite IH. unfold row_at. ring.
  - unfold polynomial. cbn [map sum fst snd fold_right].
    pose proof (quadrature_lin g (monomial e) (polynomial P) k) as Q. unfold polynomial, sum in Q. unfold sum.
    rewrite Q, quadrature_mono. f_equal. exact IH.
Qed.

(** ** the check of the tables *)
Definition all_exponents (d : nat) : list exponents :=
  flat_map (fun x => flat_map (fun y => map (fun z => (x, y, z)) (seq 0 (S d))) (seq 0 (S d))) (seq 0 (S d)).
Definition within_degreeb (c : geoclass) (n : nat) (e : exponents) : bool :=
  let '(x, y, z) := e in
  let d := rule_degree c n in
  ((if product_rule c n then (x <=? d) && (y <=? d) && (z <=? d) else x + y + z <=? d) &&
   ((2 <=? class_ndim c) || (y =? 0)) && ((3 <=? class_ndim c) || (z =? 0)))%nat.
Lemma within_degree_b c n e : within_degree c n e -> In e (filter (within_degreeb c n) (all_exponents (rule_degree c n))).
Proof.
  destruct e as [[x y] z]. intros (H & Hy & Hz). apply filter_In. split.
  - unfold all_exponents. apply in_flat_map. exists x. split; [apply in_seq; destruct (product_rule c n); lia|].
    apply in_flat_map. exists y. split; [apply in_seq; destruct (product_rule c n); lia|].
    apply in_map_iff. exists z. split; auto. apply in_seq; destruct (product_rule c n); lia.
  - unfold within_degreeb. rewrite !andb_true_iff, !orb_true_iff. split; [split|].
    + destruct (product_rule c n); [rewrite !andb_true_iff|]; rewrite ?Nat.leb_le; lia.
    + destruct (Nat.leb_spec 2 (class_ndim c)); [now left|right; apply Nat.eqb_eq; auto].
    + destruct (Nat.leb_spec 3 (class_ndim c)); [now left|right; apply Nat.eqb_eq; auto].
Qed.

(** The sums are evaluated in fixed-point arithmetic with 62 fractional bits; the accumulated
    rounding error is accounted for. *)
Notation SC := (IZR f64_scale).
Definition fmul (v w : Z) : Z := Z.shiftr (v * w) 62.
Lemma f64_scale_lt : 0 < SC. Proof. apply (IZR_lt 0). reflexivity. Qed.

Lemma fmul_near v w v' w' ev ew : (Z.abs v' <= f64_scale)%Z -> (Z.abs w' <= f64_scale)%Z -> Rabs v <= 1 ->
  Rabs (v - f64 v') <= ev / SC -> Rabs (w - f64 w') <= ew / SC ->
  (Z.abs (fmul v' w') <= f64_scale)%Z /\ Rabs (v * w - f64 (fmul v' w')) <= (ev + ew + 1) / SC.
Proof.
  intros Bv Bw Vv Hv Hw. unfold fmul. rewrite Z.shiftr_div_pow2 by lia. change (2 ^ 62)%Z with f64_scale.
  assert (Sp : (0 < f64_scale)%Z) by reflexivity.
  pose proof (Z.div_mod (v' * w') f64_scale ltac:(lia)) as DM. pose proof (Z.mod_pos_bound (v' * w') f64_scale Sp) as MB.
  set (q := (v' * w' / f64_scale)%Z) in *. set (r := (v' * w' mod f64_scale)%Z) in *.
  assert (P : (Z.abs (v' * w') <= f64_scale * f64_scale)%Z) by (rewrite Z.abs_mul; apply Z.mul_le_mono_nonneg; lia).
  split.
  - apply Z.abs_le in P. apply Z.abs_le. split.
    + assert (- f64_scale < q + 1)%Z; [|lia]. apply (Z.mul_lt_mono_pos_l f64_scale); auto. lia.
    + apply (Z.mul_le_mono_pos_l _ _ f64_scale); auto. lia.
  - pose proof f64_scale_lt as Sl.
    assert (E : f64 v' * f64 w' - f64 q = IZR r / (SC * SC)).
    { unfold f64. apply (f_equal IZR) in DM. rewrite mult_IZR, plus_IZR, mult_IZR in DM.
      replace (IZR r) with (IZR v' * IZR w' - SC * IZR q) by lra. field. lra. }
    replace (v * w - f64 q) with (v * (w - f64 w') + f64 w' * (v - f64 v') + (f64 v' * f64 w' - f64 q)) by ring.
    rewrite E. assert (R0 : 0 <= IZR r / (SC * SC) <= 1 / SC).
    { destruct MB as [M1 M2]. apply (IZR_le 0) in M1. apply Z.lt_le_incl, IZR_le in M2. split.
      - apply Rmult_le_pos; auto. left. apply Rinv_0_lt_compat. now apply Rmult_lt_0_compat.
      - apply (Rmult_le_reg_r (SC * SC)); [now apply Rmult_lt_0_compat|]. unfold Rdiv. rewrite Rmult_assoc, Rinv_l by (apply Rgt_not_eq; now apply Rmult_lt_0_compat).
        replace (1 * / SC * (SC * SC)) with SC by (field; lra). lra. }
    assert (F1 : Rabs (f64 w') <= 1).
    { unfold f64, Rdiv. rewrite Rabs_mult, <- abs_IZR, (Rabs_right (/ SC)) by (apply Rle_ge, Rlt_le, Rinv_0_lt_compat; auto).
      apply IZR_le in Bw. apply (Rmult_le_reg_r SC); auto. rewrite Rmult_assoc, Rinv_l by lra. lra. }
    assert (A1 : Rabs (v * (w - f64 w')) <= ew / SC).
    { rewrite Rabs_mult. rewrite <- (Rmult_1_l (ew / SC)). apply Rmult_le_compat; auto using Rabs_pos. }
    assert (A2 : Rabs (f64 w' * (v - f64 v')) <= ev / SC).
    { rewrite Rabs_mult. rewrite <- (Rmult_1_l (ev / SC)). apply Rmult_le_compat; auto using Rabs_pos. }
    eapply Rle_trans; [apply Rabs_triang|]. eapply Rle_trans; [apply Rplus_le_compat_r, Rabs_triang|].
    rewrite (Rabs_right (IZR r / (SC * SC))) by lra. unfold Rdiv in *. lra.
Qed.

Fixpoint fpowers (x acc : Z) (n : nat) : list Z :=
  match n with O => [acc] | S n' => acc :: fpowers x (fmul x acc) n' end.
Lemma fpowers_near x n : (Z.abs x <= f64_scale)%Z -> forall acc k, (Z.abs acc <= f64_scale)%Z ->
  Rabs (f64 x ^ k - f64 acc) <= INR k / SC -> forall i, (i <= n)%nat ->
  (Z.abs (nth i (fpowers x acc n) 0%Z) <= f64_scale)%Z /\
  Rabs (f64 x ^ (k + i) - f64 (nth i (fpowers x acc n) 0%Z)) <= INR (k + i) / SC.
Proof.
  intros Bx. assert (Vx : Rabs (f64 x) <= 1).
  { pose proof f64_scale_lt. unfold f64, Rdiv. rewrite Rabs_mult, <- abs_IZR, (Rabs_right (/ SC)) by (apply Rle_ge, Rlt_le, Rinv_0_lt_compat; auto).
    apply IZR_le in Bx. apply (Rmult_le_reg_r SC); auto. rewrite Rmult_assoc, Rinv_l by lra. lra. }
  assert (Ex : Rabs (f64 x - f64 x) <= 0 / SC) by (rewrite Rminus_diag_eq, Rabs_R0 by auto; unfold Rdiv; lra).
  induction n as [|n IH]; intros acc k Ba Ha i Hi; destruct i as [|i]; try lia; cbn [fpowers nth].
  - rewrite Nat.add_0_r. auto.
  - rewrite Nat.add_0_r. auto.
  - destruct (fmul_near (f64 x) (f64 x ^ k) x acc 0 (INR k) Bx Ba Vx Ex Ha) as [B N].
    replace (k + S i)%nat with (S k + i)%nat by lia. apply IH; auto; [|lia].
    rewrite S_INR. simpl pow. replace (INR k + 1) with (0 + INR k + 1) by ring. exact N.
Qed.

Definition row_powers (d : nat) (r : row) : list Z * list Z * list Z * Z :=
  let '(x, y, z, w) := r in (fpowers x f64_scale d, fpowers y f64_scale d, fpowers z f64_scale d, w).
Definition fx_row (e : exponents) (r : list Z * list Z * list Z * Z) : Z :=
  let '(a, b, c) := e in let '(px, py, pz, w) := r in
  (w * fmul (fmul (nth a px 0%Z) (nth b py 0%Z)) (nth c pz 0%Z))%Z.
Definition row_small (r : row) : bool :=
  let '(x, y, z, _) := r in ((Z.abs x <=? f64_scale) && (Z.abs y <=? f64_scale) && (Z.abs z <=? f64_scale))%Z.
Definition row_abs (r : row) : Z := let '(_, _, _, w) := r in Z.abs w.

Lemma pow_le_1 x n : Rabs x <= 1 -> Rabs (x ^ n) <= 1.
Proof. intros H. rewrite <- RPow_abs. rewrite <- (pow1 n). apply pow_incr. split; auto using Rabs_pos. Qed.
Lemma f64_small x : (Z.abs x <= f64_scale)%Z -> Rabs (f64 x) <= 1.
Proof.
  intros Bx. pose proof f64_scale_lt. unfold f64, Rdiv. rewrite Rabs_mult, <- abs_IZR, (Rabs_right (/ SC)) by (apply Rle_ge, Rlt_le, Rinv_0_lt_compat; auto).
  apply IZR_le in Bx. apply (Rmult_le_reg_r SC); auto. rewrite Rmult_assoc, Rinv_l by lra. lra.
Qed.
Lemma fx_row_near d a b c r : row_small r = true -> (a <= d)%nat -> (b <= d)%nat -> (c <= d)%nat ->
  Rabs (row_at r (monomial (a, b, c)) - IZR (fx_row (a, b, c) (row_powers d r)) / (SC * SC))
   <= IZR (row_abs r) * (INR (a + b + c) + 2) / (SC * SC).
Proof.
  destruct r as [[[x y] z] w]. unfold row_small. rewrite !andb_true_iff, !Z.leb_le. intros [[Bx By] Bz] Ha Hb Hc.
  unfold row_powers, fx_row, row_at, monomial, row_abs. pose proof f64_scale_lt as Sl.
  assert (I : Rabs (1 - f64 f64_scale) <= INR 0 / SC).
  { unfold f64. replace (SC / SC) with 1 by (field; lra). rewrite Rminus_diag_eq, Rabs_R0 by auto. simpl. unfold Rdiv. lra. }
  assert (S1 : (Z.abs f64_scale <= f64_scale)%Z) by (vm_compute; discriminate).
  destruct (fpowers_near x d Bx f64_scale 0 S1 I a Ha) as [Ax Nx].
  destruct (fpowers_near y d By f64_scale 0 S1 I b Hb) as [Ay Ny].
  destruct (fpowers_near z d Bz f64_scale 0 S1 I c Hc) as [Az Nz].
  simpl Nat.add in *. set (X := nth a _ _) in *. set (Y := nth b _ _) in *. set (Zz := nth c _ _) in *.
  destruct (fmul_near (f64 x ^ a) (f64 y ^ b) X Y _ _ Ax Ay (pow_le_1 _ _ (f64_small _ Bx)) Nx Ny) as [A2 N2].
  assert (V2 : Rabs (f64 x ^ a * f64 y ^ b) <= 1).
  { rewrite Rabs_mult. rewrite <- (Rmult_1_l 1). apply Rmult_le_compat; auto using Rabs_pos, pow_le_1, f64_small. }
  destruct (fmul_near (f64 x ^ a * f64 y ^ b) (f64 z ^ c) (fmul X Y) Zz _ _ A2 Az V2 N2 Nz) as [A3 N3].
  set (M := fmul (fmul X Y) Zz) in *. rewrite mult_IZR.
  replace (f64 w * (f64 x ^ a * f64 y ^ b * f64 z ^ c) - IZR w * IZR M / (SC * SC))
    with (f64 w * (f64 x ^ a * f64 y ^ b * f64 z ^ c - f64 M)) by (unfold f64; field; lra).
  rewrite Rabs_mult. unfold f64 at 1, Rdiv at 1. rewrite Rabs_mult, <- abs_IZR, (Rabs_right (/ SC)) by (apply Rle_ge, Rlt_le, Rinv_0_lt_compat; auto).
  rewrite !plus_INR in *.
  replace (IZR (Z.abs w) * (INR a + INR b + INR c + 2) / (SC * SC))
    with (IZR (Z.abs w) * / SC * ((INR a + INR b + 1 + INR c + 1) / SC)) by (field; lra).
  apply Rmult_le_compat_l; auto. apply Rmult_le_pos; [apply IZR_le; lia|left; now apply Rinv_0_lt_compat].
Qed.

Definition scale2 : positive := Eval vm_compute in (2 ^ 124)%positive.
Lemma scale2_eq : IZR (Z.pos scale2) = SC * SC. Proof. rewrite <- mult_IZR. reflexivity. Qed.
Definition fx_sum (pw : list (list Z * list Z * list Z * Z)) (e : exponents) : Q := zsum (map (fx_row e) pw) # scale2.
Definition fx_err (l : list row) (e : exponents) : Q :=
  let '(a, b, c) := e in (zsum (map row_abs l) * (Z.of_nat (a + b + c) + 2) # scale2)%Z.

Lemma fx_near d g e : forallb row_small (g_data g) = true -> (let '(a, b, c) := e in a <= d /\ b <= d /\ c <= d)%nat ->
  Rabs (quadrature g (monomial e) - Q2R (fx_sum (map (row_powers d) (g_data g)) e)) <= Q2R (fx_err (g_data g) e).
Proof.
  destruct e as [[a b] c]. intros F (Ha & Hb & Hc). rewrite quadrature_rows. unfold fx_sum, fx_err, Q2R. cbn [Qnum Qden].
  rewrite scale2_eq, map_map, mult_IZR, !IZR_zsum, !map_map, plus_IZR, <- INR_IZR_INZ.
  change (IZR 2) with 2. pose proof f64_scale_lt.
  induction (g_data g) as [|r l IH]; cbn [map sum fold_right].
  - rewrite !Rmult_0_l, Rminus_0_r, Rabs_R0. lra.
  - cbn [forallb] in F. apply andb_true_iff in F as [F1 F2]. specialize (IH F2). unfold sum in *.
    pose proof (fx_row_near d a b c r F1 Ha Hb Hc) as N. unfold Rdiv in N.
    match goal with |- Rabs (?A + ?B - (?A' + ?B') * ?k) <= _ =>
      replace (A + B - (A' + B') * k) with ((A - A' * k) + (B - B' * k)) by ring end.
    eapply Rle_trans; [apply Rabs_triang|]. lra.
Qed.

Definition epsQ : Q := 2 # 100000000000000.
Definition table_check (c : geoclass) (g : gauss) (d : nat) (es : list exponents) : bool :=
  let pw := map (row_powers d) (g_data g) in
  forallb row_small (g_data g) &&
  forallb (fun e => Qle_bool (Qabs (fx_sum pw e - mono_int c e) + fx_err (g_data g) e) epsQ) es.
(** ** products of a rule for the line: the 27 and 64 points of Hex *)
Definition grid3 (l : list (Z * Z)) : list (Z * Z * Z * Z * Z * Z) :=
  flat_map (fun k => flat_map (fun j => map (fun i => (fst i, fst j, fst k, snd i, snd j, snd k)) l) l) l.
Definition line_row (p : Z * Z) : row := (fst p, 0%Z, 0%Z, snd p).
Definition grid_row (f : R -> R -> R -> R) (q : Z * Z * Z * Z * Z * Z) : R :=
  let '(x, y, z, u, v, w) := q in f64 u * f64 v * f64 w * f (f64 x) (f64 y) (f64 z).

Lemma sum_app l1 l2 : sum (l1 ++ l2) = sum l1 + sum l2.
Proof. induction l1; cbn [app sum]; [ring|]. rewrite IHl1. ring. Qed.
Lemma sum_flat_map {A B} (h : B -> R) (F : A -> list B) l : sum (map h (flat_map F l)) = sum (map (fun a => sum (map h (F a))) l).
Proof. induction l as [|a l IH]; cbn [flat_map map sum]; auto. rewrite map_app, sum_app, IH. reflexivity. Qed.
Lemma sum_scal_f {A} (h : A -> R) k l : sum (map (fun x => h x * k) l) = sum (map h l) * k.
Proof. induction l as [|a l IH]; cbn [map sum]; [ring|]. rewrite IH. ring. Qed.

Definition line_sum (l : list (Z * Z)) (a : nat) : R := sum (map (fun p => f64 (snd p) * f64 (fst p) ^ a) l).
Lemma grid_sum l a b c : sum (map (grid_row (monomial (a, b, c))) (grid3 l)) = line_sum l a * line_sum l b * line_sum l c.
Proof.
  unfold grid3. rewrite sum_flat_map.
  rewrite (map_ext _ (fun k => (f64 (snd k) * f64 (fst k) ^ c) * (line_sum l a * line_sum l b))).
  - rewrite sum_scal_f. fold (line_sum l c). ring.
  - intros k. rewrite sum_flat_map.
    rewrite (map_ext _ (fun j => (f64 (snd j) * f64 (fst j) ^ b) * (line_sum l a * (f64 (snd k) * f64 (fst k) ^ c)))).
    + rewrite sum_scal_f. fold (line_sum l b). ring.
    + intros j. rewrite map_map.
      rewrite (map_ext _ (fun i => (f64 (snd i) * f64 (fst i) ^ a) * ((f64 (snd j) * f64 (fst j) ^ b) * (f64 (snd k) * f64 (fst k) ^ c)))).
      * rewrite sum_scal_f. fold (line_sum l a). ring.
      * intros i. unfold grid_row, monomial. ring.
Qed.

(* the weights of the table against the products, in units of 2^-186 *)
Fixpoint grid_dev (l : list row) (q : list (Z * Z * Z * Z * Z * Z)) : option Z :=
  match l, q with
  | [], [] => Some 0%Z
  | (x, y, z, w) :: l', (x', y', z', u, v, t) :: q' =>
      if ((x =? x') && (y =? y') && (z =? z'))%Z
      then match grid_dev l' q' with Some d => Some (Z.abs (w * f64_scale * f64_scale - u * v * t) + d)%Z | None => None end
      else None
  | _, _ => None
  end.
Lemma grid_dev_near e : forall l q d, grid_dev l q = Some d -> forallb row_small l = true ->
  Rabs (sum (map (fun r => row_at r (monomial e)) l) - sum (map (grid_row (monomial e)) q)) <= IZR d / (SC * SC * SC).
Proof.
  pose proof f64_scale_lt as Sl. destruct e as [[a b] c].
  induction l as [|[[[x y] z] w] l IH]; intros [|[[[[[x' y'] z'] u] v] t] q] d H F; cbn [grid_dev] in H; try discriminate.
  - injection H as <-. cbn [map sum]. rewrite Rminus_0_r, Rabs_R0. unfold Rdiv. lra.
  - destruct ((x =? x') && (y =? y') && (z =? z'))%Z eqn:E; [|discriminate]. rewrite !andb_true_iff, !Z.eqb_eq in E. destruct E as [[<- <-] <-].
    destruct (grid_dev l q) as [d'|] eqn:G; [|discriminate]. injection H as <-.
    cbn [forallb] in F. apply andb_true_iff in F as [F1 F2]. specialize (IH q d' G F2). cbn [map sum].
    assert (N : Rabs (row_at (x, y, z, w) (monomial (a, b, c)) - grid_row (monomial (a, b, c)) (x, y, z, u, v, t)) <=
                IZR (Z.abs (w * f64_scale * f64_scale - u * v * t)) / (SC * SC * SC)).
    { unfold row_at, grid_row. set (M := monomial (a, b, c) (f64 x) (f64 y) (f64 z)).
      assert (B : Rabs M <= 1).
      { unfold row_small in F1. rewrite !andb_true_iff, !Z.leb_le in F1. destruct F1 as [[Bx By] Bz]. unfold M, monomial.
        rewrite !Rabs_mult. apply Rle_trans with (1 * 1 * 1); [|lra].
        apply Rmult_le_compat; [apply Rmult_le_pos; apply Rabs_pos|apply Rabs_pos| |now apply pow_le_1, f64_small].
        apply Rmult_le_compat; auto using Rabs_pos, pow_le_1, f64_small. }
      replace (f64 w * M - f64 u * f64 v * f64 t * M) with (IZR (w * f64_scale * f64_scale - u * v * t) / (SC * SC * SC) * M)
        by (unfold f64; rewrite minus_IZR, !mult_IZR; field; lra).
      rewrite Rabs_mult. unfold Rdiv. rewrite Rabs_mult, <- abs_IZR.
      assert (P : 0 < / (SC * SC * SC)) by (apply Rinv_0_lt_compat; apply Rmult_lt_0_compat; [now apply Rmult_lt_0_compat|exact Sl]).
      rewrite (Rabs_right (/ _)) by lra. rewrite <- (Rmult_1_r (IZR _ * / _)) at 2. apply Rmult_le_compat_l; auto.
      apply Rmult_le_pos; [apply IZR_le; lia|lra]. }
    rewrite plus_IZR. match goal with |- Rabs (?A + ?B - (?A' + ?B')) <= _ =>
      replace (A + B - (A' + B')) with ((A - A') + (B - B')) by ring end.
    eapply Rle_trans; [apply Rabs_triang|]. unfold Rdiv in *. lra.
Qed.

Lemma prod3_near e a b c a' b' c' : 0 <= e <= 1 / 1000 -> Rabs (a - a') <= e -> Rabs (b - b') <= e -> Rabs (c - c') <= e ->
  Rabs a' <= 2 -> Rabs b' <= 2 -> Rabs c' <= 2 -> Rabs (a * b * c - a' * b' * c') <= 121 / 10 * e.
Proof.
  intros He Ha Hb Hc Ba Bb Bc.
  assert (Xa : Rabs a <= 2001 / 1000).
  { replace a with (a' + (a - a')) by ring. eapply Rle_trans; [apply Rabs_triang|]. lra. }
  assert (Xb : Rabs b <= 2001 / 1000).
  { replace b with (b' + (b - b')) by ring. eapply Rle_trans; [apply Rabs_triang|]. lra. }
  replace (a * b * c - a' * b' * c') with ((a - a') * (b' * c') + (b - b') * (a * c') + (c - c') * (a * b)) by ring.
  eapply Rle_trans; [apply Rabs_triang|]. eapply Rle_trans; [apply Rplus_le_compat_r, Rabs_triang|].
  rewrite !Rabs_mult. pose proof (Rabs_pos a) as Pa. pose proof (Rabs_pos b). pose proof (Rabs_pos a'). pose proof (Rabs_pos b').
  pose proof (Rabs_pos c'). pose proof (Rabs_pos (a - a')). pose proof (Rabs_pos (b - b')). pose proof (Rabs_pos (c - c')).
  assert (T1 : Rabs b' * Rabs c' <= 2 * 2) by (apply Rmult_le_compat; auto).
  assert (T2 : Rabs a * Rabs c' <= 2001 / 1000 * 2) by (apply Rmult_le_compat; auto).
  assert (T3 : Rabs a * Rabs b <= 2001 / 1000 * (2001 / 1000)) by (apply Rmult_le_compat; auto).
  assert (U1 : Rabs (a - a') * (Rabs b' * Rabs c') <= e * (2 * 2)) by (apply Rmult_le_compat; auto; apply Rmult_le_pos; auto).
  assert (U2 : Rabs (b - b') * (Rabs a * Rabs c') <= e * (2001 / 1000 * 2)) by (apply Rmult_le_compat; auto; apply Rmult_le_pos; auto).
  assert (U3 : Rabs (c - c') * (Rabs a * Rabs b) <= e * (2001 / 1000 * (2001 / 1000))) by (apply Rmult_le_compat; auto; apply Rmult_le_pos; auto).
  lra.
Qed.

(* points from the first rows of the table, weights from the rule for the line *)
Definition line_of (g : gauss) (m : nat) : list (Z * Z) :=
  match gauss_new_sized CLin m with
  | Ok h => combine (map (fun r => let '(x, _, _, _) := r in x) (firstn m (g_data g)))
              (map (fun r => let '(_, _, _, w) := r in w) (g_data h))
  | _ => []
  end.
Definition scale3 : positive := Eval vm_compute in (2 ^ 186)%positive.
Lemma scale3_eq : IZR (Z.pos scale3) = SC * SC * SC. Proof. rewrite <- !mult_IZR. reflexivity. Qed.
Definition line_eps : Q := 9 # 10000000000000000.
Definition grid_check (g : gauss) (m d : nat) : bool :=
  let l := line_of g m in
  forallb row_small (g_data g) &&
  match grid_dev (g_data g) (grid3 l) with Some dev => Qle_bool ((dev # scale3) + (121 # 10) * line_eps) epsQ | None => false end &&
  forallb (fun a => Qle_bool (Qabs (table_sum (map line_row l) (a, 0, 0)%nat - leg a)) line_eps) (seq 0 (S d)).

Definition rule_check (c : geoclass) (n : nat) : bool :=
  match gauss_new_sized c n with
  | Ok g =>
      match c, n with
      | CHex, 27%nat => grid_check g 3 (rule_degree c n)
      | CHex, 64%nat => grid_check g 4 (rule_degree c n)
      | _, _ => table_check c g (rule_degree c n) (filter (within_degreeb c n) (all_exponents (rule_degree c n)))
      end
  | _ => false
  end.
Lemma rules_checked : forallb (fun c => forallb (rule_check c) (rule_sizes c)) [CLin; CTri; CQua; CTet; CHex] = true.
Proof. vm_compute. reflexivity. Qed.

Lemma Q2R_eps : Q2R epsQ = table_eps.
Proof. unfold Q2R, epsQ, table_eps. cbn [Qnum Qden]. lra. Qed.

Lemma Q2R_Qabs q : Q2R (Qabs q) = Rabs (Q2R q).
Proof.
  unfold Qabs, Q2R. destruct q as [n d]. cbn [Qnum Qden]. rewrite Rabs_mult, abs_IZR. f_equal.
  symmetry. apply Rabs_right. apply Rle_ge, Rlt_le, Rinv_0_lt_compat. now apply IZR_lt.
Qed.

Definition class_eqb (c d : geoclass) : bool :=
  match c, d with CLin, CLin | CTri, CTri | CQua, CQua | CTet, CTet | CHex, CHex => true | _, _ => false end.
Definition sizeb (c : geoclass) (n : nat) : bool := existsb (Nat.eqb n) (rule_sizes c).
Definition sized_check (c : geoclass) (n : nat) : bool :=
  match gauss_new_sized c n with
  | Ok g => sizeb c n && class_eqb (g_class g) c
  | Err _ => negb (sizeb c n)
  | _ => false
  end.
Lemma sized_checked : forallb (fun c => forallb (sized_check c) (seq 0 65)) [CLin; CTri; CQua; CTet; CHex] = true.
Proof. vm_compute. reflexivity. Qed.
Lemma sized_large c m : exists msg, gauss_new_sized c (65 + m) = Err msg.
Proof. destruct c; eexists; reflexivity. Qed.
Lemma sizeb_iff c n : sizeb c n = true <-> In n (rule_sizes c).
Proof.
  unfold sizeb. rewrite existsb_exists. split; [intros (x & I & E); apply Nat.eqb_eq in E; now subst|].
  intros I. exists n. split; auto. apply Nat.eqb_refl.
Qed.
Lemma sized_cases c n :
  (In n (rule_sizes c) /\ exists g, gauss_new_sized c n = Ok g /\ g_class g = c) \/
  (~ In n (rule_sizes c) /\ exists msg, gauss_new_sized c n = Err msg).
Proof.
  destruct (le_lt_dec 65 n) as [L|L].
  - right. split; [destruct c; simpl; lia|]. replace n with (65 + (n - 65))%nat by lia. apply sized_large.
  - pose proof sized_checked as R. rewrite forallb_forall in R.
    assert (R1 : forallb (sized_check c) (seq 0 65) = true) by (apply R; destruct c; simpl; tauto).
    rewrite forallb_forall in R1. specialize (R1 n ltac:(apply in_seq; lia)). unfold sized_check in R1.
    rewrite <- sizeb_iff. destruct (gauss_new_sized c n) as [g|msg| |]; try discriminate.
    + apply andb_true_iff in R1 as [R1 R2]. left. split; auto. exists g. split; auto.
      destruct c, (g_class g); auto; discriminate.
    + right. split; eauto. intros H. rewrite H in R1. discriminate.
Qed.
Lemma sized_in c n g : gauss_new_sized c n = Ok g -> In n (rule_sizes c) /\ g_class g = c.
Proof.
  intros G. destruct (sized_cases c n) as [(I & g' & E & K)|(_ & msg & E)]; rewrite G in E; [|discriminate].
  injection E as ->. auto.
Qed.

Lemma leg_le a : Rabs (Q2R (leg a)) <= 2.
Proof.
  unfold leg. destruct (Nat.even a).
  - replace (Q2R (2 # Pos.of_succ_nat a)) with (2 * Q2R (1 # Pos.of_succ_nat a)) by (unfold Q2R; cbn [Qnum Qden]; ring).
    rewrite Q2R_of_succ. assert (L : 1 <= INR (S a)) by (apply (le_INR 1); lia).
    assert (P : 0 < / INR (S a)) by (apply Rinv_0_lt_compat; lra).
    assert (Q : / INR (S a) <= 1) by (rewrite <- Rinv_1; apply Rinv_le_contravar; lra).
    rewrite Rabs_right; lra.
  - unfold Q2R. cbn [Qnum Qden]. rewrite Rmult_0_l, Rabs_R0. lra.
Qed.
Lemma line_sum_table l a : line_sum l a = Q2R (table_sum (map line_row l) (a, 0, 0)%nat).
Proof.
  pose proof (quadrature_mono (mkGauss CLin (map line_row l)) (a, 0, 0)%nat) as E. rewrite quadrature_rows in E. cbn [g_data] in E.
  rewrite <- E, map_map. unfold line_sum. f_equal. apply map_ext. intros [x w]. unfold row_at, line_row, monomial. cbn [fst snd]. simpl. ring.
Qed.
Lemma grid_mono g m d e : grid_check g m d = true -> (let '(a, b, c) := e in a <= d /\ b <= d /\ c <= d)%nat ->
  Rabs (quadrature g (monomial e) - Q2R (mono_int CHex e)) <= table_eps.
Proof.
  unfold grid_check. cbv zeta. set (l := line_of g m). rewrite !andb_true_iff. intros [[F D] L] B.
  destruct (grid_dev (g_data g) (grid3 l)) as [dev|] eqn:G; [|discriminate].
  destruct e as [[a b] c]. destruct B as (Ba & Bb & Bc).
  pose proof (grid_dev_near (a, b, c) _ _ _ G F) as N. rewrite <- quadrature_rows, grid_sum in N.
  rewrite forallb_forall in L.
  assert (LE : forall i, (i <= d)%nat -> Rabs (line_sum l i - Q2R (leg i)) <= Q2R line_eps).
  { intros i Hi. specialize (L i ltac:(apply in_seq; lia)). apply Qle_bool_iff, Qle_Rle in L.
    now rewrite Q2R_Qabs, Q2R_minus, <- line_sum_table in L. }
  assert (E9 : Q2R line_eps = 9 / 10000000000000000) by (unfold Q2R, line_eps; cbn [Qnum Qden]; lra).
  assert (P3 : Rabs (line_sum l a * line_sum l b * line_sum l c - Q2R (leg a) * Q2R (leg b) * Q2R (leg c)) <= 121 / 10 * Q2R line_eps)
    by (apply prod3_near; auto using leg_le; rewrite E9; lra).
  apply Qle_bool_iff, Qle_Rle in D. rewrite Q2R_plus, Q2R_mult, Q2R_eps in D.
  replace (Q2R (dev # scale3)) with (IZR dev / (SC * SC * SC)) in D by (unfold Q2R; cbn [Qnum Qden]; now rewrite scale3_eq).
  replace (Q2R (121 # 10)) with (121 / 10) in D by (unfold Q2R; cbn [Qnum Qden]; lra).
  unfold mono_int. rewrite !Q2R_mult.
  set (Q := quadrature g _) in *. set (S3 := line_sum l a * _ * _) in *.
  replace (Q - Q2R (leg a) * (Q2R (leg b) * Q2R (leg c))) with ((Q - S3) + (S3 - Q2R (leg a) * Q2R (leg b) * Q2R (leg c))) by ring.
  eapply Rle_trans; [apply Rabs_triang|]. lra.
Qed.

Lemma table_mono c g d es e : table_check c g d es = true -> In e es -> (let '(x, y, z) := e in x <= d /\ y <= d /\ z <= d)%nat ->
  Rabs (quadrature g (monomial e) - Q2R (mono_int c e)) <= table_eps.
Proof.
  intros R1 I A0. unfold table_check in R1. apply andb_true_iff in R1 as [R0 R1].
  rewrite forallb_forall in R1. specialize (R1 e I). apply Qle_bool_iff, Qle_Rle in R1.
  rewrite Q2R_plus, Q2R_Qabs, Q2R_minus, Q2R_eps in R1.
  pose proof (fx_near d g e R0 A0) as N. set (F := Q2R (fx_sum _ _)) in *.
  replace (quadrature g (monomial e) - Q2R (mono_int c e)) with ((quadrature g (monomial e) - F) + (F - Q2R (mono_int c e))) by ring.
  eapply Rle_trans; [apply Rabs_triang|]. lra.
Qed.

Lemma rule_mono c n g e : gauss_new_sized c n = Ok g -> within_degree c n e ->
  Rabs (quadrature g (monomial e) - Q2R (mono_int c e)) <= table_eps.
Proof.
  intros G W. destruct (sized_in c n g G) as [I _].
  pose proof rules_checked as R. rewrite forallb_forall in R.
  assert (R1 : forallb (rule_check c) (rule_sizes c) = true) by (apply R; destruct c; simpl; tauto).
  rewrite forallb_forall in R1. specialize (R1 n I). unfold rule_check in R1. rewrite G in R1.
  pose proof (within_degree_b c n e W) as IE.
  assert (A0 : (let '(x, y, z) := e in x <= rule_degree c n /\ y <= rule_degree c n /\ z <= rule_degree c n)%nat).
  { destruct e as [[x y] z]. destruct W as [W _]. destruct (product_rule c n); lia. }
  destruct c; try exact (table_mono _ _ _ _ _ R1 IE A0).
  simpl in I. destruct I as [<-|[<-|[<-|[<-|[<-|[]]]]]].
  - exact (table_mono _ _ _ _ _ R1 IE A0).
  - exact (table_mono _ _ _ _ _ R1 IE A0).
  - exact (table_mono _ _ _ _ _ R1 IE A0).
  - exact (grid_mono _ _ _ _ R1 A0).
  - exact (grid_mono _ _ _ _ R1 A0).
Qed.

Lemma within_fits c n e : within_degree c n e -> fits c e.
Proof. destruct e as [[x y] z]. intros (_ & A & B). split; auto. Qed.

Lemma rule_exact c n g P : gauss_new_sized c n = Ok g -> Forall (fun t => within_degree c n (snd t)) P ->
  exists v, ref_integral c (polynomial P) v /\ Rabs (quadrature g (polynomial P) - v) <= table_eps * abs_coefs P.
Proof.
  intros G F. eexists. split.
  - apply poly_integral. eapply Forall_impl; [|exact F]. intros t. apply within_fits.
  - rewrite quadrature_poly. induction F as [|[k e] P H F IH].
    + unfold abs_coefs. cbn [map sum fold_right]. rewrite Rminus_0_r, Rabs_R0. lra.
    + unfold abs_coefs in *. cbn [map sum fold_right fst snd] in *. unfold sum in *.
      pose proof (rule_mono c n g e G H) as M. rewrite quadrature_mono in M.
      match goal with |- Rabs (k * ?a + ?b - (k * ?a' + ?b')) <= _ =>
        replace (k * a + b - (k * a' + b')) with (k * (a - a') + (b - b')) by ring;
        eapply Rle_trans; [apply Rabs_triang|]; rewrite Rabs_mult;
        pose proof (Rmult_le_compat_l (Rabs k) _ _ (Rabs_pos k) M) end.
      lra.
Qed.
