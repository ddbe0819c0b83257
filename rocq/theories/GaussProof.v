(* Integrals of monomials over the reference cells. *)
From Coquelicot Require Import Coquelicot.
From Coq Require Import Reals QArith Qreals List Arith Bool Lia Lra ZArith Psatz.
From Verif Require Import Base Kind ShapesSpec GaussModel GaussSpec.
Import ListNotations.
Local Open Scope R_scope.

(** ** one variable *)
Lemma is_RInt_pow a b n : is_RInt (fun x => x ^ n) a b (b ^ S n / INR (S n) - a ^ S n / INR (S n)).
Proof.
  assert (Hn : INR (S n) <> 0) by (apply not_0_INR; lia).
  assert (E : b ^ S n / INR (S n) - a ^ S n / INR (S n) = minus (/ INR (S n) * b ^ S n) (/ INR (S n) * a ^ S n)).
  { change (minus (/ INR (S n) * b ^ S n) (/ INR (S n) * a ^ S n)) with (/ INR (S n) * b ^ S n + - (/ INR (S n) * a ^ S n)).
    unfold Rdiv. ring. }
  rewrite E.
  apply (is_RInt_derive (mult_real_fct (/ INR (S n)) (fun x => x ^ S n)) (fun x => x ^ n)).
  - intros x _. apply is_derive_Reals.
    replace (x ^ n) with (/ INR (S n) * (INR (S n) * x ^ pred (S n))) by (simpl pred; field; auto).
    apply derivable_pt_lim_scal. apply derivable_pt_lim_pow.
  - intros x _. apply (ex_derive_continuous (fun x => x ^ n)). auto_derive; auto.
Qed.

Lemma Q2R_of_succ b : Q2R (1 # Pos.of_succ_nat b) = / INR (S b).
Proof.
  unfold Q2R. cbn [Qnum Qden]. rewrite Rmult_1_l. f_equal. rewrite INR_IZR_INZ.
  f_equal.
Qed.

(* b! k! / (b + k + 1)! *)
Fixpoint pfact (n : nat) : positive := match n with O => 1 | S n' => Pos.of_succ_nat n' * pfact n' end%positive.
Definition beta (b k : nat) : Q := Zpos (pfact b * pfact k) # pfact (b + k + 1).
Definition rfact (n : nat) : R := IZR (Zpos (pfact n)).
Lemma rfact_S n : rfact (S n) = INR (S n) * rfact n.
Proof. unfold rfact. cbn [pfact]. rewrite Pos2Z.inj_mul, mult_IZR. f_equal. now rewrite INR_IZR_INZ. Qed.
Lemma rfact_neq n : rfact n <> 0.
Proof. apply not_0_IZR. discriminate. Qed.
Lemma Q2R_beta b k : Q2R (beta b k) = rfact b * rfact k / rfact (b + k + 1).
Proof. unfold Q2R, beta. cbn [Qnum Qden]. rewrite Pos2Z.inj_mul, mult_IZR. reflexivity. Qed.
Lemma beta_0 b : Q2R (beta b 0) = / INR (S b).
Proof.
  rewrite Q2R_beta. replace (b + 0 + 1)%nat with (S b) by lia. rewrite rfact_S. change (rfact 0) with 1.
  pose proof (rfact_neq b). assert (INR (S b) <> 0) by (apply not_0_INR; lia). field. auto.
Qed.
Lemma beta_S b k : Q2R (beta b (S k)) = Q2R (beta b k) - Q2R (beta (S b) k).
Proof.
  rewrite !Q2R_beta. replace (b + S k + 1)%nat with (S (b + k + 1)) by lia. replace (S b + k + 1)%nat with (S (b + k + 1)) by lia.
  rewrite !rfact_S. assert (E : INR (S (b + k + 1)) = INR (S b) + INR (S k)) by (rewrite <- plus_INR; f_equal; lia).
  assert (INR (S (b + k + 1)) <> 0) by (apply not_0_INR; lia). pose proof (rfact_neq (b + k + 1)). rewrite E in *. field. auto.
Qed.

Lemma is_RInt_beta c k : forall b, is_RInt (fun y => y ^ b * (c - y) ^ k) 0 c (c ^ (b + k + 1) * Q2R (beta b k)).
Proof.
  induction k as [|k IH]; intros b.
  - replace (c ^ (b + 0 + 1) * Q2R (beta b 0)) with (c ^ S b / INR (S b) - 0 ^ S b / INR (S b)).
    + apply (is_RInt_ext (fun y => y ^ b)); [intros; simpl; lra|]. apply is_RInt_pow.
    + rewrite beta_0, pow_i by lia. replace (b + 0 + 1)%nat with (S b) by lia. unfold Rdiv. ring.
  - replace (c ^ (b + S k + 1) * Q2R (beta b (S k)))
      with (minus (scal c (c ^ (b + k + 1) * Q2R (beta b k))) (c ^ (S b + k + 1) * Q2R (beta (S b) k))).
    + apply (is_RInt_ext (fun y => minus (scal c (y ^ b * (c - y) ^ k)) (y ^ S b * (c - y) ^ k))).
      { intros x _. unfold minus, plus, opp, scal; simpl. unfold mult; simpl. ring. }
      apply (is_RInt_minus (V := R_NormedModule)); [|apply IH].
      apply (is_RInt_scal (V := R_NormedModule)). apply IH.
    + rewrite beta_S. unfold minus, plus, opp, scal; simpl. unfold mult; simpl.
      replace (b + S k + 1)%nat with (S (b + k + 1)) by lia. simpl. ring.
Qed.

(** ** values *)
Definition leg (a : nat) : Q := (if Nat.even a then 2 # Pos.of_succ_nat a else 0)%Q.
Lemma is_RInt_leg a : is_RInt (fun x => x ^ a) (-1) 1 (Q2R (leg a)).
Proof.
  replace (Q2R (leg a)) with (1 ^ S a / INR (S a) - (-1) ^ S a / INR (S a)) by
    (unfold leg; rewrite pow1; destruct (Nat.even a) eqn:E;
     [ apply Nat.even_spec in E; destruct E as [m ->]; rewrite pow_1_odd;
       replace (Q2R (2 # Pos.of_succ_nat (2 * m))) with (2 * Q2R (1 # Pos.of_succ_nat (2 * m))) by
         (unfold Q2R; cbn [Qnum Qden]; ring);
       rewrite Q2R_of_succ; unfold Rdiv; ring
     | assert (O : Nat.odd a = true) by (unfold Nat.odd; now rewrite E); apply Nat.odd_spec in O; destruct O as [m ->];
       replace (S (2 * m + 1)) with (2 * S m)%nat by lia; rewrite pow_1_even; unfold Q2R; simpl Qnum; unfold Rdiv; ring ]).
  apply is_RInt_pow.
Qed.

Definition mono_int (c : geoclass) (e : exponents) : Q :=
  let '(x, y, z) := e in
  match c with
  | CLin => leg x
  | CQua => leg x * leg y
  | CHex => leg x * (leg y * leg z)
  | CTri => beta x (y + 1) * beta y 0
  | CTet => beta x (y + z + 2) * (beta y (z + 1) * beta z 0)
  end%Q.

Lemma rscal_r (f : R -> R) a b v k : is_RInt f a b v -> is_RInt (fun x => f x * k) a b (v * k).
Proof.
  intros H. apply (is_RInt_ext (fun x => scal k (f x))); [intros; unfold scal; simpl; unfold mult; simpl; ring|].
  replace (v * k) with (scal k v) by (unfold scal; simpl; unfold mult; simpl; ring). now apply (is_RInt_scal (V := R_NormedModule)).
Qed.

Lemma mono_integral c x y z : (class_ndim c < 2 -> y = 0)%nat -> (class_ndim c < 3 -> z = 0)%nat ->
  ref_integral c (monomial (x, y, z)) (Q2R (mono_int c (x, y, z))).
Proof.
  intros Hy Hz. unfold ref_integral, mono_int, monomial, int3, int2, int1. destruct c.
  - rewrite Hy, Hz by (simpl; lia). apply (is_RInt_ext (fun t => t ^ x)); [intros; simpl; lra|]. apply is_RInt_leg.
  - rewrite Hz by (simpl; lia). exists (fun t => t ^ x * (1 - t) ^ (y + 1) * Q2R (beta y 0)). split.
    + intros t _. apply (is_RInt_ext (fun s => s ^ y * ((1 - t) - s) ^ 0 * t ^ x)); [intros; simpl; ring|].
      replace (t ^ x * (1 - t) ^ (y + 1) * Q2R (beta y 0)) with ((1 - t) ^ (y + 0 + 1) * Q2R (beta y 0) * t ^ x)
        by (rewrite Nat.add_0_r; ring).
      apply rscal_r. apply is_RInt_beta.
    + rewrite Q2R_mult. apply rscal_r. generalize (is_RInt_beta 1 (y + 1) x). now rewrite pow1, Rmult_1_l.
  - rewrite Hz by (simpl; lia). exists (fun t => t ^ x * Q2R (leg y)). split.
    + intros t _. apply (is_RInt_ext (fun s => s ^ y * t ^ x)); [intros; simpl; ring|].
      rewrite Rmult_comm. apply rscal_r, is_RInt_leg.
    + rewrite Q2R_mult. apply rscal_r, is_RInt_leg.
  - exists (fun t => t ^ x * (1 - t) ^ (y + z + 2) * Q2R (beta y (z + 1) * beta z 0)). split.
    + intros t _. exists (fun s => s ^ y * ((1 - t) - s) ^ (z + 1) * (t ^ x * Q2R (beta z 0))). split.
      * intros s _. apply (is_RInt_ext (fun r => r ^ z * ((1 - t - s) - r) ^ 0 * (t ^ x * s ^ y))); [intros; simpl; ring|].
        replace (s ^ y * (1 - t - s) ^ (z + 1) * (t ^ x * Q2R (beta z 0)))
          with ((1 - t - s) ^ (z + 0 + 1) * Q2R (beta z 0) * (t ^ x * s ^ y)) by (rewrite Nat.add_0_r; ring).
        apply rscal_r, is_RInt_beta.
      * rewrite Q2R_mult.
        replace (t ^ x * (1 - t) ^ (y + z + 2) * (Q2R (beta y (z + 1)) * Q2R (beta z 0)))
          with ((1 - t) ^ (y + (z + 1) + 1) * Q2R (beta y (z + 1)) * (t ^ x * Q2R (beta z 0)))
          by (replace (y + (z + 1) + 1)%nat with (y + z + 2)%nat by lia; ring).
        apply rscal_r, is_RInt_beta.
    + rewrite (Q2R_mult (beta x (y + z + 2))). apply rscal_r. generalize (is_RInt_beta 1 (y + z + 2) x). now rewrite pow1, Rmult_1_l.
  - exists (fun t => t ^ x * Q2R (leg y * leg z)). split.
    + intros t _. exists (fun s => s ^ y * (t ^ x * Q2R (leg z))). split.
      * intros s _. apply (is_RInt_ext (fun r => r ^ z * (t ^ x * s ^ y))); [intros; simpl; ring|].
        replace (s ^ y * (t ^ x * Q2R (leg z))) with (Q2R (leg z) * (t ^ x * s ^ y)) by ring. apply rscal_r, is_RInt_leg.
      * rewrite Q2R_mult. replace (t ^ x * (Q2R (leg y) * Q2R (leg z))) with (Q2R (leg y) * (t ^ x * Q2R (leg z))) by ring.
        apply rscal_r, is_RInt_leg.
    + rewrite (Q2R_mult (leg x)). apply rscal_r, is_RInt_leg.
Qed.

(** ** linearity and uniqueness *)
Lemma int1_lin a b f g u v k : int1 a b f u -> int1 a b g v -> int1 a b (fun x => k * f x + g x) (k * u + v).
Proof.
  intros H1 H2. apply (is_RInt_plus (V := R_NormedModule) (fun x => scal k (f x)) g); [|exact H2].
  now apply (is_RInt_scal (V := R_NormedModule)).
Qed.
Lemma int1_unique a b f u v : int1 a b f u -> int1 a b f v -> u = v.
Proof. unfold int1. intros H1 H2. apply (is_RInt_unique (V := R_CompleteNormedModule)) in H1. apply (is_RInt_unique (V := R_CompleteNormedModule)) in H2. now rewrite <- H1, <- H2. Qed.
Lemma int1_ext a b f g v : a <= b -> (forall x, a <= x <= b -> f x = g x) -> int1 a b f v -> int1 a b g v.
Proof.
  intros L E H. apply (is_RInt_ext f); [|exact H]. intros x Hx. rewrite Rmin_left, Rmax_right in Hx by auto. apply E. lra.
Qed.
Lemma int2_lin a b lo hi f g u v k : int2 a b lo hi f u -> int2 a b lo hi g v ->
  int2 a b lo hi (fun x y => k * f x y + g x y) (k * u + v).
Proof.
  intros (p & P1 & P2) (q & Q1 & Q2). exists (fun x => k * p x + q x). split.
  - intros x Hx. apply int1_lin; auto.
  - now apply int1_lin.
Qed.
Lemma int2_unique a b lo hi f u v : a <= b -> int2 a b lo hi f u -> int2 a b lo hi f v -> u = v.
Proof.
  intros L (p & P1 & P2) (q & Q1 & Q2). apply (int1_unique a b p); auto. apply (int1_ext a b q); auto.
  intros x Hx. apply (int1_unique (lo x) (hi x) (f x)); auto.
Qed.
Lemma int3_lin a b lo hi lo2 hi2 f g u v k : int3 a b lo hi lo2 hi2 f u -> int3 a b lo hi lo2 hi2 g v ->
  int3 a b lo hi lo2 hi2 (fun x y z => k * f x y z + g x y z) (k * u + v).
Proof.
  intros (p & P1 & P2) (q & Q1 & Q2). exists (fun x => k * p x + q x). split.
  - intros x Hx. now apply (int2_lin _ _ _ _ (f x) (g x)); auto.
  - now apply int1_lin.
Qed.
Lemma int3_unique a b lo hi lo2 hi2 f u v : a <= b -> (forall x, a <= x <= b -> lo x <= hi x) ->
  int3 a b lo hi lo2 hi2 f u -> int3 a b lo hi lo2 hi2 f v -> u = v.
Proof.
  intros L L2 (p & P1 & P2) (q & Q1 & Q2). apply (int1_unique a b p); auto. apply (int1_ext a b q); auto.
  intros x Hx. apply (int2_unique (lo x) (hi x) (lo2 x) (hi2 x) (f x)); auto.
Qed.

Lemma ref_integral_lin c f g u v k : ref_integral c f u -> ref_integral c g v ->
  ref_integral c (fun x y z => k * f x y z + g x y z) (k * u + v).
Proof.
  destruct c; unfold ref_integral; intros H1 H2.
  - now apply (int1_lin _ _ (fun x => f x 0 0) (fun x => g x 0 0)).
  - now apply (int2_lin _ _ _ _ (fun x y => f x y 0) (fun x y => g x y 0)).
  - now apply (int2_lin _ _ _ _ (fun x y => f x y 0) (fun x y => g x y 0)).
  - now apply int3_lin.
  - now apply int3_lin.
Qed.
Lemma ref_integral_unique c f u v : ref_integral c f u -> ref_integral c f v -> u = v.
Proof.
  destruct c; unfold ref_integral; intros H1 H2.
  - eapply int1_unique; eauto.
  - eapply int2_unique; eauto; lra.
  - eapply int2_unique; eauto; lra.
  - eapply int3_unique; [| |exact H1|exact H2]; [lra|intros; lra].
  - eapply int3_unique; [| |exact H1|exact H2]; [lra|intros; lra].
Qed.
Lemma int1_zero a b : int1 a b (fun _ => 0) 0.
Proof.
  pose proof (rscal_r (fun x => x ^ 0) a b _ 0 (is_RInt_pow a b 0)) as H. rewrite Rmult_0_r in H.
  apply (is_RInt_ext (fun x => x ^ 0 * 0)); [intros; simpl; apply Rmult_0_r|exact H].
Qed.
Lemma int2_zero a b lo hi : int2 a b lo hi (fun _ _ => 0) 0.
Proof. exists (fun _ => 0). split; intros; apply int1_zero. Qed.
Lemma ref_integral_zero c : ref_integral c (fun _ _ _ => 0) 0.
Proof.
  destruct c; unfold ref_integral; try apply int1_zero; try apply int2_zero;
    exists (fun _ => 0); (split; [intros; apply int2_zero|apply int1_zero]).
Qed.

Definition fits (c : geoclass) (e : exponents) : Prop :=
  let '(_, y, z) := e in (class_ndim c < 2 -> y = 0)%nat /\ (class_ndim c < 3 -> z = 0)%nat.
Lemma poly_integral c P : Forall (fun t => fits c (snd t)) P ->
  ref_integral c (polynomial P) (sum (map (fun t => fst t * Q2R (mono_int c (snd t))) P)).
Proof.
  induction 1 as [|[k [[x y] z]] P [Hy Hz] HP IH].
  - apply ref_integral_zero.
  - unfold polynomial. cbn [map sum fst snd]. apply ref_integral_lin; [now apply mono_integral|exact IH].
Qed.
