(* C50: the integration points. *)
From Coq Require Import Reals List Arith Lia Lra.
From Verif Require Import Base Kind ShapesModel ShapesSpec GaussModel GaussSpec GaussProof GaussProof2 GaussProof3.
Import ListNotations.
Local Open Scope R_scope.

(** every rule integrates every polynomial of its degree over the reference cell, up to the
    rounding of the table; the integral is unique *)
Theorem C50_exact : forall c n g P, gauss_new_sized c n = Ok g -> Forall (fun t => within_degree c n (snd t)) P ->
  exists v, ref_integral c (polynomial P) v /\ (forall v', ref_integral c (polynomial P) v' -> v' = v) /\
    Rabs (quadrature g (polynomial P) - v) <= table_eps * abs_coefs P.
Proof.
  intros c n g P G F. destruct (rule_exact c n g P G F) as (v & V & B). exists v. split; auto. split; auto.
  intros v' V'. exact (ref_integral_unique c _ _ _ V' V).
Qed.
Print Assumptions C50_exact.
Example C50_exact_ex : exists g, gauss_new_sized CTet 24 = Ok g /\
  Forall (fun t => within_degree CTet 24 (snd t)) [(3, (2, 2, 2)%nat); (-7, (6, 0, 0)%nat); (1, (0, 1, 0)%nat)].
Proof. eexists. split; [reflexivity|]. repeat constructor; vm_compute; lia. Qed.

(** the degrees cannot be increased: some monomial of the next degree is integrated wrongly *)
Theorem C50_sharp : forall c n g, gauss_new_sized c n = Ok g ->
  exists e v, (let '(x, y, z) := e in x + y + z = S (rule_degree c n))%nat /\
    ref_integral c (monomial e) v /\ 1 / 10 ^ 7 <= Rabs (quadrature g (monomial e) - v).
Proof. exact rule_sharp. Qed.
Print Assumptions C50_sharp.

(** a rule with n points has n points, all of them in the reference cell, and positive weights
    but for two rules; the weights add up to the size of the cell *)
Theorem C50_points : forall c n g, gauss_new_sized c n = Ok g ->
  npoint g = n /\ g_class g = c /\
  (forall p, (p < n)%nat -> exists x y z w, g_coords g p = Ok [x; y; z; w] /\ g_weight g p = Ok w /\
     in_ref_cell c x y z /\ (negative_rule c n = false -> 0 < w)) /\
  (forall p, (n <= p)%nat -> g_coords g p = Panic /\ g_weight g p = Panic) /\
  ref_integral c (fun _ _ _ => 1) (ref_measure c) /\ Rabs (sum_n n (wt g) - ref_measure c) <= table_eps.
Proof.
  intros c n g G. split; [apply (rule_points c n g 0 G)|]. split; [now apply (sized_in c n g)|].
  split; [intros p; apply (rule_points c n g p G)|]. split; [intros p; apply (rule_points c n g p G)|].
  split; [apply measure_integral|now apply weights_measure].
Qed.
Print Assumptions C50_points.
Theorem C50_positive_refuted : exists c n g p w, gauss_new_sized c n = Ok g /\ g_weight g p = Ok w /\ w < 0.
Proof.
  destruct (negative_weight CTet 5 _ eq_refl eq_refl) as (p & w & W). exists CTet, 5%nat. eexists _, p, w. split; [reflexivity|exact W].
Qed.
Print Assumptions C50_positive_refuted.

(** the rules on offer; the others are refused *)
Theorem C50_sizes : forall c n,
  (In n (rule_sizes c) -> exists g, gauss_new_sized c n = Ok g) /\
  (~ In n (rule_sizes c) -> exists msg, gauss_new_sized c n = Err msg).
Proof.
  intros c n. destruct (sized_cases c n) as [(I & g & E & _)|(I & E)]; split; intros H; eauto; contradiction.
Qed.
Print Assumptions C50_sizes.

(** the default rule of a kind is one of them; new_or_sized selects *)
Theorem C50_default : forall k, gauss_new_sized (kind_class k) (default_size k) = Ok (gauss_new k) /\
  gauss_new_or_sized k None = Ok (gauss_new k) /\
  forall n, gauss_new_or_sized k (Some n) = gauss_new_sized (kind_class k) n.
Proof. intros k. split; [apply default_sized|]. split; reflexivity. Qed.
Print Assumptions C50_default.

(** the default rule integrates the products of interpolation functions (the entries of the mass
    matrix of an affine element) of every kind but Qua17 *)
Theorem C50_default_products : forall k m n, k <> Qua17 -> (m < kind_nnode k)%nat -> (n < kind_nnode k)%nat ->
  exists v, ref_integral (kind_class k) (fun x y z => N_at k m x y z * N_at k n x y z) v /\
    Rabs (quadrature (gauss_new k) (fun x y z => N_at k m x y z * N_at k n x y z) - v) <= 3 / 10 ^ 8.
Proof. exact product_exact. Qed.
Print Assumptions C50_default_products.
Theorem C50_default_products_refuted : exists k m n v, (m < kind_nnode k)%nat /\ (n < kind_nnode k)%nat /\
  ref_integral (kind_class k) (fun x y z => N_at k m x y z * N_at k n x y z) v /\
  1 / 10 <= Rabs (quadrature (gauss_new k) (fun x y z => N_at k m x y z * N_at k n x y z) - v).
Proof.
  destruct q17_wrong as (v & V). exists Qua17, 4%nat, 4%nat, v. split; [vm_compute; lia|]. split; [vm_compute; lia|exact V].
Qed.
Print Assumptions C50_default_products_refuted.
