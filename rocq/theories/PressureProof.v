(* Uniform pressure along the boundary: the nodal forces of vec_02_nv_bry *)
From Coquelicot Require Import Coquelicot.
From Coq Require Import String Reals QArith Qreals List Lia Lra Bool Arith ZArith Permutation Sorted.
From Verif Require Import Base BaseFacts Expr ShapesData Kind MeshModel GraphModel MeshQuerySpec TopoModel TopoSpec TopoProof TopoFeat3 TopoFinal
  ShapesModel ShapesSpec ShapesProof GeomModel GeomProof PadModel PadSpec PadProof PadProof2 PadProof3 PadProof4 GaussModel GaussSpec GaussProof GaussProof2 GaussProof3 IntegModel IntegSpec PropInteg
  NormalSpec NormalProof NormalProof2 NormalProof3 NormalModel NormalProof4 NormalProof5 PropNormal BalanceSpec BalanceProof BalanceProof2 BalanceProof3 PressureSpec.
Import ListNotations.
Local Open Scope list_scope.
Local Open Scope R_scope.

(** ** polynomials as lists of terms *)
Lemma poly_app P Q x y z : polynomial (P ++ Q) x y z = polynomial P x y z + polynomial Q x y z.
Proof. unfold polynomial. rewrite map_app. apply PadProof.sum_app. Qed.
Lemma abs_app P Q : abs_coefs (P ++ Q) = abs_coefs P + abs_coefs Q.
Proof. unfold abs_coefs. rewrite map_app. apply PadProof.sum_app. Qed.
Lemma poly_cons t P x y z : polynomial (t :: P) x y z = fst t * monomial (snd t) x y z + polynomial P x y z.
Proof. reflexivity. Qed.
Lemma abs_cons t P : abs_coefs (t :: P) = Rabs (fst t) + abs_coefs P.
Proof. reflexivity. Qed.
Definition pscale (c : R) (P : list (R * exponents)) : list (R * exponents) := map (fun t => (c * fst t, snd t)) P.
Lemma poly_scale c P x y z : polynomial (pscale c P) x y z = c * polynomial P x y z.
Proof. unfold polynomial, pscale. induction P as [|t P IH]; cbn; [ring|]. unfold polynomial in *. cbn in IH. rewrite IH. ring. Qed.
Lemma abs_scale c P : abs_coefs (pscale c P) = Rabs c * abs_coefs P.
Proof. unfold abs_coefs, pscale. induction P as [|t P IH]; cbn; [ring|]. rewrite IH, Rabs_mult. ring. Qed.
Lemma abs_pos P : 0 <= abs_coefs P.
Proof. unfold abs_coefs. induction P as [|t P IH]; cbn; [lra|]. pose proof (Rabs_pos (fst t)). lra. Qed.
Definition eadd (e f : exponents) : exponents := let '(a, b, c) := e in let '(a', b', c') := f in (a + a', b + b', c + c')%nat.
Definition pmul (P Q : list (R * exponents)) : list (R * exponents) := flat_map (fun t => map (fun u => (fst t * fst u, eadd (snd t) (snd u))) Q) P.
Lemma mono_add e f x y z : monomial (eadd e f) x y z = monomial e x y z * monomial f x y z.
Proof. destruct e as [[a b] c], f as [[a' b'] c']. cbn. rewrite !pow_add. ring. Qed.
Lemma poly_mul P Q x y z : polynomial (pmul P Q) x y z = polynomial P x y z * polynomial Q x y z.
Proof.
  induction P as [|t P IH]; cbn [pmul flat_map]; [unfold polynomial; cbn; ring|]. rewrite poly_app. fold (pmul P Q). rewrite IH.
  assert (E : polynomial (map (fun u => (fst t * fst u, eadd (snd t) (snd u))) Q) x y z = fst t * monomial (snd t) x y z * polynomial Q x y z).
  { clear IH. induction Q as [|u Q IH]; cbn [map]; [unfold polynomial; cbn; ring|]. rewrite !poly_cons, IH. cbn [fst snd]. rewrite mono_add. ring. }
  rewrite E, poly_cons. ring.
Qed.
Lemma abs_mul P Q : abs_coefs (pmul P Q) = abs_coefs P * abs_coefs Q.
Proof.
  induction P as [|t P IH]; cbn [pmul flat_map]; [unfold abs_coefs; cbn; ring|]. rewrite abs_app. fold (pmul P Q). rewrite IH.
  assert (E : abs_coefs (map (fun u => (fst t * fst u, eadd (snd t) (snd u))) Q) = Rabs (fst t) * abs_coefs Q).
  { clear IH. induction Q as [|u Q IH]; cbn [map]; [unfold abs_coefs; cbn; ring|]. rewrite !abs_cons, IH. cbn [fst snd]. rewrite Rabs_mult. ring. }
  rewrite E, abs_cons. ring.
Qed.

(** ** interpolation functions of lines *)
Definition dense (l : list R) : list (R * exponents) := combine l (map (fun i => (i, 0, 0)%nat) (seq 0 (List.length l))).
Definition line_n (k : geokind) (m : nat) : list R :=
  match k, m with
  | Lin2, 0%nat => [1/2; -1/2] | Lin2, _ => [1/2; 1/2]
  | Lin3, 0%nat => [0; -1/2; 1/2] | Lin3, 1%nat => [0; 1/2; 1/2] | Lin3, _ => [1; 0; -1]
  | Lin4, 0%nat => [-1/16; 1/16; 9/16; -9/16] | Lin4, 1%nat => [-1/16; -1/16; 9/16; 9/16] | Lin4, 2%nat => [9/16; -27/16; -9/16; 27/16] | Lin4, _ => [9/16; 27/16; -9/16; -27/16]
  | Lin5, 0%nat => [0; 1/6; -1/6; -4/6; 4/6] | Lin5, 1%nat => [0; -1/6; -1/6; 4/6; 4/6] | Lin5, 2%nat => [1; 0; -5; 0; 4]
  | Lin5, 3%nat => [0; -4/3; 8/3; 4/3; -8/3] | Lin5, _ => [0; 4/3; 8/3; -4/3; -8/3]
  | _, _ => []
  end.
Definition line_d (k : geokind) (m : nat) : list R :=
  match k, m with
  | Lin2, 0%nat => [-1/2] | Lin2, _ => [1/2]
  | Lin3, 0%nat => [-1/2; 1] | Lin3, 1%nat => [1/2; 1] | Lin3, _ => [0; -2]
  | Lin4, 0%nat => [1/16; 18/16; -27/16] | Lin4, 1%nat => [-1/16; 18/16; 27/16] | Lin4, 2%nat => [-27/16; -18/16; 81/16] | Lin4, _ => [27/16; -18/16; -81/16]
  | Lin5, 0%nat => [1/6; -2/6; -12/6; 16/6] | Lin5, 1%nat => [-1/6; -2/6; 12/6; 16/6] | Lin5, 2%nat => [0; -10; 0; 16]
  | Lin5, 3%nat => [-4/3; 16/3; 12/3; -32/3] | Lin5, _ => [4/3; 16/3; -12/3; -32/3]
  | _, _ => []
  end.
Ltac line_cases k m D H := destruct k; try discriminate D; vm_compute in H; destruct m as [|[|[|[|[|m]]]]]; try lia.
Lemma line_n_ok k m z y w : kind_ndim k = 1%nat -> (m < kind_nnode k)%nat -> nth m (calc_interp k [z]) 0 = polynomial (dense (line_n k m)) z y w.
Proof. intros D H. line_cases k m D H; unfold polynomial, dense, monomial, sum; cbn; unfold Q2R; cbn; field. Qed.
Lemma line_d_ok k m z y w : kind_ndim k = 1%nat -> (m < kind_nnode k)%nat -> ent (calc_deriv k [z]) m 0 = polynomial (dense (line_d k m)) z y w.
Proof. intros D H. line_cases k m D H; unfold polynomial, dense, monomial, sum; cbn; unfold Q2R; cbn; field. Qed.
Lemma line_n_abs k m : abs_coefs (dense (line_n k m)) <= 10.
Proof. destruct k, m as [|[|[|[|m]]]]; unfold abs_coefs, dense, sum; cbn; unfold Rabs; repeat destruct Rcase_abs; lra. Qed.
Lemma line_d_abs k m : abs_coefs (dense (line_d k m)) <= 26.
Proof. destruct k, m as [|[|[|[|m]]]]; unfold abs_coefs, dense, sum; cbn; unfold Rabs; repeat destruct Rcase_abs; lra. Qed.

Lemma poly_flat (F : nat -> list (R * exponents)) x y z n : polynomial (flat_map F (seq 0 n)) x y z = sum_n n (fun m => polynomial (F m) x y z).
Proof. unfold sum_n. generalize (seq 0 n). induction l as [|a l IH]; [reflexivity|]. cbn [flat_map map]. rewrite poly_app, IH. reflexivity. Qed.
Lemma abs_flat (F : nat -> list (R * exponents)) n : abs_coefs (flat_map F (seq 0 n)) = sum_n n (fun m => abs_coefs (F m)).
Proof. unfold sum_n. generalize (seq 0 n). induction l as [|a l IH]; [reflexivity|]. cbn [flat_map map]. rewrite abs_app, IH. reflexivity. Qed.
Definition low (d : nat) (P : list (R * exponents)) : Prop := Forall (fun t => exists a, snd t = (a, 0, 0)%nat /\ (a <= d)%nat) P.
Lemma low_scale d c P : low d P -> low d (pscale c P).
Proof. unfold low, pscale. rewrite !Forall_forall. intros H t I. apply in_map_iff in I as (u & <- & I). exact (H u I). Qed.
Lemma low_flat d (F : nat -> list (R * exponents)) l : (forall m, In m l -> low d (F m)) -> low d (flat_map F l).
Proof. unfold low. intros H. apply Forall_forall. intros t I. apply in_flat_map in I as (m & Im & I). specialize (H m Im). rewrite Forall_forall in H. exact (H t I). Qed.
Lemma low_mul d e P Q : low d P -> low e Q -> low (d + e) (pmul P Q).
Proof.
  unfold low, pmul. rewrite !Forall_forall. intros H G t I. apply in_flat_map in I as (u & Iu & I). apply in_map_iff in I as (v & <- & Iv).
  destruct (H u Iu) as (a & Ea & La), (G v Iv) as (b & Eb & Lb). cbn [snd]. rewrite Ea, Eb. exists (a + b)%nat. split; [reflexivity|lia].
Qed.
Lemma low_app d P Q : low d P -> low d Q -> low d (P ++ Q).
Proof. intros A B. apply Forall_app. auto. Qed.
Lemma low_dense l d : (List.length l <= S d)%nat -> low d (dense l).
Proof.
  intros H. unfold low, dense. apply Forall_forall. intros [c e] I. apply in_combine_r in I. apply in_map_iff in I as (a & <- & I). apply in_seq in I. exists a. split; [reflexivity|lia].
Qed.
Lemma low_within n d P : (d <= 2 * n - 1)%nat -> low d P -> Forall (fun t => within_degree CLin n (snd t)) P.
Proof. intros L. apply Forall_impl. intros t (a & -> & H). cbn -[Nat.mul]. lia. Qed.

(* the value of the rule for polynomials *)
Lemma rule_value n g P v : gauss_new_sized CLin n = Ok g -> low (2 * n - 1) P -> int1 (-1) 1 (fun z => polynomial P z 0 0) v ->
  Rabs (quadrature g (polynomial P) - v) <= table_eps * abs_coefs P.
Proof.
  intros G L I. destruct (rule_exact CLin n g P G (low_within n _ P (le_n _) L)) as (v' & I' & B).
  rewrite (ref_integral_unique CLin (polynomial P) v v'); auto.
Qed.

Lemma half_squares a b : / 2 * (a * a + b * b) = (a ^ 2 + b ^ 2) / 2.
Proof. field. Qed.
Section Edge.
Variables (A : args) (n : nat) (pr : R) (b b' : list R) (q : pad).
Hypothesis W : pad_wf (a_pad A).
Hypothesis D : kind_ndim (p_kind (a_pad A)) = 1%nat.
Hypothesis S2 : p_space (a_pad A) = 2%nat.
Hypothesis Ax : a_axi A = false.
Hypothesis G : gauss_new_sized CLin n = Ok (a_gauss A).
Hypothesis H : vec_02_nv_bry A b (fun _ un _ => Ok (map (Rmult pr) un)) = Ok (b', q).
Let s := a_pad A.
Let k := p_kind s.
Let nn := kind_nnode k.
Definition xpoly (i : nat) := flat_map (fun m => pscale (node_x s i m) (dense (line_n k m))) (seq 0 nn).
Definition jpoly (i : nat) := flat_map (fun m => pscale (node_x s i m) (dense (line_d k m))) (seq 0 nn).
Lemma xpoly_ok i z y w : pos s [z] i = polynomial (xpoly i) z y w.
Proof. unfold xpoly. rewrite poly_flat. unfold pos. apply sum_n_ext. intros m Hm. rewrite poly_scale. fold k. rewrite (line_n_ok k m z y w D Hm). ring. Qed.
Lemma jpoly_ok i z y w : (i < 2)%nat -> JJ s [z] i 0%nat = polynomial (jpoly i) z y w.
Proof.
  intros Hi. unfold jpoly. rewrite poly_flat. rewrite jj_ent; [|exact W|unfold s; rewrite S2; exact Hi|unfold s; rewrite D; lia]. apply sum_n_ext. intros m Hm. rewrite poly_scale. fold k. now rewrite (line_d_ok k m z y w D Hm).
Qed.
Lemma flat_abs (F : nat -> list R) c i : (forall m, abs_coefs (dense (F m)) <= c) ->
  abs_coefs (flat_map (fun m => pscale (node_x s i m) (dense (F m))) (seq 0 nn)) <= c * extent s i.
Proof.
  intros B. rewrite abs_flat. unfold extent. fold k. fold nn. unfold sum_n. generalize (seq 0 nn). induction l as [|m l IH]; cbn [map sum]; [cbn; lra|].
  change (sum (?x :: ?t)) with (x + sum t). rewrite abs_scale. pose proof (B m). pose proof (Rabs_pos (node_x s i m)). nra.
Qed.
Lemma xpoly_low i : low (nn - 1) (xpoly i).
Proof. apply low_flat. intros m Hm. apply in_seq in Hm. apply low_scale, low_dense. unfold nn, k in *. clear - D Hm. destruct (p_kind s); try discriminate D; destruct m as [|[|[|[|m]]]]; cbn; lia. Qed.
Lemma jpoly_low i : low (nn - 2) (jpoly i).
Proof. apply low_flat. intros m Hm. apply in_seq in Hm. apply low_scale, low_dense. unfold nn, k in *. clear - D Hm. destruct (p_kind s); try discriminate D; destruct m as [|[|[|[|m]]]]; cbn; lia. Qed.

Definition npoly (i : nat) := match i with 0%nat => pscale (-1) (jpoly 1) | _ => jpoly 0 end.
Lemma nodal : exists d (v : nat -> list R),
  (forall p i, (p < npoint (a_gauss A))%nat -> (i < 2)%nat -> d p * nth i (v p) 0 = pr * polynomial (npoly i) (pt (a_gauss A) p 0) (pt (a_gauss A) p 1) (pt (a_gauss A) p 2)) /\
  forall m i, (m < nn)%nat -> (i < 2)%nat -> vec_added A b b' (i + m * 2) = integral A (fun p => dvol A d p * nth i (v p) 0 * N_of A p m).
Proof.
  destruct (C66_vector A b _ b' q W H) as (_ & d & u & v & F & V & _). exists d, v. split.
  - intros p i Hp Hi. destruct (F p Hp) as ((_ & J & HJ & Lu & _ & Mu) & E). injection E as E. rewrite <- E.
    assert (Ks : ksi_at A p = [pt (a_gauss A) p 0]) by (unfold ksi_at; rewrite D; reflexivity). rewrite Ks in HJ.
    assert (X : forall j, (j < 2)%nat -> J j 0%nat = JJ s [pt (a_gauss A) p 0] j 0%nat).
    { intros j Hj. apply (jacobian_unique (a_pad A) [pt (a_gauss A) p 0]); [exact HJ| |rewrite S2; exact Hj|rewrite D; lia]. apply jj_partial; [exact W|]. change (kind_ndim (p_kind (a_pad A)) <= 1)%nat. rewrite D. lia. }
    specialize (Mu i). rewrite S2 in Mu, Lu. specialize (Mu Hi).
    assert (En : nth i (map (Rmult pr) (u p)) 0 = pr * nth i (u p) 0) by (rewrite <- (Rmult_0_r pr) at 1; apply map_nth).
    rewrite En. replace (d p * (pr * nth i (u p) 0)) with (pr * (d p * nth i (u p) 0)) by ring. rewrite Mu. f_equal.
    destruct i as [|[|i]]; [| |lia]; cbn [IntegSpec.normal_of npoly]; rewrite X by lia; rewrite (jpoly_ok _ _ (pt (a_gauss A) p 1) (pt (a_gauss A) p 2)) by lia; [rewrite poly_scale; ring|reflexivity].
  - intros m i Hm Hi. pose proof (IntegProof6.vec_result_added _ _ _ _ _ _ V m i Hm) as X. rewrite S2 in X. exact (X Hi).
Qed.
Lemma dvol_plain d p : dvol A d p = d p * wt (a_gauss A) p * a_alpha A.
Proof. unfold dvol. rewrite Ax. ring. Qed.
Definition component (i : nat) : R := sum_n nn (fun m => vec_added A b b' (i + m * 2)).
Definition torque : R := sum_n nn (fun m => node_x s 0 m * vec_added A b b' (1 + m * 2) - node_x s 1 m * vec_added A b b' (0 + m * 2)).
Lemma component_rule i : (i < 2)%nat -> component i = pr * a_alpha A * quadrature (a_gauss A) (polynomial (npoly i)).
Proof.
  intros Hi. destruct nodal as (d & v & F & V). unfold component. rewrite (sum_n_ext _ _ _ (fun m Hm => V m i Hm Hi)), IntegProof6.integral_sum.
  unfold quadrature. rewrite <- sum_n_scal. apply sum_n_ext. intros p Hp.
  rewrite sum_n_scal. unfold nn, k, s. fold (a_nnode A). rewrite IntegProof6.unity, dvol_plain. specialize (F p i Hp Hi).
  transitivity (wt (a_gauss A) p * a_alpha A * (d p * nth i (v p) 0)); [ring|]. rewrite F. ring.
Qed.
Lemma torque_rule : torque = pr * a_alpha A * quadrature (a_gauss A) (polynomial (pmul (xpoly 0) (jpoly 0) ++ pmul (xpoly 1) (jpoly 1))).
Proof.
  destruct nodal as (d & v & F & V). unfold torque.
  rewrite (sum_n_ext _ _ (fun m => integral A (fun p => dvol A d p * (nth 1 (v p) 0 * (N_of A p m * node_x s 0 m) - nth 0 (v p) 0 * (N_of A p m * node_x s 1 m))))).
  - rewrite IntegProof6.integral_sum. unfold quadrature. rewrite <- sum_n_scal. apply sum_n_ext. intros p Hp. rewrite sum_n_scal.
    assert (E : sum_n nn (fun m => nth 1 (v p) 0 * (N_of A p m * node_x s 0 m) - nth 0 (v p) 0 * (N_of A p m * node_x s 1 m)) = nth 1 (v p) 0 * pos s (ksi_at A p) 0 - nth 0 (v p) 0 * pos s (ksi_at A p) 1).
    { unfold pos. rewrite <- !sum_n_scal. unfold Rminus. rewrite <- (Rmult_1_l (- sum_n _ _)), Ropp_mult_distr_r_reverse, Ropp_mult_distr_l, <- sum_n_scal, <- sum_n_plus. apply sum_n_ext. intros m _. unfold N_of, N_p. fold s. ring. }
    rewrite E. assert (Ks : ksi_at A p = [pt (a_gauss A) p 0]) by (unfold ksi_at; rewrite D; reflexivity). rewrite Ks.
    rewrite !(xpoly_ok _ _ (pt (a_gauss A) p 1) (pt (a_gauss A) p 2)), poly_app, !poly_mul, dvol_plain.
    pose proof (F p 0%nat Hp ltac:(lia)) as F0. pose proof (F p 1%nat Hp ltac:(lia)) as F1. cbn [npoly] in F0, F1. rewrite poly_scale in F0.
    set (X0 := polynomial (xpoly 0) _ _ _). set (X1 := polynomial (xpoly 1) _ _ _). set (J0 := polynomial (jpoly 0) _ _ _) in *. set (J1 := polynomial (jpoly 1) _ _ _) in *.
    transitivity (wt (a_gauss A) p * a_alpha A * ((d p * nth 1 (v p) 0) * X0 - (d p * nth 0 (v p) 0) * X1)); [ring|]. rewrite F0, F1. ring.
  - intros m Hm. rewrite !V by (auto; lia). rewrite <- !IntegProof6.integral_scal. unfold integral. unfold Rminus at 1. rewrite <- (Rmult_1_l (- sum_n _ _)), Ropp_mult_distr_r_reverse, Ropp_mult_distr_l, <- sum_n_scal, <- sum_n_plus. apply sum_n_ext. intros p _. ring.
Qed.

(* the forces of one edge: pressure times the edge turned by 90 degrees *)
Lemma edge_force i : (nn <= 2 * n + 1)%nat -> (i < 2)%nat ->
  Rabs (component i - pr * a_alpha A * match i with 0%nat => - (node_x s 1 1 - node_x s 1 0) | _ => node_x s 0 1 - node_x s 0 0 end)
  <= 26 * table_eps * Rabs (pr * a_alpha A) * extent s (1 - i).
Proof.
  intros L Hi. rewrite component_rule by exact Hi. rewrite <- Rmult_minus_distr_l, Rabs_mult.
  assert (I : int1 (-1) 1 (fun z => polynomial (npoly i) z 0 0) (match i with 0%nat => - (node_x s 1 1 - node_x s 1 0) | _ => node_x s 0 1 - node_x s 0 0 end)).
  { destruct i as [|[|i]]; [| |lia].
    - pose proof (ftc s 1 W D ltac:(unfold s; rewrite S2; lia)) as I. unfold int1 in *. apply is_RInt_opp in I. eapply is_RInt_ext; [|exact I]. intros z _. cbn [npoly]. rewrite poly_scale, <- jpoly_ok by lia. match goal with |- _ = ?b => change (- JJ s [z] 1%nat 0%nat = b) end. ring.
    - pose proof (ftc s 0 W D ltac:(unfold s; rewrite S2; lia)) as I. unfold int1 in *. eapply is_RInt_ext; [|exact I]. intros z _. cbn [npoly]. now rewrite <- jpoly_ok by lia. }
  assert (Lo : low (2 * n - 1) (npoly i)).
  { assert (X : forall j, low (2 * n - 1) (jpoly j)) by (intros j; eapply Forall_impl; [|apply jpoly_low]; intros t (a & E & La); exists a; split; [exact E|lia]).
    destruct i as [|i]; cbn [npoly]; [apply low_scale|]; apply X. }
  pose proof (rule_value n _ _ _ G Lo I) as B.
  assert (Ab : abs_coefs (npoly i) <= 26 * extent s (1 - i)).
  { destruct i as [|[|i]]; [| |lia]; cbn [npoly Nat.sub].
    - rewrite abs_scale. replace (Rabs (-1)) with 1 by (unfold Rabs; destruct Rcase_abs; lra). rewrite Rmult_1_l. apply flat_abs. intros m. apply line_d_abs.
    - apply flat_abs. intros m. apply line_d_abs. }
  assert (T : 0 < table_eps) by (unfold table_eps; lra). pose proof (Rabs_pos (pr * a_alpha A)). 
  apply Rle_trans with (Rabs (pr * a_alpha A) * (table_eps * abs_coefs (npoly i))); [apply Rmult_le_compat_l; auto|].
  replace (26 * table_eps * Rabs (pr * a_alpha A) * extent s (1 - i)) with (Rabs (pr * a_alpha A) * (table_eps * (26 * extent s (1 - i)))) by ring.
  apply Rmult_le_compat_l; auto. apply Rmult_le_compat_l; [lra|exact Ab].
Qed.
Lemma edge_torque : (nn <= n + 1)%nat ->
  Rabs (torque - pr * a_alpha A * ((node_x s 0 1 ^ 2 + node_x s 1 1 ^ 2) / 2 - (node_x s 0 0 ^ 2 + node_x s 1 0 ^ 2) / 2))
  <= 260 * table_eps * Rabs (pr * a_alpha A) * (extent s 0 ^ 2 + extent s 1 ^ 2).
Proof.
  intros L. rewrite torque_rule, <- Rmult_minus_distr_l, Rabs_mult. set (P := pmul (xpoly 0) (jpoly 0) ++ pmul (xpoly 1) (jpoly 1)).
  assert (P1 : (2 <= nn)%nat) by (unfold nn, k, s; clear - D; destruct (p_kind (a_pad A)); try discriminate D; vm_compute; lia).
  assert (I : int1 (-1) 1 (fun z => polynomial P z 0 0) ((node_x s 0 1 ^ 2 + node_x s 1 1 ^ 2) / 2 - (node_x s 0 0 ^ 2 + node_x s 1 0 ^ 2) / 2)).
  { unfold int1. rewrite <- !(line_end _ 1 s _ D eq_refl) by lia. rewrite <- !(line_end _ 0 s _ D eq_refl) by lia. cbn [Nat.eqb].
    assert (X : forall z i, (i < 2)%nat -> is_derive (fun z => pos s [z] i) z (JJ s [z] i 0%nat)).
    { intros z i Hi. apply is_derive_Reals. pose proof (jj_partial s [z] W ltac:(cbn; fold k; unfold k, s; rewrite D; lia) i 0%nat ltac:(unfold s; rewrite S2; exact Hi) ltac:(unfold s; rewrite D; lia)) as J. unfold partial in J. exact J. }
    apply (is_RInt_derive (fun z => (pos s [z] 0 ^ 2 + pos s [z] 1 ^ 2) / 2)); intros z _.
    - replace (polynomial P z 0 0) with ((2 * pos s [z] 0 * JJ s [z] 0%nat 0%nat + 2 * pos s [z] 1 * JJ s [z] 1%nat 0%nat) / 2).
      + pose proof (X z 0%nat ltac:(lia)) as X0. pose proof (X z 1%nat ltac:(lia)) as X1. 
        apply (is_derive_ext (fun z => /2 * ((pos s [z] 0) * (pos s [z] 0) + (pos s [z] 1) * (pos s [z] 1)))); [intros t; exact (half_squares (pos s [t] 0) (pos s [t] 1))|].
        evar_last. { apply is_derive_scal. apply (is_derive_plus (V := R_NormedModule)); apply (is_derive_mult (K := R_AbsRing)); eauto; intros; apply Rmult_comm. } unfold plus, mult; cbn. field.
      + unfold P. rewrite poly_app, !poly_mul, <- !xpoly_ok, <- !jpoly_ok by lia. field.
    - apply (continuous_ext (fun z => sum (map (fun t => fst t * z ^ fst (fst (snd t)) * (0 ^ snd (fst (snd t))) * 0 ^ snd (snd t)) P))).
      { intros y. unfold polynomial. f_equal. apply map_ext. intros [c [[a0 b0] c0]]. cbn. ring. }
      clear. induction P as [|t l IH]; cbn [map]; [apply continuous_const|]. change (sum (?x :: ?t)) with (x + sum t).
      apply (continuous_plus (V := R_NormedModule)); [|exact IH]. apply (@ex_derive_continuous R_AbsRing R_NormedModule). auto_derive. auto. }
  assert (Lo : low (2 * n - 1) P).
  { apply low_app; (eapply Forall_impl; [|apply low_mul; [apply xpoly_low|apply jpoly_low]]); intros t (a & E & La); exists a; split; auto; lia. }
  pose proof (rule_value n _ _ _ G Lo I) as B.
  assert (E0 : forall i, abs_coefs (xpoly i) <= 10 * extent s i) by (intros i; apply flat_abs; intros m; apply line_n_abs).
  assert (E1 : forall i, abs_coefs (jpoly i) <= 26 * extent s i) by (intros i; apply flat_abs; intros m; apply line_d_abs).
  assert (Ab : abs_coefs P <= 260 * (extent s 0 ^ 2 + extent s 1 ^ 2)).
  { unfold P. rewrite abs_app, !abs_mul. assert (forall i, abs_coefs (xpoly i) * abs_coefs (jpoly i) <= 260 * extent s i ^ 2).
    { intros i. apply Rle_trans with ((10 * extent s i) * (26 * extent s i)); [apply Rmult_le_compat; auto using abs_pos|right; ring]. }
    pose proof (H0 0%nat). pose proof (H0 1%nat). lra. }
  assert (T : 0 < table_eps) by (unfold table_eps; lra). pose proof (Rabs_pos (pr * a_alpha A)).
  apply Rle_trans with (Rabs (pr * a_alpha A) * (table_eps * abs_coefs P)); [apply Rmult_le_compat_l; auto|].
  replace (260 * table_eps * Rabs (pr * a_alpha A) * (extent s 0 ^ 2 + extent s 1 ^ 2)) with (Rabs (pr * a_alpha A) * (table_eps * (260 * (extent s 0 ^ 2 + extent s 1 ^ 2)))) by ring.
  apply Rmult_le_compat_l; auto. apply Rmult_le_compat_l; [lra|exact Ab].
Qed.
End Edge.
