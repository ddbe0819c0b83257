(* Sizes, positions, weights and sharpness of the rules; products of interpolation functions. *)
From Coquelicot Require Import Coquelicot.
From Coq Require Import String Reals QArith Qreals Qabs List Arith Bool Lia Lra ZArith Psatz.
From Verif Require Import Base BaseFacts Kind Expr ExprProof ShapesModel ShapesSpec GaussData GaussModel GaussSpec GaussProof GaussProof2 PadProof.
Import ListNotations.
Local Open Scope list_scope.
Local Open Scope R_scope.

Lemma default_sized k : gauss_new_sized (kind_class k) (default_size k) = Ok (gauss_new k).
Proof. destruct k; reflexivity. Qed.

(** ** checks on the rows *)
Definition row_inside (c : geoclass) (r : row) : bool :=
  let '(x, y, z, _) := r in
  let u v := ((- f64_scale <=? v) && (v <=? f64_scale))%Z in
  match c with
  | CLin => u x && (y =? 0)%Z && (z =? 0)%Z
  | CQua => u x && u y && (z =? 0)%Z
  | CHex => u x && u y && u z
  | CTri => (0 <=? x)%Z && (0 <=? y)%Z && (x + y <=? f64_scale)%Z && (z =? 0)%Z
  | CTet => (0 <=? x)%Z && (0 <=? y)%Z && (0 <=? z)%Z && (x + y + z <=? f64_scale)%Z
  end.
Definition rule_rows (c : geoclass) (n : nat) : bool :=
  match gauss_new_sized c n with
  | Ok g => (npoint g =? n)%nat && forallb (row_inside c) (g_data g) &&
            forallb (fun r => negative_rule c n || (0 <? snd r)%Z) (g_data g) &&
            (negb (negative_rule c n) || existsb (fun r => (snd r <? 0)%Z) (g_data g))
  | _ => false
  end.
Lemma rows_checked : forallb (fun c => forallb (rule_rows c) (rule_sizes c)) [CLin; CTri; CQua; CTet; CHex] = true.
Proof. vm_compute. reflexivity. Qed.

Lemma f64_lt a b : (a < b)%Z -> f64 a < f64 b.
Proof. intros H. unfold f64, Rdiv. apply Rmult_lt_compat_r; [apply Rinv_0_lt_compat, f64_scale_lt|now apply IZR_lt]. Qed.
Lemma f64_le a b : (a <= b)%Z -> f64 a <= f64 b.
Proof. intros H. unfold f64, Rdiv. apply Rmult_le_compat_r; [left; apply Rinv_0_lt_compat, f64_scale_lt|now apply IZR_le]. Qed.
Lemma f64_add a b : f64 (a + b) = f64 a + f64 b.
Proof. unfold f64. rewrite plus_IZR. unfold Rdiv. ring. Qed.
Lemma f64_0 : f64 0 = 0. Proof. unfold f64, Rdiv. apply Rmult_0_l. Qed.
Lemma f64_1 : f64 f64_scale = 1. Proof. unfold f64. field. pose proof f64_scale_lt. lra. Qed.
Lemma f64_m1 : f64 (- f64_scale) = -1.
Proof. unfold f64. rewrite opp_IZR. field. pose proof f64_scale_lt. lra. Qed.
Opaque f64_scale.

Lemma rule_rows_ok c n g : gauss_new_sized c n = Ok g -> rule_rows c n = true.
Proof.
  intros G. destruct (sized_in c n g G) as [I _]. pose proof rows_checked as R. rewrite forallb_forall in R.
  assert (R1 : forallb (rule_rows c) (rule_sizes c) = true) by (apply R; destruct c; simpl; tauto).
  rewrite forallb_forall in R1. auto.
Qed.

Lemma rule_points c n g p : gauss_new_sized c n = Ok g ->
  npoint g = n /\
  ((p < n)%nat -> exists x y z w, g_coords g p = Ok [x; y; z; w] /\ g_weight g p = Ok w /\ in_ref_cell c x y z /\
     (negative_rule c n = false -> 0 < w)) /\
  ((n <= p)%nat -> g_coords g p = Panic /\ g_weight g p = Panic).
Proof.
  intros G. pose proof (rule_rows_ok c n g G) as R. unfold rule_rows in R. rewrite G in R.
  rewrite !andb_true_iff, !forallb_forall, Nat.eqb_eq in R. destruct R as [[[N I] W] _].
  split; auto. unfold npoint in N. split.
  - intros Hp. unfold g_coords, g_weight. rewrite (get_ok (g_data g) p (0, 0, 0, 0)%Z) by lia. cbn [bind].
    assert (J : In (nth p (g_data g) (0, 0, 0, 0)%Z) (g_data g)) by (apply nth_In; lia).
    specialize (I _ J). specialize (W _ J). destruct (nth p (g_data g) _) as [[[x y] z] w].
    exists (f64 x), (f64 y), (f64 z), (f64 w). split; auto. split; auto. split.
    + unfold row_inside in I. pose proof f64_0 as E0. pose proof f64_1 as E1. pose proof f64_m1 as Em.
      destruct c; rewrite !andb_true_iff, ?Z.leb_le, ?Z.eqb_eq in I; unfold in_ref_cell;
        intuition subst; try apply f64_0;
        try (rewrite <- ?E0; rewrite <- ?Em; rewrite <- ?E1; apply f64_le; assumption);
        rewrite <- !f64_add, <- E1; apply f64_le; assumption.
    + intros Hn. cbn [snd] in W. rewrite Hn in W. cbn [orb] in W. apply Z.ltb_lt in W. rewrite <- f64_0. now apply f64_lt.
  - intros Hp. unfold g_coords, g_weight. assert (E : get (g_data g) p = Panic).
    { unfold get. rewrite (proj2 (nth_error_None (g_data g) p)) by lia. reflexivity. }
    rewrite E. auto.
Qed.

Lemma negative_weight c n g : gauss_new_sized c n = Ok g -> negative_rule c n = true -> exists p w, g_weight g p = Ok w /\ w < 0.
Proof.
  intros G Hn. pose proof (rule_rows_ok c n g G) as R. unfold rule_rows in R. rewrite G, Hn in R.
  rewrite !andb_true_iff in R. destruct R as [_ R]. cbn [negb orb] in R. apply existsb_exists in R as ([[[x y] z] w] & I & L).
  apply In_nth_error in I as (p & E). exists p, (f64 w). split.
  - unfold g_weight, get. now rewrite E.
  - cbn [snd] in L. apply Z.ltb_lt in L. rewrite <- f64_0. now apply f64_lt.
Qed.
Transparent f64_scale.

(** ** sharpness *)
Definition sharp_exponents (c : geoclass) (n : nat) : exponents :=
  match c, n with CTet, 8%nat => (0, 2, 2)%nat | _, _ => (S (rule_degree c n), 0, 0)%nat end.
Definition sharp_check (c : geoclass) (n : nat) : bool :=
  match gauss_new_sized c n with
  | Ok g => let e := sharp_exponents c n in
            Qle_bool (1 # 10000000) (Qabs (table_sum (g_data g) e - mono_int c e))
  | _ => false
  end.
Lemma sharp_checked : forallb (fun c => forallb (sharp_check c) (rule_sizes c)) [CLin; CTri; CQua; CTet; CHex] = true.
Proof. vm_compute. reflexivity. Qed.
Lemma sharp_fits c n : fits c (sharp_exponents c n).
Proof.
  unfold sharp_exponents. destruct c; try (split; auto; fail).
  do 8 (destruct n as [|n]; [split; auto|]). destruct n as [|n]; [|split; auto]. unfold fits. simpl. split; intros; lia.
Qed.
Lemma rule_sharp c n g : gauss_new_sized c n = Ok g ->
  exists e v, (let '(x, y, z) := e in x + y + z = S (rule_degree c n))%nat /\
    ref_integral c (monomial e) v /\ 1 / 10 ^ 7 <= Rabs (quadrature g (monomial e) - v).
Proof.
  intros G. destruct (sized_in c n g G) as [I _]. pose proof sharp_checked as R. rewrite forallb_forall in R.
  assert (R1 : forallb (sharp_check c) (rule_sizes c) = true) by (apply R; destruct c; simpl; tauto).
  rewrite forallb_forall in R1. specialize (R1 n I). unfold sharp_check in R1. rewrite G in R1. cbv zeta in R1.
  apply Qle_bool_iff, Qle_Rle in R1. rewrite Q2R_Qabs, Q2R_minus in R1.
  exists (sharp_exponents c n), (Q2R (mono_int c (sharp_exponents c n))). split; [|split].
  - destruct c; simpl in I; repeat (destruct I as [<-|I]; [reflexivity|]); contradiction.
  - pose proof (sharp_fits c n) as F. destruct (sharp_exponents c n) as [[x y] z]. destruct F. now apply mono_integral.
  - rewrite quadrature_mono. eapply Rle_trans; [|exact R1]. unfold Q2R. cbn [Qnum Qden]. lra.
Qed.

(** ** products of interpolation functions under the default rule *)
Definition toe (m : mono) : exponents := (nth 0 m 0%nat, nth 1 m 0%nat, nth 2 m 0%nat).
Definition to_poly (p : poly) : list (R * exponents) := map (fun t => (Q2R (snd t), toe (fst t))) p.
Lemma to_poly_eval p x y z : forallb (fun t => (List.length (fst t) <=? 3)%nat) p = true ->
  polynomial (to_poly p) x y z = peval (env [x; y; z]) p.
Proof.
  intros F. unfold polynomial, to_poly. rewrite map_map. induction p as [|[m q] p IH]; cbn [map sum peval fold_right fst snd]; auto.
  cbn [forallb] in F. apply andb_true_iff in F as [L F]. specialize (IH F). cbn [fst snd] in IH. unfold peval in *. cbn [fst snd]. rewrite IH. f_equal. f_equal.
  apply Nat.leb_le in L. cbn [fst] in L. unfold env, toe, monomial.
  destruct m as [|a [|b [|c [|? ?]]]]; simpl in L; try lia; cbn [meval nth]; simpl; ring.
Qed.
Definition npolys (k : geokind) : list poly := map (fun e => match norm e with Some p => p | None => [] end) (kind_interp k).
Definition qsum (p : poly) : Q := fold_right (fun t a => Qred (Qabs (snd t) + a)) 0%Q p.
(* every term has at most half of the degree of the rule *)
Definition half_degreeb (c : geoclass) (n : nat) (e : exponents) : bool :=
  let '(x, y, z) := e in
  let d := rule_degree c n in
  ((if product_rule c n then (2 * x <=? d) && (2 * y <=? d) && (2 * z <=? d) else 2 * (x + y + z) <=? d) &&
   ((2 <=? class_ndim c) || (y =? 0)) && ((3 <=? class_ndim c) || (z =? 0)))%nat.
Definition product_check (k : geokind) : bool :=
  forallb (fun e => match norm e with Some _ => true | None => false end) (kind_interp k) &&
  forallb (fun p =>
      forallb (fun t => (List.length (fst t) <=? 3)%nat) p &&
      forallb (fun t => half_degreeb (kind_class k) (default_size k) (toe (fst t))) p &&
      Qle_bool (qsum p) 1100) (npolys k).
Definition exact_kinds : list geokind :=
  [Lin2; Lin3; Lin4; Lin5; Tri3; Tri6; Tri10; Tri15; Qua4; Qua8; Qua9; Qua12; Qua16; Tet4; Tet10; Tet20; Hex8; Hex20; Hex32].
Lemma products_checked : forallb product_check exact_kinds = true.
Proof. vm_compute. reflexivity. Qed.

Lemma within_degreeb_sound c n e : within_degreeb c n e = true -> within_degree c n e.
Proof.
  destruct e as [[x y] z]. unfold within_degreeb, within_degree. rewrite !andb_true_iff, !orb_true_iff, !Nat.leb_le, !Nat.eqb_eq.
  intros [[H Hy] Hz]. split; [|split; lia]. destruct (product_rule c n); [rewrite !andb_true_iff in H|]; rewrite ?Nat.leb_le in H; lia.
Qed.

Lemma Q2R_qsum p : Q2R (qsum p) = abs_coefs (to_poly p).
Proof.
  unfold abs_coefs, to_poly. rewrite map_map. induction p as [|[m q] p IH]; cbn [qsum fold_right map sum fst snd].
  - unfold Q2R. cbn [Qnum Qden]. lra.
  - rewrite Q2R_red, Q2R_plus, Q2R_Qabs. unfold qsum in IH. rewrite IH. reflexivity.
Qed.


Lemma npolys_eval k m x y z : forallb (fun e => match norm e with Some _ => true | None => false end) (kind_interp k) = true ->
  (m < kind_nnode k)%nat -> N_at k m x y z = peval (env [x; y; z]) (nth m (npolys k) []).
Proof.
  intros F Hm. assert (L : List.length (kind_interp k) = kind_nnode k) by (destruct k; reflexivity).
  unfold N_at, calc_interp, npolys. rewrite (nth_map_in (eval (env [x; y; z])) _ _ (C 0)) by (now rewrite L).
  rewrite (nth_map_in _ (kind_interp k) m (C 0)) by (now rewrite L).
  rewrite forallb_forall in F. assert (J : In (nth m (kind_interp k) (C 0)) (kind_interp k)) by (apply nth_In; now rewrite L). specialize (F _ J).
  destruct (norm (nth m (kind_interp k) (C 0))) as [p|] eqn:E; [|discriminate]. now apply norm_sound.
Qed.

(* product of polynomials given as lists of terms *)
Definition eadd (e f : exponents) : exponents :=
  let '(a, b, c) := e in let '(a', b', c') := f in (a + a', b + b', c + c')%nat.
Definition tmul (P Q : list (R * exponents)) : list (R * exponents) :=
  flat_map (fun s => map (fun t => (fst s * fst t, eadd (snd s) (snd t))) Q) P.
Lemma monomial_eadd e f x y z : monomial (eadd e f) x y z = monomial e x y z * monomial f x y z.
Proof. destruct e as [[a b] c], f as [[a' b'] c']. unfold monomial, eadd. rewrite !pow_add. ring. Qed.
Lemma tmul_eval P Q x y z : polynomial (tmul P Q) x y z = polynomial P x y z * polynomial Q x y z.
Proof.
  unfold polynomial, tmul. rewrite sum_flat_map.
  rewrite (map_ext _ (fun s => fst s * monomial (snd s) x y z * sum (map (fun t => fst t * monomial (snd t) x y z) Q))); [apply sum_scal_f|].
  intros [k e]. rewrite map_map. cbn [fst snd].
  rewrite (map_ext _ (fun t => fst t * monomial (snd t) x y z * (k * monomial e x y z))); [rewrite sum_scal_f; ring|].
  intros [h f]. cbn [fst snd]. rewrite monomial_eadd. ring.
Qed.
Lemma tmul_coefs P Q : abs_coefs (tmul P Q) = abs_coefs P * abs_coefs Q.
Proof.
  unfold abs_coefs, tmul. rewrite sum_flat_map.
  rewrite (map_ext _ (fun s => Rabs (fst s) * sum (map (fun t => Rabs (fst t)) Q))); [apply sum_scal_f|].
  intros [k e]. rewrite map_map. cbn [fst snd].
  rewrite (map_ext _ (fun t => Rabs (fst t) * Rabs k)); [rewrite sum_scal_f; ring|].
  intros [h f]. cbn [fst snd]. rewrite Rabs_mult. ring.
Qed.
Lemma half_degree c n e f : half_degreeb c n e = true -> half_degreeb c n f = true -> within_degree c n (eadd e f).
Proof.
  destruct e as [[a b] d], f as [[a' b'] d']. unfold half_degreeb, within_degree, eadd.
  rewrite !andb_true_iff, !orb_true_iff, !Nat.leb_le, !Nat.eqb_eq.
  intros [[H Hy] Hz] [[H' Hy'] Hz']. split; [|split; lia].
  destruct (product_rule c n); [rewrite !andb_true_iff in H, H'|]; rewrite ?Nat.leb_le in H, H'; lia.
Qed.
Lemma abs_coefs_pos P : 0 <= abs_coefs P.
Proof. unfold abs_coefs. induction P as [|t P IH]; cbn [map sum]; [lra|]. pose proof (Rabs_pos (fst t)). lra. Qed.

Lemma product_poly k : product_check k = true -> forall m n, (m < kind_nnode k)%nat -> (n < kind_nnode k)%nat ->
  exists P, (forall x y z, polynomial P x y z = N_at k m x y z * N_at k n x y z) /\
    Forall (fun t => within_degree (kind_class k) (default_size k) (snd t)) P /\ abs_coefs P <= 1210000.
Proof.
  intros C m n Hm Hn. unfold product_check in C. apply andb_true_iff in C as [F C]. rewrite forallb_forall in C.
  assert (LP : List.length (npolys k) = kind_nnode k) by (unfold npolys; rewrite map_length; destruct k; reflexivity).
  assert (A : forall i, (i < kind_nnode k)%nat -> exists P, (forall x y z, polynomial P x y z = N_at k i x y z) /\
     (forall t, In t P -> half_degreeb (kind_class k) (default_size k) (snd t) = true) /\ abs_coefs P <= 1100).
  { intros i Hi. assert (J : In (nth i (npolys k) []) (npolys k)) by (apply nth_In; lia). specialize (C _ J).
    set (p := nth i (npolys k) []) in *. rewrite !andb_true_iff in C. destruct C as [[C1 C2] C3].
    exists (to_poly p). split; [|split].
    - intros x y z. rewrite to_poly_eval by auto. unfold p. now rewrite <- npolys_eval.
    - intros t It. unfold to_poly in It. apply in_map_iff in It as (u & <- & Iu). cbn [snd]. rewrite forallb_forall in C2. now apply C2.
    - apply Qle_bool_iff, Qle_Rle in C3. rewrite Q2R_qsum in C3. eapply Rle_trans; [exact C3|]. unfold Q2R. cbn [Qnum Qden]. lra. }
  destruct (A m Hm) as (P & EP & DP & BP). destruct (A n Hn) as (Q & EQ & DQ & BQ). exists (tmul P Q). split; [|split].
  - intros x y z. now rewrite tmul_eval, EP, EQ.
  - apply Forall_forall. intros t It. unfold tmul in It. apply in_flat_map in It as (s & Is & It).
    apply in_map_iff in It as (u & <- & Iu). cbn [snd]. apply half_degree; auto.
  - rewrite tmul_coefs. replace 1210000 with (1100 * 1100) by lra. apply Rmult_le_compat; auto using abs_coefs_pos.
Qed.

Lemma ref_integral_ext c f g v : (forall x y z, f x y z = g x y z) -> ref_integral c f v -> ref_integral c g v.
Proof.
  intros E. unfold ref_integral, int3, int2, int1. destruct c.
  - apply is_RInt_ext. intros; apply E.
  - intros (h & H1 & H2). exists h. split; auto. intros x Hx. eapply is_RInt_ext; [|apply H1; auto]. intros; apply E.
  - intros (h & H1 & H2). exists h. split; auto. intros x Hx. eapply is_RInt_ext; [|apply H1; auto]. intros; apply E.
  - intros (h & H1 & H2). exists h. split; auto. intros x Hx. destruct (H1 x Hx) as (h' & H3 & H4). exists h'. split; auto.
    intros y Hy. eapply is_RInt_ext; [|apply H3; auto]. intros; apply E.
  - intros (h & H1 & H2). exists h. split; auto. intros x Hx. destruct (H1 x Hx) as (h' & H3 & H4). exists h'. split; auto.
    intros y Hy. eapply is_RInt_ext; [|apply H3; auto]. intros; apply E.
Qed.
Lemma quadrature_ext g f h : (forall x y z, f x y z = h x y z) -> quadrature g f = quadrature g h.
Proof. intros E. unfold quadrature. unfold sum_n. f_equal. apply map_ext. intros p. now rewrite E. Qed.

Lemma product_exact k m n : k <> Qua17 -> (m < kind_nnode k)%nat -> (n < kind_nnode k)%nat ->
  exists v, ref_integral (kind_class k) (fun x y z => N_at k m x y z * N_at k n x y z) v /\
    Rabs (quadrature (gauss_new k) (fun x y z => N_at k m x y z * N_at k n x y z) - v) <= 3 / 10 ^ 8.
Proof.
  intros K Hm Hn. assert (C : product_check k = true).
  { pose proof products_checked as R. rewrite forallb_forall in R. apply R. destruct k; simpl; tauto. }
  destruct (product_poly k C m n Hm Hn) as (P & E & W & B).
  destruct (rule_exact _ _ _ P (default_sized k) W) as (v & V1 & V2). exists v. split.
  - eapply ref_integral_ext; [|exact V1]. intros; apply E.
  - rewrite <- (quadrature_ext _ _ _ E). eapply Rle_trans; [exact V2|].
    eapply Rle_trans; [apply Rmult_le_compat_l; [|exact B]; unfold table_eps; lra|]. unfold table_eps. lra.
Qed.

Lemma polynomial_parts c g P : Forall (fun t => fits c (snd t)) P ->
  ref_integral c (polynomial P) (sum (map (fun t => fst t * Q2R (mono_int c (snd t))) P)) /\
  quadrature g (polynomial P) = sum (map (fun t => fst t * Q2R (table_sum (g_data g) (snd t))) P).
Proof. intros F. split; [now apply poly_integral|apply quadrature_poly]. Qed.

Definition q17 : poly := Eval vm_compute in pclean (pmul (nth 4 (npolys Qua17) []) (nth 4 (npolys Qua17) [])).
Definition q17_err : Q := Eval vm_compute in
  fold_right (fun t a => Qred (snd t * (table_sum (g_data (gauss_new Qua17)) (toe (fst t)) - mono_int CQua (toe (fst t))) + a)) 0%Q q17.
Lemma q17_err_eq : sum (map (fun t => fst t * Q2R (table_sum (g_data (gauss_new Qua17)) (snd t))) (to_poly q17)) -
  sum (map (fun t => fst t * Q2R (mono_int CQua (snd t))) (to_poly q17)) = Q2R q17_err.
Proof.
  assert (G : forall p, sum (map (fun t => fst t * Q2R (table_sum (g_data (gauss_new Qua17)) (snd t))) (to_poly p)) -
    sum (map (fun t => fst t * Q2R (mono_int CQua (snd t))) (to_poly p)) =
    Q2R (fold_right (fun t a => Qred (snd t * (table_sum (g_data (gauss_new Qua17)) (toe (fst t)) - mono_int CQua (toe (fst t))) + a)) 0%Q p)).
  { induction p as [|[m q] p IH]; cbn [to_poly map sum fold_right fst snd].
    - unfold Q2R. cbn [Qnum Qden]. lra.
    - rewrite Q2R_red, Q2R_plus, Q2R_mult, Q2R_minus, <- IH. unfold to_poly, sum. ring. }
  rewrite G. apply (f_equal Q2R). vm_compute. reflexivity.
Qed.
Lemma q17_wrong : exists v, ref_integral CQua (fun x y z => N_at Qua17 4 x y z * N_at Qua17 4 x y z) v /\
  1 / 10 <= Rabs (quadrature (gauss_new Qua17) (fun x y z => N_at Qua17 4 x y z * N_at Qua17 4 x y z) - v).
Proof.
  assert (F : Forall (fun t => fits CQua (snd t)) (to_poly q17)).
  { unfold to_poly, q17. repeat (apply Forall_cons; [split; simpl; intros; lia|]). apply Forall_nil. }
  destruct (polynomial_parts CQua (gauss_new Qua17) (to_poly q17) F) as [V1 V2].
  assert (E : forall x y z, polynomial (to_poly q17) x y z = N_at Qua17 4 x y z * N_at Qua17 4 x y z).
  { intros x y z. rewrite to_poly_eval by reflexivity.
    change q17 with (pclean (pmul (nth 4 (npolys Qua17) []) (nth 4 (npolys Qua17) []))).
    rewrite peval_pclean, peval_pmul, <- (npolys_eval Qua17 4) by (vm_compute; auto; lia). reflexivity. }
  eexists. split; [eapply ref_integral_ext; [exact E|exact V1]|].
  rewrite <- (quadrature_ext _ _ _ E), V2, q17_err_eq, <- Q2R_Qabs.
  apply Rle_trans with (Q2R (1 # 10)); [unfold Q2R; cbn [Qnum Qden]; lra|]. apply Qle_Rle, Qle_bool_iff. vm_compute. reflexivity.
Qed.

(* measure *)
Lemma measure_integral c : ref_integral c (fun _ _ _ => 1) (ref_measure c).
Proof.
  pose proof (mono_integral c 0 0 0 (fun _ => eq_refl) (fun _ => eq_refl)) as H.
  replace (ref_measure c) with (Q2R (mono_int c (0, 0, 0)%nat)).
  - eapply ref_integral_ext; [|exact H]. intros. unfold monomial. simpl. ring.
  - destruct c; vm_compute mono_int; unfold Q2R, ref_measure; cbn [Qnum Qden]; lra.
Qed.
Lemma weights_measure c n g : gauss_new_sized c n = Ok g -> Rabs (sum_n n (wt g) - ref_measure c) <= table_eps.
Proof.
  intros G. assert (W : within_degree c n (0, 0, 0)%nat) by (split; [destruct (product_rule c n); lia|auto]).
  pose proof (rule_mono c n g (0, 0, 0)%nat G W) as H.
  replace (ref_measure c) with (Q2R (mono_int c (0, 0, 0)%nat)).
  - replace (sum_n n (wt g)) with (quadrature g (monomial (0, 0, 0)%nat)); auto.
    destruct (rule_points c n g 0 G) as [<- _]. unfold quadrature, sum_n. f_equal. apply map_ext. intros p. unfold monomial. simpl. ring.
  - destruct c; vm_compute mono_int; unfold Q2R, ref_measure; cbn [Qnum Qden]; lra.
Qed.
