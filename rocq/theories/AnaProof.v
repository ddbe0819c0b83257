(* Integrals of expressions over the reference cells; the gradient of an element. *)
From Coquelicot Require Import Coquelicot.
From Coq Require Import Reals QArith Qreals List Arith Bool Lia Lra FunctionalExtensionality.
From Verif Require Import Base Kind Expr ExprProof ShapesModel ShapesSpec ShapesProof PadModel PadSpec PadProof PadProof2 GaussModel GaussSpec GaussProof IntegModel IntegSpec AnaSpec.
Import ListNotations.
Local Open Scope R_scope.

Lemma ref_ext c f g v : (forall x y z, f x y z = g x y z) -> ref_integral c f v -> ref_integral c g v.
Proof.
  intros H. replace g with f; [auto|]. apply functional_extensionality; intros x. apply functional_extensionality; intros y.
  apply functional_extensionality; intros z. apply H.
Qed.
Lemma ref_point_length k x y z : List.length (ref_point k x y z) = kind_ndim k.
Proof. unfold ref_point. rewrite firstn_length. destruct k; reflexivity. Qed.
Lemma cell_ext k f g v : (forall ksi, List.length ksi = kind_ndim k -> f ksi = g ksi) -> cell_integral k f v -> cell_integral k g v.
Proof. intros H. apply ref_ext. intros. apply H, ref_point_length. Qed.
Lemma cell_lin k f g u v c : cell_integral k f u -> cell_integral k g v -> cell_integral k (fun ksi => c * f ksi + g ksi) (c * u + v).
Proof. apply ref_integral_lin. Qed.
Lemma cell_unique k f u v : cell_integral k f u -> cell_integral k f v -> u = v.
Proof. apply ref_integral_unique. Qed.

Definition exps (m : mono) : exponents := (nth 0 m 0, nth 1 m 0, nth 2 m 0)%nat.
Definition mono_ok (c : geoclass) (m : mono) : bool :=
  ((List.length m <=? 3) && ((2 <=? class_ndim c) || (nth 1 m 0 =? 0)) && ((3 <=? class_ndim c) || (nth 2 m 0 =? 0)))%nat.
Definition pint (c : geoclass) (p : poly) : Q :=
  fold_right (fun t acc => Qred (snd t * mono_int c (exps (fst t)) + acc))%Q 0%Q p.
Definition eok (c : geoclass) (e : expr) : bool :=
  match norm e with Some p => forallb (fun t => mono_ok c (fst t)) p | None => false end.
Definition eint (c : geoclass) (e : expr) : Q := match norm e with Some p => pint c p | None => 0%Q end.

Lemma meval_exps ksi m : (List.length m <= 3)%nat -> meval ksi 0 m = monomial (exps m) (ksi 0%nat) (ksi 1%nat) (ksi 2%nat).
Proof.
  intros H. destruct m as [|a [|b [|c [|d m]]]]; cbn in *; try lia; unfold monomial; cbn; ring.
Qed.
Lemma env_ref k x y z i : (i < kind_ndim k)%nat -> env (ref_point k x y z) i = nth i [x; y; z] 0.
Proof.
  intros H. unfold env, ref_point. assert (N : (kind_ndim k <= 3)%nat) by (destruct k; vm_compute; lia).
  destruct (kind_ndim k) as [|[|[|[|n]]]]; destruct i as [|[|[|i]]]; try lia; reflexivity.
Qed.
Lemma ndim_class k : kind_ndim k = class_ndim (kind_class k).
Proof. destruct k; reflexivity. Qed.

Lemma Q2R_pint c p : Q2R (pint c p) = fold_right (fun t acc => Q2R (snd t) * Q2R (mono_int c (exps (fst t))) + acc) 0 p.
Proof.
  induction p as [|t p IH]; cbn [pint fold_right]; [unfold Q2R; cbn; lra|].
  rewrite Q2R_red, Q2R_plus, Q2R_mult. f_equal. exact IH.
Qed.

Lemma expr_integral k e : eok (kind_class k) e = true ->
  cell_integral k (fun ksi => eval (env ksi) e) (Q2R (eint (kind_class k) e)).
Proof.
  unfold eok, eint. destruct (norm e) as [p|] eqn:E; [|discriminate]. intros H.
  apply (cell_ext k (fun ksi => peval (env ksi) p)); [intros; symmetry; now apply norm_sound|].
  rewrite Q2R_pint. clear E e. induction p as [|[m q] p IH]; cbn [forallb fold_right peval fst snd] in *.
  - apply (ref_ext _ (fun _ _ _ => 0)); [reflexivity|apply ref_integral_zero].
  - apply andb_prop in H as [H1 H2]. apply (cell_lin k (fun ksi => meval (env ksi) 0 m) (fun ksi => peval (env ksi) p)); [|now apply IH].
    unfold mono_ok in H1. apply andb_prop in H1 as [H1 Hz]. apply andb_prop in H1 as [Hl Hy].
    apply Nat.leb_le in Hl.
    assert (Ey : (class_ndim (kind_class k) < 2 -> nth 1 m 0 = 0)%nat).
    { intros L. apply orb_prop in Hy as [Hy|Hy]; [apply Nat.leb_le in Hy; lia|now apply Nat.eqb_eq in Hy]. }
    assert (Ez : (class_ndim (kind_class k) < 3 -> nth 2 m 0 = 0)%nat).
    { intros L. apply orb_prop in Hz as [Hz|Hz]; [apply Nat.leb_le in Hz; lia|now apply Nat.eqb_eq in Hz]. }
    apply (ref_ext _ (monomial (exps m))); [|apply mono_integral; auto].
    intros x y z. rewrite meval_exps by auto. unfold monomial, exps.
    assert (D := ndim_class k). assert (1 <= kind_ndim k)%nat by (destruct k; vm_compute; lia).
    f_equal; [f_equal|].
    + rewrite env_ref by lia. reflexivity.
    + destruct (le_lt_dec 2 (kind_ndim k)); [rewrite env_ref by lia; reflexivity|rewrite Ey by lia; reflexivity].
    + destruct (le_lt_dec 3 (kind_ndim k)); [rewrite env_ref by lia; reflexivity|rewrite Ez by lia; reflexivity].
Qed.

(* linear combinations of expressions *)
Definition comb (l : list (R * expr)) (ksi : list R) : R := sum (map (fun t => fst t * eval (env ksi) (snd t)) l).
Definition comb_int (c : geoclass) (l : list (R * expr)) : R := sum (map (fun t => fst t * Q2R (eint c (snd t))) l).
Lemma comb_integral k l : forallb (fun t => eok (kind_class k) (snd t)) l = true -> cell_integral k (comb l) (comb_int (kind_class k) l).
Proof.
  unfold comb, comb_int. induction l as [|[c e] l IH]; cbn [map sum forallb fst snd].
  - intros _. apply (ref_ext _ (fun _ _ _ => 0)); [reflexivity|apply ref_integral_zero].
  - intros H. apply andb_prop in H as [H1 H2]. apply (cell_lin k (fun ksi => eval (env ksi) e)); [now apply expr_integral|now apply IH].
Qed.

Lemma shape_eval k m ksi : shape k m ksi = eval (env ksi) (nth m (kind_interp k) (C 0)).
Proof. apply nth_map_eval. Qed.
Lemma deriv_eval k m j ksi : ent (calc_deriv k ksi) m j = eval (env ksi) (nth j (nth m (kind_deriv k) []) (C 0)).
Proof. apply nth_calc_deriv. Qed.

(** the gradient *)
Lemma solid_facts p d B ksi : pad_wf p -> solid_element p d B -> List.length ksi = kind_ndim (p_kind p) ->
  let J := fun i j => sum_n (kind_nnode (p_kind p)) (fun m => node_x p i m * ent (calc_deriv (p_kind p) ksi) m j) in
  kind_ndim (p_kind p) = p_space p /\ d ksi = det (p_space p) J /\ d ksi <> 0 /\
  forall m j, (m < kind_nnode (p_kind p))%nat -> (j < p_space p)%nat ->
    sum_n (p_space p) (fun i => ent (B ksi) m i * J i j) = ent (calc_deriv (p_kind p) ksi) m j.
Proof.
  intros W S L J. destruct (S ksi L) as (E & J' & HJ & Hd & Hn & HB).
  assert (Q : forall i j, (i < p_space p)%nat -> (j < p_space p)%nat -> J' i j = J i j).
  { intros i j Hi Hj. unfold J. rewrite <- jj_ent by (auto; lia).
    apply (jacobian_unique p ksi); auto; [apply jj_partial; auto; lia|lia]. }
  split; [exact E|]. split; [rewrite Hd; apply det_ext; exact Q|]. split; [exact Hn|].
  intros m j Hm Hj. rewrite (sum_n_ext _ _ (fun i => ent (B ksi) m i * J' i j)) by (intros; rewrite Q; auto).
  apply (partial_unique (fun z => nth m (calc_interp (p_kind p) z) 0) ksi j); [now apply HB|].
  apply (deriv_correct (p_kind p) ksi m j); auto. lia.
Qed.

Lemma cramer2 a b c d u v x y : a * d - c * b <> 0 -> x * a + y * c = u -> x * b + y * d = v ->
  x = (u * d - v * c) / (a * d - c * b) /\ y = (v * a - u * b) / (a * d - c * b).
Proof. intros H <- <-. split; field; exact H. Qed.
