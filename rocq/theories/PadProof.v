(* Lemmas about sums, matrices and derivatives of the isoparametric map. *)
From Coq Require Import String Reals QArith Qreals List Lia Lra Bool Arith.
From Verif Require Import Base BaseFacts Expr ExprProof ShapesData Kind ShapesModel ShapesSpec ShapesProof
  GeomModel GeomProof PadModel PadSpec.
Import ListNotations.
Local Open Scope R_scope.

(** ** Sums *)
Lemma sum_n_ext n f g : (forall i, (i < n)%nat -> f i = g i) -> sum_n n f = sum_n n g.
Proof. intros H. unfold sum_n. f_equal. apply map_ext_in. intros i Hi. apply in_seq in Hi. apply H. lia. Qed.

Lemma sum_app a b : sum (a ++ b) = sum a + sum b.
Proof. induction a; simpl; [ring|]. rewrite IHa. ring. Qed.

Lemma sum_n_S n f : sum_n (S n) f = sum_n n f + f n.
Proof. unfold sum_n. rewrite seq_S, map_app, sum_app. simpl. ring. Qed.

Lemma sum_n_head n f : sum_n (S n) f = f 0%nat + sum_n n (fun i => f (S i)).
Proof. unfold sum_n. simpl. f_equal. now rewrite <- seq_shift, map_map. Qed.

Lemma sum_n_0 f : sum_n 0 f = 0. Proof. reflexivity. Qed.

Lemma sum_n_plus n f g : sum_n n (fun i => f i + g i) = sum_n n f + sum_n n g.
Proof. induction n; [rewrite !sum_n_0; ring|]. rewrite !sum_n_S, IHn. ring. Qed.

Lemma sum_n_scal n c f : sum_n n (fun i => c * f i) = c * sum_n n f.
Proof. induction n; [rewrite !sum_n_0; ring|]. rewrite !sum_n_S, IHn. ring. Qed.

Lemma sum_n_scal_r n c f : sum_n n (fun i => f i * c) = sum_n n f * c.
Proof. induction n; [rewrite !sum_n_0; ring|]. rewrite !sum_n_S, IHn. ring. Qed.

Lemma sum_n_zero n f : (forall i, (i < n)%nat -> f i = 0) -> sum_n n f = 0.
Proof. induction n; intros H; [reflexivity|]. rewrite sum_n_S, IHn by auto. rewrite H by lia. ring. Qed.

Lemma sum_n_swap n m (f : nat -> nat -> R) :
  sum_n n (fun i => sum_n m (fun j => f i j)) = sum_n m (fun j => sum_n n (fun i => f i j)).
Proof.
  induction n.
  - rewrite sum_n_0. symmetry. apply sum_n_zero. intros; reflexivity.
  - rewrite sum_n_S, IHn, <- sum_n_plus. apply sum_n_ext. intros j _. now rewrite sum_n_S.
Qed.

Lemma sum_n_delta n i f : (i < n)%nat -> sum_n n (fun j => delta i j * f j) = f i.
Proof.
  induction n; intros H; [lia|]. rewrite sum_n_S. unfold delta at 2.
  destruct (Nat.eqb_spec i n) as [->|N].
  - rewrite sum_n_zero; [ring|]. intros j Hj. unfold delta. destruct (Nat.eqb_spec n j); [lia|ring].
  - rewrite IHn by lia. ring.
Qed.

Lemma sum_n_delta_r n i f : (i < n)%nat -> sum_n n (fun j => f j * delta j i) = f i.
Proof.
  intros H. rewrite <- (sum_n_delta n i f H). apply sum_n_ext. intros j _. unfold delta.
  rewrite (Nat.eqb_sym j i). ring.
Qed.

Lemma sum_n_nonneg n f : (forall i, (i < n)%nat -> 0 <= f i) -> 0 <= sum_n n f.
Proof. induction n; intros H; [rewrite sum_n_0; lra|]. rewrite sum_n_S. specialize (IHn ltac:(auto)). specialize (H n ltac:(lia)). lra. Qed.

Lemma dot_sum_n a : forall b n, List.length a = n -> List.length b = n ->
  dot a b = sum_n n (fun m => nth m a 0 * nth m b 0).
Proof.
  induction a as [|x a IH]; intros b n L1 L2; simpl in *.
  - subst n. reflexivity.
  - destruct b as [|y b]; simpl in *; [lia|]. destruct n as [|n]; [lia|].
    rewrite sum_n_head. simpl. f_equal. apply IH; lia.
Qed.

Lemma dot_sum_n_min a : forall b n, List.length a = n -> (n <= List.length b)%nat ->
  dot a b = sum_n n (fun m => nth m a 0 * nth m b 0).
Proof.
  induction a as [|x a IH]; intros b n L1 L2; simpl in *.
  - subst n. reflexivity.
  - destruct b as [|y b]; simpl in *; [lia|]. destruct n as [|n]; [lia|].
    rewrite sum_n_head. simpl. f_equal. apply IH; lia.
Qed.

Lemma dot_comm a : forall b, dot a b = dot b a.
Proof. induction a as [|x a IH]; intros [|y b]; simpl; auto. rewrite IH. ring. Qed.

Lemma affine_sum_n a : forall x n, List.length a = n -> List.length x = n ->
  affine a x = sum_n n (fun j => nth j a 0 * nth j x 0).
Proof.
  induction a as [|c a IH]; intros x n L1 L2; simpl in *.
  - subst n. reflexivity.
  - destruct x as [|y x]; simpl in *; [lia|]. destruct n as [|n]; [lia|].
    rewrite sum_n_head. simpl. f_equal. apply IH; lia.
Qed.

(** ** Matrices *)
Lemma nth_map_in {A B} (f : A -> B) l i d d' : (i < List.length l)%nat -> nth i (map f l) d' = f (nth i l d).
Proof. intros H. rewrite (nth_indep _ d' (f d)) by now rewrite map_length. apply map_nth. Qed.

Lemma nth_map_seq {B} (f : nat -> B) n i d : (i < n)%nat -> nth i (map f (seq 0 n)) d = f i.
Proof. intros H. rewrite (nth_map_in f _ i 0%nat) by now rewrite seq_length. now rewrite seq_nth. Qed.

Lemma ent_mat_mul n a b i j : (i < List.length a)%nat -> (j < n)%nat ->
  ent (mat_mul n a b) i j = dot (nth i a []) (col b j).
Proof.
  intros Hi Hj. unfold ent, mat_mul. rewrite (nth_map_in _ a i []) by auto.
  now rewrite nth_map_seq.
Qed.

Lemma nth_col b j m : (m < List.length b)%nat -> nth m (col b j) 0 = ent b m j.
Proof. intros H. unfold col, ent. now rewrite (nth_map_in _ b m []) by auto. Qed.

Lemma ent_mul n a b i j r : (i < List.length a)%nat -> (j < n)%nat ->
  List.length (nth i a []) = r -> List.length b = r ->
  ent (mat_mul n a b) i j = sum_n r (fun l => ent a i l * ent b l j).
Proof.
  intros Hi Hj L1 L2. rewrite ent_mat_mul by auto.
  rewrite (dot_sum_n _ _ r); auto; [|unfold col; now rewrite map_length].
  apply sum_n_ext. intros l Hl. rewrite nth_col by lia. reflexivity.
Qed.

Lemma kind_deriv_length k : List.length (kind_deriv k) = kind_nnode k.
Proof. destruct k; reflexivity. Qed.
Lemma calc_deriv_length k ksi : List.length (calc_deriv k ksi) = kind_nnode k.
Proof. unfold calc_deriv. rewrite map_length. apply kind_deriv_length. Qed.
Lemma kind_deriv_rows k : forallb (fun r => Nat.eqb (List.length r) (kind_ndim k)) (kind_deriv k) = true.
Proof. destruct k; vm_compute; reflexivity. Qed.
Lemma calc_deriv_row k ksi m : (m < kind_nnode k)%nat -> List.length (nth m (calc_deriv k ksi) []) = kind_ndim k.
Proof.
  intros H. unfold calc_deriv. rewrite (nth_map_in _ _ m []) by now rewrite kind_deriv_length.
  rewrite map_length. pose proof (kind_deriv_rows k) as F. rewrite forallb_forall in F.
  apply Nat.eqb_eq, F, nth_In. now rewrite kind_deriv_length.
Qed.

(** ** Derivative along a curve *)
Lemma dlim_sum_n n (F : nat -> R -> R) d t0 :
  (forall i, (i < n)%nat -> derivable_pt_lim (F i) t0 (d i)) ->
  derivable_pt_lim (fun t => sum_n n (fun i => F i t)) t0 (sum_n n d).
Proof.
  induction n; intros H.
  - apply (derivable_pt_lim_const 0).
  - rewrite sum_n_S. specialize (IHn ltac:(auto)).
    pose proof (derivable_pt_lim_plus _ _ _ _ _ IHn (H n ltac:(lia))) as P.
    intros eps He. destruct (P eps He) as [del Hd]. exists del. intros h h0 h1. specialize (Hd h h0 h1).
    unfold plus_fct in Hd. rewrite !sum_n_S. exact Hd.
Qed.

Lemma dlim_ext f g t0 d : (forall t, f t = g t) -> derivable_pt_lim f t0 d -> derivable_pt_lim g t0 d.
Proof.
  intros E P eps He. destruct (P eps He) as [del Hd]. exists del. intros h h0 h1. rewrite <- !E. auto.
Qed.

Lemma dlim_scal f t0 d c : derivable_pt_lim f t0 d -> derivable_pt_lim (fun t => f t * c) t0 (d * c).
Proof.
  intros H. rewrite (Rmult_comm d c). apply (dlim_ext (fun t => c * f t)); [intros; ring|].
  now apply (derivable_pt_lim_scal f c).
Qed.

Lemma eval_curve n (gamma : R -> nat -> R) t0 g e :
  vars_below n e = true ->
  (forall j, (j < n)%nat -> derivable_pt_lim (fun t => gamma t j) t0 (g j)) ->
  derivable_pt_lim (fun t => eval (gamma t) e) t0 (sum_n n (fun j => eval (gamma t0) (D j e) * g j)).
Proof.
  intros V H. induction e; simpl in *.
  - apply Nat.ltb_lt in V. rewrite (sum_n_ext _ _ (fun j => delta i j * g j)).
    + rewrite sum_n_delta by auto. now apply H.
    + intros j _. unfold delta. destruct (Nat.eqb i j); simpl; [rewrite RMicromega.Q2R_1|rewrite RMicromega.Q2R_0]; reflexivity.
  - rewrite sum_n_zero; [apply derivable_pt_lim_const|]. intros. rewrite RMicromega.Q2R_0. ring.
  - apply andb_true_iff in V as [V1 V2].
    rewrite (sum_n_ext _ _ (fun j => eval (gamma t0) (D j e1) * g j + eval (gamma t0) (D j e2) * g j)) by (intros; ring).
    rewrite sum_n_plus. apply derivable_pt_lim_plus; auto.
  - apply andb_true_iff in V as [V1 V2].
    rewrite (sum_n_ext _ _ (fun j => eval (gamma t0) (D j e1) * g j + (-1) * (eval (gamma t0) (D j e2) * g j))) by (intros; ring).
    rewrite sum_n_plus, sum_n_scal.
    replace (_ + -1 * _) with (sum_n n (fun j => eval (gamma t0) (D j e1) * g j) - sum_n n (fun j => eval (gamma t0) (D j e2) * g j)) by ring.
    apply derivable_pt_lim_minus; auto.
  - apply andb_true_iff in V as [V1 V2].
    rewrite (sum_n_ext _ _ (fun j => eval (gamma t0) (D j e1) * g j * eval (gamma t0) e2
                                     + eval (gamma t0) e1 * (eval (gamma t0) (D j e2) * g j))) by (intros; ring).
    rewrite sum_n_plus, sum_n_scal, sum_n_scal_r.
    apply (derivable_pt_lim_mult (fun t => eval (gamma t) e1) (fun t => eval (gamma t) e2)); auto.
  - rewrite (sum_n_ext _ _ (fun j => (-1) * (eval (gamma t0) (D j e) * g j))) by (intros; ring).
    rewrite sum_n_scal. replace (-1 * _) with (- sum_n n (fun j => eval (gamma t0) (D j e) * g j)) by ring.
    apply derivable_pt_lim_opp; auto.
  - rewrite (sum_n_ext _ _ (fun j => (eval (gamma t0) (D j e) * g j) * / Q2R q)) by (intros; unfold Rdiv; ring).
    rewrite sum_n_scal_r. apply dlim_scal. auto.
Qed.

Lemma D_kind_deriv k f m j : (m < kind_nnode k)%nat -> (j < kind_ndim k)%nat ->
  eval f (D j (nth m (kind_interp k) (C 0))) = eval f (nth j (nth m (kind_deriv k) []) (C 0)).
Proof.
  intros Hm Hj. pose proof (deriv_check k) as H. rewrite forallb_forall in H.
  specialize (H m ltac:(apply in_seq; lia)). rewrite forallb_forall in H.
  specialize (H j ltac:(apply in_seq; lia)). now apply (expr_eqb_sound f) in H.
Qed.

(* d/dt N_m(gamma(t)) = sum_j L_mj g_j *)
Lemma interp_curve k gamma t0 ksi g m : curve_at (kind_ndim k) gamma t0 ksi g -> (m < kind_nnode k)%nat ->
  derivable_pt_lim (fun t => nth m (calc_interp k (gamma t)) 0) t0
    (sum_n (kind_ndim k) (fun j => ent (calc_deriv k ksi) m j * g j)).
Proof.
  intros [E H] Hm. subst ksi.
  apply (dlim_ext (fun t => eval (env (gamma t)) (nth m (kind_interp k) (C 0)))).
  { intros t. unfold calc_interp. now rewrite nth_map_eval. }
  rewrite (sum_n_ext _ _ (fun j => eval (env (gamma t0)) (D j (nth m (kind_interp k) (C 0))) * g j)).
  - apply (eval_curve (kind_ndim k) (fun t => env (gamma t))).
    + pose proof (kind_interp_below k) as B. rewrite forallb_forall in B. apply B, nth_In.
      rewrite kind_interp_length. auto.
    + intros j Hj. unfold env. auto.
  - intros j Hj. rewrite D_kind_deriv by auto. unfold ent. now rewrite nth_calc_deriv.
Qed.

Lemma field_curve p gamma t0 ksi g u : curve_at (kind_ndim (p_kind p)) gamma t0 ksi g ->
  derivable_pt_lim (fun t => field p u (gamma t)) t0
    (sum_n (kind_ndim (p_kind p)) (fun j =>
       sum_n (kind_nnode (p_kind p)) (fun m => ent (calc_deriv (p_kind p) ksi) m j * u m) * g j)).
Proof.
  intros H. unfold field.
  rewrite (sum_n_ext _ _ (fun j => sum_n (kind_nnode (p_kind p)) (fun m => ent (calc_deriv (p_kind p) ksi) m j * g j * u m))).
  2:{ intros j _. rewrite <- sum_n_scal_r. apply sum_n_ext. intros; ring. }
  rewrite sum_n_swap. apply dlim_sum_n. intros m Hm. rewrite sum_n_scal_r. apply dlim_scal.
  now apply interp_curve.
Qed.

Lemma coord_curve n ksi j : (j < List.length ksi)%nat -> (n <= List.length ksi)%nat ->
  curve_at n (fun t => set_coord ksi j t) (nth j ksi 0) ksi (delta j).
Proof.
  intros Hj Hn. split.
  - revert j Hj. clear. induction ksi as [|a ksi IH]; intros j Hj; simpl in *; [lia|].
    destruct j; simpl; auto. f_equal. apply IH. lia.
  - intros i Hi. unfold delta. destruct (Nat.eqb_spec j i) as [->|N].
    + apply (dlim_ext id); [|apply derivable_pt_lim_id]. intros t. unfold id.
      pose proof (env_set_coord ksi i t i Hj) as E. unfold env, set_var in E. now rewrite Nat.eqb_refl in E.
    + apply (dlim_ext (fun _ => nth i ksi 0)); [|apply derivable_pt_lim_const]. intros t.
      pose proof (env_set_coord ksi j t i Hj) as E. unfold env, set_var in E.
      destruct (Nat.eqb_spec i j); [lia|]. now rewrite E.
Qed.

(** ** Inverse *)
Lemma mat_inverse_inv zdet n a d b : 0 <= zdet -> mat_inverse zdet n a = Ok (d, b) ->
  (n = 2 \/ n = 3)%nat /\ d = det n (ent a) /\ zdet < Rabs d /\ inverse_of n (ent a) (ent b) /\
  List.length b = n /\ (forall i, (i < n)%nat -> List.length (nth i b []) = n).
Proof.
  intros Hz. unfold mat_inverse. destruct (Nat.eqb_spec n 2) as [->|N2].
  - set (dd := _ - _). destruct (Rleb (Rabs dd) zdet) eqn:E; [discriminate|].
    apply Rleb_false in E. intros [= <- <-].
    assert (Hd : dd <> 0). { intros Z. rewrite Z, Rabs_R0 in E. lra. }
    assert (G : dd = ent a 0 0 * ent a 1 1 - ent a 0 1 * ent a 1 0) by reflexivity. clearbody dd.
    split; [auto|]. split; [simpl; rewrite G; ring|]. split; [auto|]. split; [|split; [reflexivity|]].
    + intros i j Hi Hj.
      generalize dependent (ent a). intros e G.
      destruct i as [|[|i]]; [| |lia]; (destruct j as [|[|j]]; [| |lia]);
        unfold sum_n, delta, ent; simpl; split; field_simplify_eq; auto; first [ring | rewrite G; ring].
    + intros i Hi. destruct i as [|[|i]]; [| |lia]; reflexivity.
  - destruct (Nat.eqb_spec n 3) as [->|N3]; [|discriminate].
    set (dd := _ + _). destruct (Rleb (Rabs dd) zdet) eqn:E; [discriminate|].
    apply Rleb_false in E. intros [= <- <-].
    assert (Hd : dd <> 0). { intros Z. rewrite Z, Rabs_R0 in E. lra. }
    assert (G : dd = ent a 0 0 * (ent a 1 1 * ent a 2 2 - ent a 1 2 * ent a 2 1)
             - ent a 0 1 * (ent a 1 0 * ent a 2 2 - ent a 1 2 * ent a 2 0)
             + ent a 0 2 * (ent a 1 0 * ent a 2 1 - ent a 1 1 * ent a 2 0)) by reflexivity. clearbody dd.
    split; [auto|]. split; [simpl; rewrite G; ring|]. split; [auto|]. split; [|split; [reflexivity|]].
    + intros i j Hi Hj.
      generalize dependent (ent a). intros e G.
      destruct i as [|[|[|i]]]; [| | |lia]; (destruct j as [|[|[|j]]]; [| | |lia]);
        unfold sum_n, delta, ent; simpl; split; field_simplify_eq; auto; first [ring | rewrite G; ring].
    + intros i Hi. destruct i as [|[|[|i]]]; [| | |lia]; reflexivity.
Qed.

Lemma mat_inverse_ok zdet n a : (n = 2 \/ n = 3)%nat -> zdet < Rabs (det n (ent a)) ->
  exists b, mat_inverse zdet n a = Ok (det n (ent a), b).
Proof.
  intros [->| ->] H; unfold mat_inverse; simpl Nat.eqb; cbv iota.
  - replace (_ - _) with (det 2 (ent a)) by (simpl; ring).
    destruct (Rleb _ _) eqn:E; [apply Rleb_iff in E; lra|]. eexists; reflexivity.
  - match goal with |- context[Rleb (Rabs ?x)] => replace x with (det 3 (ent a)) by (simpl; ring) end.
    destruct (Rleb _ _) eqn:E; [apply Rleb_iff in E; lra|]. eexists; reflexivity.
Qed.

Lemma mat_inverse_err zdet n a : (n = 2 \/ n = 3)%nat -> Rabs (det n (ent a)) <= zdet ->
  mat_inverse zdet n a = Err "cannot compute inverse due to zero determinant"%string.
Proof.
  intros [->| ->] H; unfold mat_inverse; simpl Nat.eqb; cbv iota.
  - replace (_ - _) with (det 2 (ent a)) by (simpl; ring).
    destruct (Rleb _ _) eqn:E; [reflexivity|apply Rleb_false in E; lra].
  - match goal with |- context[Rleb (Rabs ?x)] => replace x with (det 3 (ent a)) by (simpl; ring) end.
    destruct (Rleb _ _) eqn:E; [reflexivity|apply Rleb_false in E; lra].
Qed.
