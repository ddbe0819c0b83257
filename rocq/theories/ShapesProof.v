From Coq Require Import Reals QArith Qreals List Lia Lra Bool Arith.
From Verif Require Import Expr ExprProof ShapesData Kind ShapesModel ShapesSpec.
Import ListNotations.
Local Open Scope R_scope.

(** * Generic evaluation lemmas *)
Lemma sum_Rsum l : sum l = Rsum l.
Proof. induction l; simpl; congruence. Qed.

Fixpoint vars_below (n : nat) (e : expr) : bool :=
  match e with
  | X i => Nat.ltb i n
  | C _ => true
  | Add a b | Sub a b | Mul a b => vars_below n a && vars_below n b
  | Neg a | DivC a _ => vars_below n a
  end.

Lemma eval_below n f g e :
  (forall i, (i < n)%nat -> f i = g i) -> vars_below n e = true -> eval f e = eval g e.
Proof.
  intros H. induction e; simpl; rewrite ?andb_true_iff; intros V;
    try (rewrite IHe1, IHe2 by tauto; reflexivity);
    try (rewrite IHe by assumption; reflexivity).
  - apply H. apply Nat.ltb_lt in V. exact V.
  - reflexivity.
Qed.

Lemma kind_interp_below k : forallb (vars_below (kind_ndim k)) (kind_interp k) = true.
Proof. destruct k; vm_compute; reflexivity. Qed.

Lemma kind_deriv_below k : forallb (forallb (vars_below (kind_ndim k))) (kind_deriv k) = true.
Proof. destruct k; vm_compute; reflexivity. Qed.

Lemma kind_ndim_le3 k : (kind_ndim k <= 3)%nat.
Proof. destruct k; vm_compute; lia. Qed.

Lemma map_eval_below k f g :
  (forall i, (i < kind_ndim k)%nat -> f i = g i) ->
  map (eval f) (kind_interp k) = map (eval g) (kind_interp k).
Proof.
  intros H. apply map_ext_in. intros e He. eapply eval_below; [exact H|].
  pose proof (kind_interp_below k) as B. rewrite forallb_forall in B. auto.
Qed.

Fixpoint edot (a b : list expr) : expr :=
  match a, b with x :: a', y :: b' => Add (Mul x y) (edot a' b') | _, _ => C 0 end.

Lemma eval_edot f a : forall b, eval f (edot a b) = dot (map (eval f) a) (map (eval f) b).
Proof.
  induction a as [|x a IH]; intros [|y b]; simpl; try apply RMicromega.Q2R_0.
  rewrite IH. reflexivity.
Qed.

Lemma nth_map_eval f l m : nth m (map (eval f) l) 0 = eval f (nth m l (C 0)).
Proof.
  replace 0%R with (eval f (C 0)) at 1 by (simpl; apply RMicromega.Q2R_0). apply map_nth.
Qed.

(** * Partition of unity *)
Lemma interp_sum_check k : expr_eqb (esum (kind_interp k)) (C 1) = true.
Proof. destruct k; vm_compute; reflexivity. Qed.

Lemma interp_sum k ksi : sum (calc_interp k ksi) = 1.
Proof.
  rewrite sum_Rsum. unfold calc_interp. rewrite <- eval_esum.
  rewrite (expr_eqb_sound _ _ _ (interp_sum_check k)). simpl. apply RMicromega.Q2R_1.
Qed.

Lemma deriv_sum_check k :
  forallb (fun j => is_zero (esum (map (fun row => nth j row (C 0)) (kind_deriv k))))
          (seq 0 (kind_ndim k)) = true.
Proof. destruct k; vm_compute; reflexivity. Qed.

Lemma deriv_sum k ksi j :
  (j < kind_ndim k)%nat -> sum (map (fun row => nth j row 0) (calc_deriv k ksi)) = 0.
Proof.
  intros Hj. pose proof (deriv_sum_check k) as H. rewrite forallb_forall in H.
  specialize (H j ltac:(apply in_seq; lia)). apply (is_zero_sound (env ksi)) in H.
  rewrite eval_esum in H. rewrite sum_Rsum. etransitivity; [|exact H]. f_equal.
  unfold calc_deriv. rewrite !map_map. apply map_ext. intros row. apply nth_map_eval.
Qed.

(** * Kronecker property *)
Lemma env_ref k m i : env (ref_coords k m) i = eval (fun _ => 0) (C (nth i (reference_coords k m) 0%Q)).
Proof.
  unfold env, ref_coords. simpl. rewrite <- RMicromega.Q2R_0. apply map_nth.
Qed.

Definition at_node (k : geokind) (n : nat) (e : expr) : expr :=
  subst (fun i => C (nth i (reference_coords k n) 0%Q)) e.

Lemma kronecker_check k :
  forallb (fun n => forallb (fun m =>
    expr_eqb (at_node k n (nth m (kind_interp k) (C 0))) (if Nat.eqb m n then C 1 else C 0))
    (seq 0 (kind_nnode k))) (seq 0 (kind_nnode k)) = true.
Proof. destruct k; vm_compute; reflexivity. Qed.

Lemma interp_at_node k m n :
  (m < kind_nnode k)%nat -> (n < kind_nnode k)%nat ->
  nth m (calc_interp k (ref_coords k n)) 0 = if Nat.eqb m n then 1 else 0.
Proof.
  intros Hm Hn. pose proof (kronecker_check k) as H. rewrite forallb_forall in H.
  specialize (H n ltac:(apply in_seq; lia)). rewrite forallb_forall in H.
  specialize (H m ltac:(apply in_seq; lia)). apply (expr_eqb_sound (fun _ => 0)) in H.
  unfold calc_interp. rewrite nth_map_eval.
  unfold at_node in H. rewrite eval_subst in H.
  rewrite (eval_ext _ (env (ref_coords k n))) in H by (intros i; symmetry; apply env_ref).
  rewrite H. destruct (Nat.eqb m n); simpl; [apply RMicromega.Q2R_1|apply RMicromega.Q2R_0].
Qed.

Lemma kind_interp_length k : length (kind_interp k) = kind_nnode k.
Proof. destruct k; reflexivity. Qed.

Lemma calc_interp_length k ksi : length (calc_interp k ksi) = kind_nnode k.
Proof. unfold calc_interp. rewrite map_length. apply kind_interp_length. Qed.

Lemma dot_nth a : forall b n,
  (forall m, (m < length a)%nat -> nth m a 0 = if Nat.eqb m n then 1 else 0) ->
  length b = length a -> (n < length a)%nat -> dot a b = nth n b 0.
Proof.
  induction a as [|x a IH]; intros b n H L Hn; simpl in *; [lia|].
  destruct b as [|y b]; simpl in *; [lia|].
  pose proof (H 0%nat ltac:(lia)) as H0. simpl in H0.
  destruct n as [|n].
  - simpl in H0. subst x.
    replace (dot a b) with 0; [ring|]. symmetry.
    assert (Z : forall m, (m < length a)%nat -> nth m a 0 = 0).
    { intros m Hm. apply (H (S m)). lia. }
    clear -Z. revert b. induction a as [|x a IH]; intros b; simpl; auto.
    destruct b as [|y b]; simpl; auto.
    rewrite (IH ltac:(intros m Hm; apply (Z (S m)); simpl; lia)).
    pose proof (Z 0%nat ltac:(simpl; lia)) as Z0. simpl in Z0. subst. ring.
  - simpl in H0. subst x. simpl. rewrite (IH b n); try lia; [ring|].
    intros m Hm. apply (H (S m)). lia.
Qed.

Lemma coords_at_node k xxt n :
  (n < kind_nnode k)%nat -> Forall (fun row => length row = kind_nnode k) xxt ->
  calc_coords k xxt (ref_coords k n) = map (fun row => nth n row 0) xxt.
Proof.
  intros Hn HF. unfold calc_coords. apply map_ext_in. intros row Hr.
  rewrite Forall_forall in HF. apply dot_nth.
  - intros m Hm. rewrite calc_interp_length in Hm. apply interp_at_node; assumption.
  - rewrite calc_interp_length. auto.
  - rewrite calc_interp_length. exact Hn.
Qed.

(** * Derivatives *)
Lemma deriv_check k :
  forallb (fun m => forallb (fun j =>
    expr_eqb (D j (nth m (kind_interp k) (C 0))) (nth j (nth m (kind_deriv k) []) (C 0)))
    (seq 0 (kind_ndim k))) (seq 0 (kind_nnode k)) = true.
Proof. destruct k; vm_compute; reflexivity. Qed.

Lemma env_set_coord ksi : forall j x i,
  (j < length ksi)%nat -> env (set_coord ksi j x) i = set_var (env ksi) j x i.
Proof.
  unfold env, set_var. induction ksi as [|a ksi IH]; intros j x i Hj; simpl in *; [lia|].
  destruct j as [|j]; destruct i as [|i]; simpl; auto.
  apply IH. lia.
Qed.

Lemma nth_calc_deriv k ksi m j :
  nth j (nth m (calc_deriv k ksi) []) 0 = eval (env ksi) (nth j (nth m (kind_deriv k) []) (C 0)).
Proof.
  unfold calc_deriv. change (@nil R) with (map (eval (env ksi)) []).
  rewrite map_nth. apply nth_map_eval.
Qed.

Lemma deriv_correct k ksi m j :
  length ksi = kind_ndim k -> (m < kind_nnode k)%nat -> (j < kind_ndim k)%nat ->
  derivable_pt_lim (fun x => nth m (calc_interp k (set_coord ksi j x)) 0)
                   (nth j ksi 0) (nth j (nth m (calc_deriv k ksi) []) 0).
Proof.
  intros L Hm Hj. rewrite nth_calc_deriv.
  pose proof (deriv_check k) as H. rewrite forallb_forall in H.
  specialize (H m ltac:(apply in_seq; lia)). rewrite forallb_forall in H.
  specialize (H j ltac:(apply in_seq; lia)). apply (expr_eqb_sound (env ksi)) in H.
  rewrite <- H.
  pose proof (D_correct (env ksi) j (nth m (kind_interp k) (C 0))) as HD.
  intros eps Heps. destruct (HD eps Heps) as [d Hd]. exists d. intros h H1 H2.
  specialize (Hd h H1 H2). unfold calc_interp. rewrite !nth_map_eval.
  rewrite !(eval_ext (env (set_coord ksi j _)) (set_var (env ksi) j _))
    by (intros; apply env_set_coord; lia).
  exact Hd.
Qed.

(** * Affine reproduction *)
Lemma reproduce_check k :
  forallb (fun j => expr_eqb
     (edot (kind_interp k) (map (fun m => C (nth j (reference_coords k m) 0%Q)) (seq 0 (kind_nnode k))))
     (X j)) (seq 0 (kind_ndim k)) = true.
Proof. destruct k; vm_compute; reflexivity. Qed.

Lemma reproduce_coord k ksi j :
  (j < kind_ndim k)%nat ->
  dot (calc_interp k ksi) (map (fun m => nth j (ref_coords k m) 0) (seq 0 (kind_nnode k))) = nth j ksi 0.
Proof.
  intros Hj. pose proof (reproduce_check k) as H. rewrite forallb_forall in H.
  specialize (H j ltac:(apply in_seq; lia)). apply (expr_eqb_sound (env ksi)) in H.
  rewrite eval_edot in H. change (nth j ksi 0) with (eval (env ksi) (X j)). rewrite <- H.
  unfold calc_interp. f_equal. rewrite map_map. apply map_ext. intros m. simpl.
  unfold ref_coords. rewrite <- RMicromega.Q2R_0. apply map_nth.
Qed.

Lemma ref_length_check k :
  forallb (fun m => Nat.eqb (length (reference_coords k m)) (kind_ndim k)) (seq 0 (kind_nnode k)) = true.
Proof. destruct k; vm_compute; reflexivity. Qed.

Lemma ref_coords_length k m : (m < kind_nnode k)%nat -> length (ref_coords k m) = kind_ndim k.
Proof.
  intros Hm. unfold ref_coords. rewrite map_length.
  pose proof (ref_length_check k) as H. rewrite forallb_forall in H.
  apply Nat.eqb_eq. apply H. apply in_seq. lia.
Qed.

Lemma dot_plus_map N (f g : nat -> R) : forall ms,
  dot N (map (fun m => f m + g m) ms) = dot N (map f ms) + dot N (map g ms).
Proof.
  induction N as [|x N IH]; intros [|m ms]; simpl; try ring. rewrite IH. ring.
Qed.

Lemma dot_scal_map c N (f : nat -> R) : forall ms,
  dot N (map (fun m => c * f m) ms) = c * dot N (map f ms).
Proof.
  induction N as [|x N IH]; intros [|m ms]; simpl; try ring. rewrite IH. ring.
Qed.

Lemma dot_const_map c N : forall ms : list nat, length ms = length N ->
  dot N (map (fun _ => c) ms) = c * sum N.
Proof.
  induction N as [|x N IH]; intros [|m ms]; simpl; intros L; try lia; [ring|].
  rewrite IH by lia. ring.
Qed.

Lemma dot_zero_map N : forall ms : list nat, dot N (map (fun _ => 0) ms) = 0.
Proof. induction N as [|x N IH]; intros [|m ms]; simpl; try reflexivity. rewrite IH. ring. Qed.

Lemma dot_affine : forall a (r : nat -> list R) ksi ms N,
  (forall m, In m ms -> length (r m) = length a) -> length ksi = length a ->
  (forall j, (j < length a)%nat -> dot N (map (fun m => nth j (r m) 0) ms) = nth j ksi 0) ->
  dot N (map (fun m => affine a (r m)) ms) = affine a ksi.
Proof.
  induction a as [|c a IH]; intros r ksi ms N Hr Hk Hj; simpl.
  - apply dot_zero_map.
  - destruct ksi as [|x ksi]; simpl in Hk; [lia|].
    transitivity (dot N (map (fun m => c * nth 0 (r m) 0 + affine a (tl (r m))) ms)).
    + f_equal. apply map_ext_in. intros m Hm. specialize (Hr m Hm).
      destruct (r m); simpl in *; [lia|reflexivity].
    + rewrite dot_plus_map, dot_scal_map, (Hj 0%nat) by (simpl; lia). simpl. f_equal.
      apply IH.
      * intros m Hm. specialize (Hr m Hm). destruct (r m); simpl in *; lia.
      * lia.
      * intros j Hj'. change (nth j ksi 0) with (nth (S j) (x :: ksi) 0). rewrite <- (Hj (S j)) by (simpl; lia). f_equal. apply map_ext_in.
        intros m Hm. destruct (r m); simpl; [destruct j|]; reflexivity.
Qed.

Lemma affine_reproduction k a0 a ksi :
  length a = kind_ndim k -> length ksi = kind_ndim k ->
  dot (calc_interp k ksi) (map (fun m => a0 + affine a (ref_coords k m)) (seq 0 (kind_nnode k)))
  = a0 + affine a ksi.
Proof.
  intros La Lk. rewrite dot_plus_map. f_equal.
  - rewrite dot_const_map by (rewrite seq_length, calc_interp_length; reflexivity).
    rewrite interp_sum. ring.
  - apply dot_affine; [|lia|].
    + intros m Hm. apply in_seq in Hm. rewrite ref_coords_length by lia. auto.
    + intros j Hj. apply reproduce_coord. lia.
Qed.

(** * Conformity along edges and faces *)

(* environment: variables 0..2 are parameters, 3+m is the value at node m *)
Definition cenv (z u : list R) : nat -> R :=
  fun i => if Nat.ltb i 3 then nth i z 0 else nth (i - 3) u 0.

Definition uvars (l : list nat) : list expr := map (fun m => X (3 + m)) l.

Lemma eval_uvars z u l : map (eval (cenv z u)) (uvars l) = map (fun m => nth m u 0) l.
Proof.
  unfold uvars. rewrite map_map. apply map_ext. intros m. cbn [eval]. unfold cenv.
  replace (Nat.ltb (3 + m) 3) with false by (symmetry; apply Nat.ltb_ge; lia).
  f_equal. lia.
Qed.

Lemma uvars_all z u n : length u = n -> map (eval (cenv z u)) (uvars (seq 0 n)) = u.
Proof.
  intros <-. rewrite eval_uvars. induction u as [|x u IH] using rev_ind; [reflexivity|].
  rewrite app_length. simpl. rewrite seq_app, map_app. simpl. f_equal.
  - rewrite <- IH at 2. apply map_ext_in. intros m Hm. apply in_seq in Hm.
    apply app_nth1. lia.
  - rewrite app_nth2, Nat.sub_diag; [reflexivity|lia].
Qed.

(* generic lemma: substitution [s] describes the parametrisation [pt] *)
Lemma conform_generic k fk (s : nat -> expr) (ids : list nat) (pt z u : list R) :
  length u = kind_nnode k ->
  (forall i, (i < kind_ndim k)%nat -> eval (cenv z u) (s i) = nth i pt 0) ->
  expr_eqb (edot (map (subst s) (kind_interp k)) (uvars (seq 0 (kind_nnode k))))
           (edot (kind_interp fk) (uvars ids)) = true ->
  dot (calc_interp k pt) u = dot (calc_interp fk z) (map (fun m => nth m u 0) ids).
Proof.
  intros Lu Hs H. apply (expr_eqb_sound (cenv z u)) in H. rewrite !eval_edot in H.
  rewrite uvars_all in H by exact Lu. rewrite eval_uvars in H.
  replace (calc_interp k pt) with (map (eval (cenv z u)) (map (subst s) (kind_interp k))).
  - rewrite H. f_equal. unfold calc_interp. apply map_eval_below. intros i Hi.
    pose proof (kind_ndim_le3 fk). unfold cenv, env.
    replace (Nat.ltb i 3) with true by (symmetry; apply Nat.ltb_lt; lia). reflexivity.
  - rewrite map_map. unfold calc_interp. transitivity (map (eval (fun i => eval (cenv z u) (s i))) (kind_interp k)).
    + apply map_ext. intros e. apply eval_subst.
    + apply map_eval_below. intros i Hi. unfold env. apply Hs. exact Hi.
Qed.

Definition seg_expr (p q : list Q) (i : nat) : expr :=
  Add (Mul (DivC (Sub (C 1) (X 0)) 2) (C (nth i p 0%Q)))
      (Mul (DivC (Add (C 1) (X 0)) 2) (C (nth i q 0%Q))).

Definition edge_check (k : geokind) : bool :=
  match kind_edge_kind k with
  | None => true
  | Some ek =>
    forallb (fun e =>
      expr_eqb
        (edot (map (subst (seg_expr (reference_coords k (edge_node_id k e 0))
                                    (reference_coords k (edge_node_id k e 1)))) (kind_interp k))
              (uvars (seq 0 (kind_nnode k))))
        (edot (kind_interp ek) (uvars (map (edge_node_id k e) (seq 0 (kind_edge_nnode k))))))
      (seq 0 (kind_nedge k))
  end.

Lemma edge_check_ok k : edge_check k = true.
Proof. destruct k; vm_compute; reflexivity. Qed.

Lemma Q2R_2 : Q2R 2 = 2.
Proof. unfold Q2R. simpl. lra. Qed.

Lemma nth_seg_point p : forall q z i, length p = length q -> (i < length p)%nat ->
  nth i (seg_point p q z) 0 = (1 - z) / 2 * nth i p 0 + (1 + z) / 2 * nth i q 0.
Proof.
  induction p as [|a p IH]; intros [|b q] z i L Hi; simpl in *; try lia.
  destruct i as [|i]; simpl; [reflexivity|]. apply IH; lia.
Qed.

Lemma edge_node_lt_check k :
  forallb (fun e => forallb (fun i => Nat.ltb (edge_node_id k e i) (kind_nnode k))
    (seq 0 (kind_edge_nnode k))) (seq 0 (kind_nedge k)) = true.
Proof. destruct k; vm_compute; reflexivity. Qed.

Lemma edge_node_lt k e i :
  (e < kind_nedge k)%nat -> (i < kind_edge_nnode k)%nat -> (edge_node_id k e i < kind_nnode k)%nat.
Proof.
  intros He Hi. pose proof (edge_node_lt_check k) as H. rewrite forallb_forall in H.
  specialize (H e ltac:(apply in_seq; lia)). rewrite forallb_forall in H.
  apply Nat.ltb_lt. apply H. apply in_seq. lia.
Qed.

Lemma edge_nnode_ge2 k : (0 < kind_nedge k)%nat -> (2 <= kind_edge_nnode k)%nat.
Proof. destruct k; vm_compute; lia. Qed.

Lemma edge_conform k ek e z u :
  kind_edge_kind k = Some ek -> (e < kind_nedge k)%nat -> length u = kind_nnode k ->
  dot (calc_interp k (seg_point (ref_coords k (edge_node_id k e 0))
                                (ref_coords k (edge_node_id k e 1)) z)) u
  = dot (calc_interp ek [z]) (map (fun i => nth (edge_node_id k e i) u 0) (seq 0 (kind_edge_nnode k))).
Proof.
  intros Hek He Lu. pose proof (edge_check_ok k) as H. unfold edge_check in H. rewrite Hek in H.
  rewrite forallb_forall in H. specialize (H e ltac:(apply in_seq; lia)).
  rewrite <- (map_map (edge_node_id k e) (fun m => nth m u 0)).
  eapply conform_generic; [exact Lu| |exact H].
  intros i Hi. pose proof (edge_nnode_ge2 k ltac:(lia)).
  rewrite nth_seg_point.
  - cbn [seg_expr eval]. rewrite Q2R_2, RMicromega.Q2R_1.
    unfold cenv at 1 2. simpl. unfold ref_coords. rewrite <- RMicromega.Q2R_0, !map_nth. reflexivity.
  - rewrite !ref_coords_length; auto; apply edge_node_lt; lia.
  - rewrite ref_coords_length; auto. apply edge_node_lt; lia.
Qed.

(** Faces *)
Definition tri_expr (p q w : list Q) (i : nat) : expr :=
  Add (Add (Mul (Sub (Sub (C 1) (X 0)) (X 1)) (C (nth i p 0%Q)))
           (Mul (X 0) (C (nth i q 0%Q)))) (Mul (X 1) (C (nth i w 0%Q))).

Definition qua_expr (p q w v : list Q) (i : nat) : expr :=
  Add (Add (Add
    (Mul (DivC (Mul (Sub (C 1) (X 0)) (Sub (C 1) (X 1))) 4) (C (nth i p 0%Q)))
    (Mul (DivC (Mul (Add (C 1) (X 0)) (Sub (C 1) (X 1))) 4) (C (nth i q 0%Q))))
    (Mul (DivC (Mul (Add (C 1) (X 0)) (Add (C 1) (X 1))) 4) (C (nth i w 0%Q))))
    (Mul (DivC (Mul (Sub (C 1) (X 0)) (Add (C 1) (X 1))) 4) (C (nth i v 0%Q))).

Definition face_expr (k : geokind) (f : nat) : nat -> expr :=
  let p i := reference_coords k (face_node_id k f i) in
  match kind_class k with
  | CTet => tri_expr (p 0%nat) (p 1%nat) (p 2%nat)
  | _ => qua_expr (p 0%nat) (p 1%nat) (p 2%nat) (p 3%nat)
  end.

Definition face_check (k : geokind) : bool :=
  match kind_face_kind k with
  | None => true
  | Some fk =>
    forallb (fun f =>
      expr_eqb
        (edot (map (subst (face_expr k f)) (kind_interp k)) (uvars (seq 0 (kind_nnode k))))
        (edot (kind_interp fk) (uvars (map (face_node_id k f) (seq 0 (kind_face_nnode k))))))
      (seq 0 (kind_nface k))
  end.

Lemma face_check_ok k : face_check k = true.
Proof. destruct k; vm_compute; reflexivity. Qed.

Lemma nth_tri_point p : forall q w r s i,
  length p = length q -> length p = length w -> (i < length p)%nat ->
  nth i (tri_point p q w r s) 0 = (1 - r - s) * nth i p 0 + r * nth i q 0 + s * nth i w 0.
Proof.
  induction p as [|a p IH]; intros [|b q] [|c w] r s i L1 L2 Hi; simpl in *; try lia.
  destruct i as [|i]; simpl; [reflexivity|]. apply IH; lia.
Qed.

Lemma nth_qua_point p : forall q w v r s i,
  length p = length q -> length p = length w -> length p = length v -> (i < length p)%nat ->
  nth i (qua_point p q w v r s) 0 =
    (1 - r) * (1 - s) / 4 * nth i p 0 + (1 + r) * (1 - s) / 4 * nth i q 0 +
    (1 + r) * (1 + s) / 4 * nth i w 0 + (1 - r) * (1 + s) / 4 * nth i v 0.
Proof.
  induction p as [|a p IH]; intros [|b q] [|c w] [|d v] r s i L1 L2 L3 Hi; simpl in *; try lia.
  destruct i as [|i]; simpl; [reflexivity|]. apply IH; lia.
Qed.

Lemma face_node_lt_check k :
  forallb (fun e => forallb (fun i => Nat.ltb (face_node_id k e i) (kind_nnode k))
    (seq 0 (kind_face_nnode k))) (seq 0 (kind_nface k)) = true.
Proof. destruct k; vm_compute; reflexivity. Qed.

Lemma face_node_lt k e i :
  (e < kind_nface k)%nat -> (i < kind_face_nnode k)%nat -> (face_node_id k e i < kind_nnode k)%nat.
Proof.
  intros He Hi. pose proof (face_node_lt_check k) as H. rewrite forallb_forall in H.
  specialize (H e ltac:(apply in_seq; lia)). rewrite forallb_forall in H.
  apply Nat.ltb_lt. apply H. apply in_seq. lia.
Qed.

Lemma face_nnode_ge k : (0 < kind_nface k)%nat -> (3 <= kind_face_nnode k)%nat.
Proof. destruct k; vm_compute; lia. Qed.
Lemma hex_face_nnode_ge k : kind_class k = CHex -> (4 <= kind_face_nnode k)%nat.
Proof. destruct k; vm_compute; try discriminate; lia. Qed.

Lemma Q2R_4 : Q2R 4 = 4.
Proof. unfold Q2R. simpl. lra. Qed.

Lemma face_conform_tet k fk f r s u :
  kind_class k = CTet -> kind_face_kind k = Some fk -> (f < kind_nface k)%nat -> length u = kind_nnode k ->
  dot (calc_interp k (tri_point (ref_coords k (face_node_id k f 0)) (ref_coords k (face_node_id k f 1))
                                (ref_coords k (face_node_id k f 2)) r s)) u
  = dot (calc_interp fk [r; s]) (map (fun i => nth (face_node_id k f i) u 0) (seq 0 (kind_face_nnode k))).
Proof.
  intros Hc Hfk Hf Lu. pose proof (face_check_ok k) as H. unfold face_check in H. rewrite Hfk in H.
  rewrite forallb_forall in H. specialize (H f ltac:(apply in_seq; lia)).
  rewrite <- (map_map (face_node_id k f) (fun m => nth m u 0)).
  eapply conform_generic; [exact Lu| |exact H].
  intros i Hi. pose proof (face_nnode_ge k ltac:(lia)).
  rewrite nth_tri_point; try (rewrite !ref_coords_length; auto; apply face_node_lt; lia).
  unfold face_expr. rewrite Hc. cbn [tri_expr eval]. rewrite RMicromega.Q2R_1.
  unfold cenv. simpl. unfold ref_coords. rewrite <- RMicromega.Q2R_0, !map_nth. reflexivity.
Qed.

Lemma face_conform_hex k fk f r s u :
  kind_class k = CHex -> kind_face_kind k = Some fk -> (f < kind_nface k)%nat -> length u = kind_nnode k ->
  dot (calc_interp k (qua_point (ref_coords k (face_node_id k f 0)) (ref_coords k (face_node_id k f 1))
                                (ref_coords k (face_node_id k f 2)) (ref_coords k (face_node_id k f 3)) r s)) u
  = dot (calc_interp fk [r; s]) (map (fun i => nth (face_node_id k f i) u 0) (seq 0 (kind_face_nnode k))).
Proof.
  intros Hc Hfk Hf Lu. pose proof (face_check_ok k) as H. unfold face_check in H. rewrite Hfk in H.
  rewrite forallb_forall in H. specialize (H f ltac:(apply in_seq; lia)).
  rewrite <- (map_map (face_node_id k f) (fun m => nth m u 0)).
  eapply conform_generic; [exact Lu| |exact H].
  intros i Hi. pose proof (hex_face_nnode_ge k Hc).
  rewrite nth_qua_point; try (rewrite !ref_coords_length; auto; apply face_node_lt; lia).
  unfold face_expr. rewrite Hc. cbn [qua_expr eval]. rewrite RMicromega.Q2R_1, Q2R_4.
  unfold cenv. simpl. unfold ref_coords. rewrite <- RMicromega.Q2R_0, !map_nth. reflexivity.
Qed.
