(* Consequences: totals, symmetry, sign, rigid motions, consistency of forces and stiffness. *)
From Coq Require Import String Reals List Lia Lra Bool Arith.
From Verif Require Import Base BaseFacts Expr ShapesData Kind ShapesModel ShapesSpec ShapesProof GeomModel GeomProof PadModel PadSpec
  PadProof PadProof2 PadProof3 GaussModel GaussSpec IntegModel IntegSpec IntegProof IntegProof2 IntegProof3 IntegProof4 IntegProof5.
Import ListNotations.
Local Open Scope R_scope.

Lemma vec_result_added A a a' M ni V : vec_result A a a' M ni V ->
  forall m i, (m < M)%nat -> (i < ni)%nat -> vec_added A a a' (i + m * ni) = V m i.
Proof. intros (_ & H & _) m i Hm Hi. unfold vec_added. rewrite Nat.add_assoc. rewrite H by auto. lra. Qed.
Lemma vec_result_added1 A a a' M V : vec_result A a a' M 1 V -> forall m, (m < M)%nat -> vec_added A a a' m = V m 0%nat.
Proof. intros H m Hm. pose proof (vec_result_added _ _ _ _ _ _ H m 0 Hm ltac:(lia)) as E. rewrite Nat.mul_1_r in E. exact E. Qed.
Lemma mat_result_added A a a' M ni N nj V : mat_result A a a' M ni N nj V ->
  forall m i n j, (m < M)%nat -> (i < ni)%nat -> (n < N)%nat -> (j < nj)%nat -> mat_added A a a' (i + m * ni) (j + n * nj) = V m i n j.
Proof. intros (_ & H & _) m i n j Hm Hi Hn Hj. unfold mat_added. rewrite !Nat.add_assoc. rewrite H by auto. lra. Qed.
Lemma mat_result_added1 A a a' M N V : mat_result A a a' M 1 N 1 V ->
  forall m n, (m < M)%nat -> (n < N)%nat -> mat_added A a a' m n = V m 0%nat n 0%nat.
Proof.
  intros H m n Hm Hn. pose proof (mat_result_added _ _ _ _ _ _ _ _ H m 0 n 0 Hm ltac:(lia) Hn ltac:(lia)) as E.
  rewrite !Nat.mul_1_r in E. exact E.
Qed.

Lemma integral_ext A f g : (forall p, (p < npoint (a_gauss A))%nat -> f p = g p) -> integral A f = integral A g.
Proof. apply sum_n_ext. Qed.
Lemma integral_sum A n f : sum_n n (fun m => integral A (f m)) = integral A (fun p => sum_n n (fun m => f m p)).
Proof. unfold integral. apply sum_n_swap. Qed.
Lemma integral_scal A c f : integral A (fun p => c * f p) = c * integral A f.
Proof. apply sum_n_scal. Qed.
Lemma integral_zero A f : (forall p, (p < npoint (a_gauss A))%nat -> f p = 0) -> integral A f = 0.
Proof. apply sum_n_zero. Qed.
Lemma integral_nonneg A f : (forall p, (p < npoint (a_gauss A))%nat -> 0 <= f p) -> 0 <= integral A f.
Proof. apply sum_n_nonneg. Qed.

Lemma sum_nth l : sum l = sum_n (List.length l) (fun m => nth m l 0).
Proof. induction l as [|x l IH]; [reflexivity|]. cbn [List.length sum]. rewrite sum_n_head. cbn [nth]. now rewrite IH. Qed.
Lemma unity A p : sum_n (a_nnode A) (fun m => N_of A p m) = 1.
Proof.
  rewrite <- (interp_sum (p_kind (a_pad A)) (ksi_at A p)). unfold N_of, N_p, a_nnode.
  rewrite <- (calc_interp_length (p_kind (a_pad A)) (ksi_at A p)) at 1. symmetry. apply sum_nth.
Qed.

(* a double sum over positions in blocks *)
Lemma sum_blocks M ni f : (0 < ni)%nat -> sum_n (M * ni) f = sum_n M (fun m => sum_n ni (fun i => f (i + m * ni)%nat)).
Proof.
  intros H. induction M as [|M IH].
  - now rewrite Nat.mul_0_l, !sum_n_0.
  - rewrite sum_n_S, <- IH. replace (S M * ni)%nat with (M * ni + ni)%nat by lia.
    generalize ni at 2 4. intros k. induction k as [|k IHk].
    + rewrite Nat.add_0_r, sum_n_0. ring.
    + rewrite Nat.add_succ_r, !sum_n_S, IHk. replace (k + M * ni)%nat with (M * ni + k)%nat by lia. ring.
Qed.

Section Cons.
Variables (zdet : R) (A : args).
Hypothesis Hz : 0 <= zdet.
Hypothesis W : pad_wf (a_pad A).
Notation np := (npoint (a_gauss A)).
Notation nd := (p_space (a_pad A)).
Notation nnode := (a_nnode A).

Lemma grad_facts_at p x : grad_facts zdet A p x -> gradient_at (a_pad A) (ksi_at A p) (fst x) (snd x).
Proof. intros (_ & H & _). exact H. Qed.
Lemma grad_facts_pos p x : (p < np)%nat -> positive_jacobian A -> grad_facts zdet A p x -> 0 < fst x.
Proof. intros Hp P H. apply grad_facts_at in H as (_ & J & HJ & -> & _). now apply (P p). Qed.
Lemma grad_facts_sum p x i : grad_facts zdet A p x -> (i < nd)%nat -> sum_n nnode (fun m => ent (snd x) m i) = 0.
Proof. intros (_ & _ & H & _). auto. Qed.
Lemma dvol_nonneg d p : (p < np)%nat -> good_volumes A -> 0 < d p -> 0 <= dvol A d p.
Proof.
  intros Hp (Ha & Hw & Hr) Hd. unfold dvol. apply Rmult_le_pos; [apply Rmult_le_pos; auto; apply Rmult_le_pos; auto; lra|].
  destruct (a_axi A); [auto|lra].
Qed.

(** ** totals *)
Lemma vec_01_total a fn a' q : vec_01_ns zdet A a fn = Ok (a', q) -> exists d s,
  (forall p, (p < np)%nat -> measure_at (a_pad A) (ksi_at A p) (d p) /\ fn p (N_p A p) = Ok (s p)) /\
  sum_n nnode (vec_added A a a') = integral A (fun p => dvol A d p * s p).
Proof.
  intros H. apply vec_01_form in H as (_ & d & s & F & V); auto. exists d, s. split; auto.
  rewrite (sum_n_ext _ _ _ (vec_result_added1 _ _ _ _ _ V)). rewrite integral_sum. apply integral_ext. intros p _.
  rewrite sum_n_scal, unity. ring.
Qed.
Lemma vec_02_total b fn b' q : vec_02_nv zdet A b fn = Ok (b', q) -> exists d v,
  (forall p, (p < np)%nat -> measure_at (a_pad A) (ksi_at A p) (d p) /\ fn p (N_p A p) = Ok (v p)) /\
  forall i, (i < nd)%nat -> sum_n nnode (fun m => vec_added A b b' (i + m * nd)) = integral A (fun p => dvol A d p * nth i (v p) 0).
Proof.
  intros H. apply vec_02_form in H as (_ & d & v & F & V); auto. exists d, v. split; auto. intros i Hi.
  rewrite (sum_n_ext _ _ _ (fun m Hm => vec_result_added _ _ _ _ _ _ V m i Hm Hi)). rewrite integral_sum. apply integral_ext. intros p _.
  rewrite sum_n_scal, unity. ring.
Qed.
Lemma vec_03_zero c fn c' q : vec_03_bv zdet A c fn = Ok (c', q) -> sum_n nnode (vec_added A c c') = 0.
Proof.
  intros H. apply vec_03_form in H as (_ & x & w & F & V); auto.
  rewrite (sum_n_ext _ _ _ (vec_result_added1 _ _ _ _ _ V)). rewrite integral_sum. apply integral_zero. intros p Hp.
  destruct (F p Hp) as (G & _). rewrite sum_n_scal, sum_n_swap, (sum_n_zero nd); [ring|]. intros i Hi. rewrite sum_n_scal, (grad_facts_sum p) by auto. ring.
Qed.

(** ** mat_01 *)
Lemma mat_01_symmetric nr nc kk fn kk' q : is_matrix nr nc kk -> mat_01_nsn zdet A kk fn = Ok (kk', q) -> symmetric nnode (mat_added A kk kk').
Proof.
  intros M H. apply (mat_01_form zdet A Hz W nr nc) in H as (_ & x & s & F & V); auto. intros k l Hk Hl.
  rewrite !(mat_result_added1 _ _ _ _ _ _ V) by auto. apply integral_ext. intros. ring.
Qed.
Lemma mat_01_rows nr nc kk fn kk' q : is_matrix nr nc kk -> mat_01_nsn zdet A kk fn = Ok (kk', q) -> exists d B s,
  (forall p, (p < np)%nat -> gradient_at (a_pad A) (ksi_at A p) (d p) (B p) /\ fn p (N_p A p) (B p) = Ok (s p)) /\
  (forall m, (m < nnode)%nat -> sum_n nnode (mat_added A kk kk' m) = integral A (fun p => dvol A d p * s p * N_of A p m)) /\
  sum_n nnode (fun m => sum_n nnode (mat_added A kk kk' m)) = integral A (fun p => dvol A d p * s p).
Proof.
  intros M H. apply (mat_01_form zdet A Hz W nr nc) in H as (_ & x & s & F & V); auto.
  exists (fun p => fst (x p)), (fun p => snd (x p)), s. split; [intros p Hp; destruct (F p Hp); split; [now apply grad_facts_at|auto]|].
  assert (E : forall m, (m < nnode)%nat -> sum_n nnode (mat_added A kk kk' m) = integral A (fun p => dvol A (fun p => fst (x p)) p * s p * N_of A p m)).
  { intros m Hm. rewrite (sum_n_ext _ _ _ (fun n Hn => mat_result_added1 _ _ _ _ _ _ V m n Hm Hn)). rewrite integral_sum. apply integral_ext.
    intros p _. rewrite sum_n_scal, unity. ring. }
  split; auto. rewrite (sum_n_ext _ _ _ E), integral_sum. apply integral_ext. intros p _. rewrite sum_n_scal, unity. ring.
Qed.
(* the quadratic form of an integral *)
Lemma quad_integral n K (V : nat -> nat -> nat -> R) u : (forall k l, (k < n)%nat -> (l < n)%nat -> K k l = integral A (V k l)) ->
  quad_form n K u = integral A (fun p => sum_n n (fun k => sum_n n (fun l => u k * V k l p * u l))).
Proof.
  intros H. unfold quad_form. rewrite <- integral_sum. apply sum_n_ext. intros k Hk. rewrite <- integral_sum. apply sum_n_ext. intros l Hl.
  rewrite H by auto. rewrite <- integral_scal. unfold integral. rewrite <- sum_n_scal_r. reflexivity.
Qed.
Lemma mat_01_psd nr nc kk fn kk' q : is_matrix nr nc kk -> mat_01_nsn zdet A kk fn = Ok (kk', q) ->
  good_volumes A -> positive_jacobian A -> (forall p nn bb s, fn p nn bb = Ok s -> 0 <= s) -> psd nnode (mat_added A kk kk').
Proof.
  intros M H Gv Pj Ps u. apply (mat_01_form zdet A Hz W nr nc) in H as (_ & x & s & F & V); auto.
  rewrite (quad_integral _ _ _ u (mat_result_added1 _ _ _ _ _ _ V)). apply integral_nonneg. intros p Hp. destruct (F p Hp) as (G & Fs).
  rewrite (sum_n_ext _ _ (fun k => dvol A (fun p => fst (x p)) p * s p * (u k * N_of A p k) * sum_n nnode (fun l => N_of A p l * u l))).
  - rewrite sum_n_scal_r, sum_n_scal. rewrite (sum_n_ext nnode (fun k => u k * N_of A p k) (fun l => N_of A p l * u l)) by (intros; ring).
    set (z := sum_n _ _). apply Ps in Fs. pose proof (dvol_nonneg (fun p => fst (x p)) p Hp Gv (grad_facts_pos p _ Hp Pj G)).
    assert (0 <= z * z) by nra. rewrite Rmult_assoc. apply Rmult_le_pos; [apply Rmult_le_pos|]; auto.
  - intros k Hk. rewrite <- sum_n_scal. apply sum_n_ext. intros. ring.
Qed.

(** ** mat_03 *)
Lemma tensor2_sym T i j : tensor2 T i j = tensor2 T j i.
Proof.
  unfold tensor2. assert (E : mandel_index i j = mandel_index j i) by (destruct i as [|[|[|i]]], j as [|[|[|j]]]; reflexivity).
  rewrite E. unfold mandel_factor. now rewrite Nat.eqb_sym.
Qed.
Lemma mat_03_symmetric nr nc kk fn kk' q : is_matrix nr nc kk -> mat_03_btb zdet A kk fn = Ok (kk', q) -> symmetric nnode (mat_added A kk kk').
Proof.
  intros M H. apply (mat_03_form zdet A Hz W nr nc) in H as (_ & x & T & F & V); auto. intros k l Hk Hl.
  rewrite !(mat_result_added1 _ _ _ _ _ _ V) by auto. apply integral_ext. intros p Hp. f_equal.
  rewrite sum_n_swap. apply sum_n_ext. intros i _. apply sum_n_ext. intros j _. rewrite (tensor2_sym _ j i). ring.
Qed.
Lemma mat_03_rows nr nc kk fn kk' q : is_matrix nr nc kk -> mat_03_btb zdet A kk fn = Ok (kk', q) ->
  forall m, (m < nnode)%nat -> sum_n nnode (mat_added A kk kk' m) = 0.
Proof.
  intros M H m Hm. apply (mat_03_form zdet A Hz W nr nc) in H as (_ & x & T & F & V); auto.
  rewrite (sum_n_ext _ _ _ (fun n Hn => mat_result_added1 _ _ _ _ _ _ V m n Hm Hn)). rewrite integral_sum. apply integral_zero. intros p Hp.
  destruct (F p Hp) as (G & _). rewrite sum_n_scal, sum_n_swap, (sum_n_zero nd); [ring|]. intros i Hi. rewrite sum_n_swap. apply sum_n_zero. intros j Hj.
  rewrite sum_n_scal, (grad_facts_sum p) by auto. ring.
Qed.
Lemma mat_03_psd nr nc kk fn kk' q : is_matrix nr nc kk -> mat_03_btb zdet A kk fn = Ok (kk', q) ->
  good_volumes A -> positive_jacobian A -> (forall p nn bb T, fn p nn bb = Ok T -> psd nd (tensor2 T)) -> psd nnode (mat_added A kk kk').
Proof.
  intros M H Gv Pj Ps u. apply (mat_03_form zdet A Hz W nr nc) in H as (_ & x & T & F & V); auto.
  rewrite (quad_integral _ _ _ u (mat_result_added1 _ _ _ _ _ _ V)). apply integral_nonneg. intros p Hp. destruct (F p Hp) as (G & Fs).
  set (B := snd (x p)) in *. set (g := fun i => sum_n nnode (fun k => u k * ent B k i)).
  assert (E : sum_n nnode (fun k => sum_n nnode (fun l => u k * (dvol A (fun p => fst (x p)) p *
      sum_n nd (fun i => sum_n nd (fun j => ent B k i * tensor2 (T p) i j * ent B l j))) * u l)) = dvol A (fun p => fst (x p)) p * quad_form nd (tensor2 (T p)) g).
  { unfold quad_form, g. rewrite <- sum_n_scal.
    transitivity (sum_n nnode (fun k => sum_n nnode (fun l => sum_n nd (fun i => sum_n nd (fun j =>
       dvol A (fun p => fst (x p)) p * (u k * ent B k i) * tensor2 (T p) i j * (u l * ent B l j)))))).
    - apply sum_n_ext. intros k _. apply sum_n_ext. intros l _. rewrite (Rmult_comm (u k)), Rmult_assoc, Rmult_assoc, (Rmult_comm _ (u k * u l)), <- Rmult_assoc.
      rewrite <- sum_n_scal. apply sum_n_ext. intros i _. rewrite <- sum_n_scal. apply sum_n_ext. intros j _. ring.
    - rewrite (sum_n_ext nnode _ (fun k => sum_n nd (fun i => sum_n nnode (fun l => sum_n nd (fun j =>
       dvol A (fun p => fst (x p)) p * (u k * ent B k i) * tensor2 (T p) i j * (u l * ent B l j)))))) by (intros; apply sum_n_swap).
      rewrite sum_n_swap. apply sum_n_ext. intros i _. rewrite <- sum_n_scal.
      rewrite (sum_n_ext nnode _ (fun k => sum_n nd (fun j => sum_n nnode (fun l =>
       dvol A (fun p => fst (x p)) p * (u k * ent B k i) * tensor2 (T p) i j * (u l * ent B l j))))) by (intros; apply sum_n_swap).
      rewrite sum_n_swap. apply sum_n_ext. intros j _.
      rewrite (sum_n_ext nnode _ (fun k => u k * ent B k i * (dvol A (fun p => fst (x p)) p * tensor2 (T p) i j * sum_n nnode (fun l => u l * ent B l j)))).
      + rewrite sum_n_scal_r. ring.
      + intros k _. rewrite <- !sum_n_scal. apply sum_n_ext. intros; ring. }
  rewrite E. apply Rmult_le_pos; [apply dvol_nonneg; auto; now apply (grad_facts_pos p)|]. apply (Ps _ _ _ _ Fs).
Qed.
End Cons.
