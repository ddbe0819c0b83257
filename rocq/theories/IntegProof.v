(* Additions to vectors and matrices, and the loop over the integration points. *)
From Coq Require Import String Reals List Lia Lra Bool Arith.
From Verif Require Import Base BaseFacts Expr ShapesData Kind ShapesModel ShapesSpec ShapesProof GeomModel GeomProof PadModel PadSpec
  PadProof PadProof2 PadProof3 GaussModel GaussSpec IntegModel IntegSpec.
Import ListNotations.
Local Open Scope R_scope.

(** ** vectors *)
Definition vsum (k : nat) (c : list (nat * R)) : R := sum (map (fun e => if (fst e =? k)%nat then snd e else 0) c).
Definition msum (k l : nat) (c : list (nat * nat * R)) : R :=
  sum (map (fun e => if ((fst (fst e) =? k) && (snd (fst e) =? l))%nat then snd e else 0) c).

Lemma vec_add_at_ok l i x : (i < List.length l)%nat ->
  exists l', vec_add_at l i x = Ok l' /\ List.length l' = List.length l /\
    forall k, nth k l' 0 = nth k l 0 + (if (i =? k)%nat then x else 0).
Proof.
  intros H. unfold vec_add_at. rewrite (get_ok l i 0 H). cbn [bind]. rewrite set_ok by auto.
  eexists. split; [reflexivity|]. split; [apply upd_length|]. intros k. rewrite nth_upd by auto.
  destruct (Nat.eqb_spec i k) as [->|]; lra.
Qed.
Lemma vec_adds_ok c : forall l, (forall e, In e c -> (fst e < List.length l)%nat) ->
  exists l', vec_adds l c = Ok l' /\ List.length l' = List.length l /\ forall k, nth k l' 0 = nth k l 0 + vsum k c.
Proof.
  induction c as [|e c IH]; intros l H.
  - exists l. split; [reflexivity|]. split; auto. intros k. unfold vsum. cbn [map sum]. lra.
  - destruct (vec_add_at_ok l (fst e) (snd e)) as (l1 & E1 & L1 & V1); [apply H; simpl; auto|].
    destruct (IH l1) as (l2 & E2 & L2 & V2); [intros e' He'; rewrite L1; apply H; simpl; auto|].
    exists l2. split; [unfold vec_adds in *; cbn [foldM]; rewrite E1; exact E2|]. split; [congruence|].
    intros k. rewrite V2, V1. unfold vsum. cbn [map sum]. lra.
Qed.

(** ** matrices *)
Lemma ent_upd a i row k l : (i < List.length a)%nat -> ent (upd a i row) k l = if (i =? k)%nat then nth l row 0 else ent a k l.
Proof. intros H. unfold ent. rewrite nth_upd by auto. now destruct (i =? k)%nat. Qed.
Lemma is_matrix_row nr nc a i : is_matrix nr nc a -> (i < nr)%nat -> List.length (nth i a []) = nc.
Proof. intros [L F] H. rewrite Forall_forall in F. apply F, nth_In. lia. Qed.
Lemma is_matrix_upd nr nc a i row : is_matrix nr nc a -> List.length row = nc -> is_matrix nr nc (upd a i row).
Proof.
  intros [L F] R. split; [now rewrite upd_length|]. apply Forall_forall. intros x Hx.
  apply In_nth with (d := []) in Hx as (k & Hk & <-). rewrite upd_length in Hk.
  destruct (Nat.eq_dec i k) as [->|N]; [now rewrite nth_upd_same|]. rewrite nth_upd_other by auto.
  rewrite Forall_forall in F. apply F, nth_In. lia.
Qed.
Lemma mat_add_at_ok nr nc a i j x : is_matrix nr nc a -> (i < nr)%nat -> (j < nc)%nat ->
  exists a', mat_add_at a i j x = Ok a' /\ is_matrix nr nc a' /\
    forall k l, ent a' k l = ent a k l + (if ((i =? k) && (j =? l))%nat then x else 0).
Proof.
  intros M Hi Hj. pose proof (is_matrix_row _ _ _ _ M Hi) as L. assert (Li : (i < List.length a)%nat) by (destruct M; lia).
  unfold mat_add_at. rewrite (get_ok a i [] Li). cbn [bind].
  destruct (vec_add_at_ok (nth i a []) j x) as (r & E & Lr & V); [lia|]. rewrite E. cbn [bind].
  rewrite set_ok by auto. eexists. split; [reflexivity|]. split; [apply is_matrix_upd; auto; congruence|].
  intros k l. rewrite ent_upd by auto. destruct (Nat.eqb_spec i k) as [->|N]; cbn [andb]; [apply V|lra].
Qed.
Lemma mat_adds_ok nr nc c : forall a, is_matrix nr nc a ->
  (forall e, In e c -> (fst (fst e) < nr)%nat /\ (snd (fst e) < nc)%nat) ->
  exists a', mat_adds a c = Ok a' /\ is_matrix nr nc a' /\ forall k l, ent a' k l = ent a k l + msum k l c.
Proof.
  induction c as [|e c IH]; intros a M H.
  - exists a. split; [reflexivity|]. split; auto. intros k l. unfold msum. cbn [map sum]. lra.
  - destruct (H e ltac:(simpl; auto)) as [H1 H2].
    destruct (mat_add_at_ok nr nc a (fst (fst e)) (snd (fst e)) (snd e) M H1 H2) as (a1 & E1 & M1 & V1).
    destruct (IH a1 M1) as (a2 & E2 & M2 & V2); [intros e' He'; apply H; simpl; auto|].
    exists a2. split; [unfold mat_adds in *; cbn [foldM]; rewrite E1; exact E2|]. split; auto.
    intros k l. rewrite V2, V1. unfold msum. cbn [map sum]. lra.
Qed.

Lemma vec_zero_length l : List.length (vec_zero l) = List.length l.
Proof. apply map_length. Qed.
Lemma vec_zero_nth l k : nth k (vec_zero l) 0 = 0.
Proof. revert k. induction l as [|x l IH]; intros [|k]; simpl; auto. Qed.
Lemma mat_zero_matrix nr nc a : is_matrix nr nc a -> is_matrix nr nc (mat_zero a).
Proof.
  intros [L F]. split; [unfold mat_zero; now rewrite map_length|]. unfold mat_zero. rewrite Forall_map.
  eapply Forall_impl; [|exact F]. intros r Hr. cbn. now rewrite vec_zero_length.
Qed.
Lemma mat_zero_ent a k l : ent (mat_zero a) k l = 0.
Proof.
  unfold ent, mat_zero. destruct (le_lt_dec (List.length a) k) as [H|H].
  - rewrite (nth_overflow (map vec_zero a)) by now rewrite map_length. now destruct l.
  - rewrite (nth_map_in vec_zero a k []) by auto. apply vec_zero_nth.
Qed.
Lemma vec_start_nth A a k : nth k (vec_start A a) 0 = vec_base A a k.
Proof. unfold vec_start, vec_base. destruct (a_clear A); auto. apply vec_zero_nth. Qed.
Lemma vec_start_length A a : List.length (vec_start A a) = List.length a.
Proof. unfold vec_start. destruct (a_clear A); auto. apply vec_zero_length. Qed.
Lemma mat_start_ent A a k l : ent (mat_start A a) k l = mat_base A a k l.
Proof. unfold mat_start, mat_base. destruct (a_clear A); auto. apply mat_zero_ent. Qed.
Lemma mat_start_matrix A nr nc a : is_matrix nr nc a -> is_matrix nr nc (mat_start A a).
Proof. unfold mat_start. destruct (a_clear A); auto. apply mat_zero_matrix. Qed.
Lemma is_matrix_dims nr nc a : is_matrix nr nc a -> (0 < nr)%nat -> nrow a = nr /\ ncol a = nc.
Proof. intros [L F] H. split; auto. destruct a as [|r a]; [simpl in L; lia|]. now inversion F. Qed.

(** ** blocks of additions *)
Lemma sum_flat_map' {A} (f : A -> list R) l : sum (flat_map f l) = sum (map (fun x => sum (f x)) l).
Proof. induction l; cbn [flat_map map sum]; auto. rewrite PadProof.sum_app. now f_equal. Qed.
Lemma map_flat_map {A B C} (f : A -> list B) (g : B -> C) l : map g (flat_map f l) = flat_map (fun x => map g (f x)) l.
Proof. induction l; cbn [flat_map map]; auto. rewrite map_app. now f_equal. Qed.

Definition vblock (ii0 M ni : nat) (V : nat -> nat -> R) : list (nat * R) :=
  flat_map (fun m => map (fun i => ((ii0 + i + m * ni)%nat, V m i)) (seq 0 ni)) (seq 0 M).
Definition mblock (ii0 jj0 M ni N nj : nat) (V : nat -> nat -> nat -> nat -> R) : list (nat * nat * R) :=
  for_mn M N (fun m n => flat_map (fun i => map (fun j => ((ii0 + i + m * ni, jj0 + j + n * nj)%nat, V m i n j)) (seq 0 nj)) (seq 0 ni)).

Lemma vsum_block k ii0 M ni V :
  vsum k (vblock ii0 M ni V) = sum_n M (fun m => sum_n ni (fun i => if (ii0 + i + m * ni =? k)%nat then V m i else 0)).
Proof.
  unfold vsum, vblock. rewrite map_flat_map, sum_flat_map'. unfold sum_n. f_equal. apply map_ext. intros m.
  rewrite map_map. reflexivity.
Qed.
Lemma msum_block k l ii0 jj0 M ni N nj V :
  msum k l (mblock ii0 jj0 M ni N nj V) =
  sum_n M (fun m => sum_n N (fun n => sum_n ni (fun i => sum_n nj (fun j =>
    if ((ii0 + i + m * ni =? k) && (jj0 + j + n * nj =? l))%nat then V m i n j else 0)))).
Proof.
  unfold msum, mblock, for_mn. rewrite map_flat_map, sum_flat_map'. unfold sum_n. f_equal. apply map_ext. intros m.
  rewrite map_flat_map, sum_flat_map'. f_equal. apply map_ext. intros n.
  rewrite map_flat_map, sum_flat_map'. f_equal. apply map_ext. intros i. rewrite map_map. reflexivity.
Qed.

Lemma place_inj ni i m i' m' : (i < ni)%nat -> (i' < ni)%nat -> (i + m * ni = i' + m' * ni)%nat -> i = i' /\ m = m'.
Proof.
  intros H H' E. assert (m = m') by nia. subst. split; lia.
Qed.
(* a sum with a single term *)
Lemma sum_n_single n f i : (i < n)%nat -> (forall j, (j < n)%nat -> j <> i -> f j = 0) -> sum_n n f = f i.
Proof.
  intros H Z. rewrite (sum_n_ext n f (fun j => delta i j * f i)).
  - rewrite (sum_n_delta n i (fun _ => f i)); auto.
  - intros j Hj. unfold delta. destruct (Nat.eqb_spec i j) as [->|N]; [ring|]. rewrite Z by auto. ring.
Qed.
Lemma vsum_in ii0 M ni V m i : (m < M)%nat -> (i < ni)%nat -> vsum (ii0 + i + m * ni) (vblock ii0 M ni V) = V m i.
Proof.
  intros Hm Hi. rewrite vsum_block. rewrite (sum_n_single M _ m); auto.
  - rewrite (sum_n_single ni _ i); auto; [now rewrite Nat.eqb_refl|].
    intros j Hj N. destruct (Nat.eqb_spec (ii0 + j + m * ni) (ii0 + i + m * ni)); [lia|auto].
  - intros m' Hm' N. apply sum_n_zero. intros i' Hi'. destruct (Nat.eqb_spec (ii0 + i' + m' * ni) (ii0 + i + m * ni)) as [E|]; auto.
    destruct (place_inj ni i' m' i m); try lia.
Qed.
Lemma vsum_out ii0 M ni V k : (k < ii0)%nat \/ (ii0 + M * ni <= k)%nat -> vsum k (vblock ii0 M ni V) = 0.
Proof.
  intros H. rewrite vsum_block. apply sum_n_zero. intros m Hm. apply sum_n_zero. intros i Hi.
  destruct (Nat.eqb_spec (ii0 + i + m * ni) k); auto. exfalso. nia.
Qed.
Lemma msum_in ii0 jj0 M ni N nj V m i n j : (m < M)%nat -> (i < ni)%nat -> (n < N)%nat -> (j < nj)%nat ->
  msum (ii0 + i + m * ni) (jj0 + j + n * nj) (mblock ii0 jj0 M ni N nj V) = V m i n j.
Proof.
  intros Hm Hi Hn Hj. rewrite msum_block. rewrite (sum_n_single M _ m); auto.
  - rewrite (sum_n_single N _ n); auto.
    + rewrite (sum_n_single ni _ i); auto.
      * rewrite (sum_n_single nj _ j); auto; [now rewrite !Nat.eqb_refl|].
        intros j' Hj' D. destruct (Nat.eqb_spec (jj0 + j' + n * nj) (jj0 + j + n * nj)); [lia|now rewrite andb_false_r].
      * intros i' Hi' D. apply sum_n_zero. intros j' Hj'.
        destruct (Nat.eqb_spec (ii0 + i' + m * ni) (ii0 + i + m * ni)); [lia|reflexivity].
    + intros n' Hn' D. apply sum_n_zero. intros i' Hi'. apply sum_n_zero. intros j' Hj'.
      destruct (Nat.eqb_spec (jj0 + j' + n' * nj) (jj0 + j + n * nj)); [|now rewrite andb_false_r].
      destruct (place_inj nj j' n' j n); try lia.
  - intros m' Hm' D. apply sum_n_zero. intros n' Hn'. apply sum_n_zero. intros i' Hi'. apply sum_n_zero. intros j' Hj'.
    destruct (Nat.eqb_spec (ii0 + i' + m' * ni) (ii0 + i + m * ni)); [|reflexivity].
    destruct (place_inj ni i' m' i m); try lia.
Qed.
Lemma msum_out ii0 jj0 M ni N nj V k l :
  (k < ii0)%nat \/ (ii0 + M * ni <= k)%nat \/ (l < jj0)%nat \/ (jj0 + N * nj <= l)%nat ->
  msum k l (mblock ii0 jj0 M ni N nj V) = 0.
Proof.
  intros H. rewrite msum_block. apply sum_n_zero. intros m Hm. apply sum_n_zero. intros n Hn.
  apply sum_n_zero. intros i Hi. apply sum_n_zero. intros j Hj.
  destruct (Nat.eqb_spec (ii0 + i + m * ni) k); auto. destruct (Nat.eqb_spec (jj0 + j + n * nj) l); auto. exfalso. nia.
Qed.
Lemma vblock_bound ii0 M ni V e : In e (vblock ii0 M ni V) -> (fst e < ii0 + M * ni)%nat.
Proof.
  unfold vblock. rewrite in_flat_map. intros (m & Hm & H). apply in_map_iff in H as (i & <- & Hi).
  apply in_seq in Hm, Hi. cbn [fst]. nia.
Qed.
Lemma mblock_bound ii0 jj0 M ni N nj V e : In e (mblock ii0 jj0 M ni N nj V) ->
  (fst (fst e) < ii0 + M * ni)%nat /\ (snd (fst e) < jj0 + N * nj)%nat.
Proof.
  unfold mblock, for_mn. rewrite in_flat_map. intros (m & Hm & H). rewrite in_flat_map in H. destruct H as (n & Hn & H).
  rewrite in_flat_map in H. destruct H as (i & Hi & H). apply in_map_iff in H as (j & <- & Hj).
  apply in_seq in Hm, Hn, Hi, Hj. cbn [fst snd]. nia.
Qed.

(** ** the loop *)
Definition iota4 (g : gauss) (p : nat) : list R := [pt g p 0; pt g p 1; pt g p 2; wt g p].
Lemma g_coords_ok g p : (p < npoint g)%nat -> g_coords g p = Ok (iota4 g p).
Proof.
  intros H. unfold iota4, pt, wt, g_coords, g_weight. rewrite (get_ok _ p ((0, 0, 0, 0)%Z)) by exact H.
  cbn [bind]. destruct (nth p (g_data g) _) as [[[a b] c] w]. reflexivity.
Qed.
Lemma g_weight_ok g p : (p < npoint g)%nat -> g_weight g p = Ok (wt g p).
Proof.
  intros H. unfold wt, g_weight. rewrite (get_ok _ p ((0, 0, 0, 0)%Z)) by exact H.
  cbn [bind]. destruct (nth p (g_data g) _) as [[[a b] c] w]. reflexivity.
Qed.

Lemma same_interp p q v : same_element p q -> same_element p (with_interp q v).
Proof. unfold same_element. simpl. tauto. Qed.

Section Loop.
Context {X S : Type}.
Variable eval : pad -> list R -> res (X * pad).
Variable body : nat -> list R -> R -> list R -> X -> pad -> S -> res S.
Variable g : gauss.
Variable p0 : pad.
Variable Q : nat -> X -> Prop.
Hypothesis eval_same : forall pd p x q, (p < npoint g)%nat -> same_element p0 pd -> eval pd (iota4 g p) = Ok (x, q) ->
  same_element p0 q /\ Q p x.

Definition step_rel (x : nat -> X) (st : nat -> S) (p : nat) : Prop :=
  Q p (x p) /\ exists pd, same_element p0 pd /\
    body p (iota4 g p) (wt g p) (calc_interp (p_kind p0) (iota4 g p)) (x p) pd (st p) = Ok (st (Datatypes.S p)).

Lemma loop_run (dx : X) s0 s' q : gauss_loop eval body g p0 s0 = Ok (s', q) ->
  same_element p0 q /\ exists x st, st 0%nat = s0 /\ st (npoint g) = s' /\ forall p, (p < npoint g)%nat -> step_rel x st p.
Proof.
  unfold gauss_loop. match goal with |- foldM ?F _ _ = _ -> _ => set (f := F) end.
  assert (G : forall n s' q, (n <= npoint g)%nat -> foldM f (seq 0 n) (s0, p0) = Ok (s', q) ->
    same_element p0 q /\ exists x st, st 0%nat = s0 /\ st n = s' /\ forall p, (p < n)%nat -> step_rel x st p).
  2:{ apply G. lia. }
  clear s' q. induction n as [|n IH]; intros s' q K H.
  - cbn [seq foldM] in H. injection H as <- <-. split; [apply same_refl|]. exists (fun _ => dx), (fun _ => s0).
    split; auto. split; auto. intros p Hp. lia.
  - rewrite seq_S, foldM_app in H. apply bind_ok in H as ([s1 q1] & H1 & H2).
    destruct (IH s1 q1 ltac:(lia) H1) as (S1 & x & st & E0 & E1 & R). cbn [foldM Nat.add] in H2. unfold f in H2.
    rewrite g_coords_ok, g_weight_ok in H2 by lia. cbn [bind fst snd] in H2.
    replace (p_kind q1) with (p_kind p0) in H2 by (destruct S1; congruence).
    destruct (eval _ _) as [[x1 q2]| | |] eqn:E; cbn [bind fst snd] in H2; try discriminate.
    destruct (eval_same (with_interp q1 (calc_interp (p_kind p0) (iota4 g n))) n x1 q2) as (S2 & Q2); [lia|now apply same_interp|exact E|].
    destruct (body _ _ _ _ _ _ _) as [s2| | |] eqn:B; cbn [bind] in H2; try discriminate. injection H2 as <- <-.
    split; auto. exists (fun p => if (p =? n)%nat then x1 else x p), (fun p => if (p =? Datatypes.S n)%nat then s2 else st p).
    split; [exact E0|]. split; [now rewrite Nat.eqb_refl|]. intros p Hp.
    assert (C : p = n \/ (p < n)%nat) by lia. unfold step_rel. destruct C as [->|C].
    + rewrite Nat.eqb_refl. split; auto. exists q2. split; auto. rewrite Nat.eqb_refl.
      destruct (Nat.eqb_spec n (Datatypes.S n)); [lia|]. now rewrite E1.
    + destruct (R p C) as (A1 & pd & A2 & A3). destruct (Nat.eqb_spec p n); [lia|].
      destruct (Nat.eqb_spec p (Datatypes.S n)); [lia|]. destruct (Nat.eqb_spec (Datatypes.S p) (Datatypes.S n)); [lia|]. split; eauto.
Qed.
End Loop.

(** the loop does not depend on coordinates beyond the dimension of the reference cell *)
Lemma ksi_coord A p i : (i < kind_ndim (p_kind (a_pad A)))%nat -> nth i (iota4 (a_gauss A) p) 0 = nth i (ksi_at A p) 0.
Proof.
  intros Hi. unfold ksi_at. rewrite (nth_map_seq (pt (a_gauss A) p)) by auto.
  pose proof (kind_ndim_le3 (p_kind (a_pad A))). destruct i as [|[|[|i]]]; auto. lia.
Qed.
Lemma interp_ksi A p : calc_interp (p_kind (a_pad A)) (iota4 (a_gauss A) p) = N_p A p.
Proof. unfold N_p, calc_interp. apply map_eval_below. exact (ksi_coord A p). Qed.
Lemma deriv_coords k a b : (forall i, (i < kind_ndim k)%nat -> nth i a 0 = nth i b 0) -> calc_deriv k a = calc_deriv k b.
Proof.
  intros H. unfold calc_deriv. apply map_ext_in. intros r Hr. apply map_ext_in. intros e He.
  eapply eval_below; [exact H|]. pose proof (kind_deriv_below k) as B. rewrite forallb_forall in B.
  specialize (B r Hr). rewrite forallb_forall in B. auto.
Qed.
Lemma deriv_ksi A p : calc_deriv (p_kind (a_pad A)) (iota4 (a_gauss A) p) = calc_deriv (p_kind (a_pad A)) (ksi_at A p).
Proof. apply deriv_coords. apply ksi_coord. Qed.
Lemma ksi_at_length A p : List.length (ksi_at A p) = kind_ndim (p_kind (a_pad A)).
Proof. unfold ksi_at. now rewrite map_length, seq_length. Qed.
