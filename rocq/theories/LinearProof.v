(* Linear equations: as many equations as unknowns, and no non-zero solution without right-hand side, have a solution *)
From Coq Require Import Reals List Lia Lra Arith.
From Verif Require Import Base ShapesModel ShapesSpec PadModel PadSpec PadProof.
Local Open Scope R_scope.

Lemma zero_or n (f : nat -> R) : (forall r, (r < n)%nat -> f r = 0) \/ exists r, (r < n)%nat /\ f r <> 0.
Proof.
  induction n as [|n [IH|(j & Hj & IH)]]; [left; intros; lia| |right; exists j; split; [lia|auto]].
  destruct (Req_dec (f n) 0) as [E|E]; [left|right; exists n; auto]. intros j Hj. destruct (Nat.eq_dec j n) as [->|]; auto. apply IH. lia.
Qed.
(* fewer equations than unknowns *)
Lemma underdetermined n : forall a : nat -> nat -> R, exists x, (exists k, (k < S n)%nat /\ x k <> 0) /\ forall r, (r < n)%nat -> sum_n (S n) (fun k => a r k * x k) = 0.
Proof.
  induction n as [|n IH]; intros a.
  - exists (fun _ => 1). split; [exists 0%nat; split; [lia|lra]|intros; lia].
  - destruct (zero_or (S n) (fun r => a r (S n))) as [Z|(r0 & Hr0 & P)].
    + exists (fun k => if (k =? S n)%nat then 1 else 0). split; [exists (S n); rewrite Nat.eqb_refl; split; [lia|lra]|].
      intros r Hr. apply sum_n_zero. intros k Hk. destruct (Nat.eqb_spec k (S n)) as [->|]; [rewrite Z by auto; ring|ring].
    + set (sk := fun r => if (r <? r0)%nat then r else S r).
      destruct (IH (fun r k => a (sk r) k - a (sk r) (S n) / a r0 (S n) * a r0 k)) as (y & (k & Hk & Ny) & E).
      set (last := - sum_n (S n) (fun k => a r0 k * y k) / a r0 (S n)).
      exists (fun k => if (k <? S n)%nat then y k else last). split.
      * exists k. split; [lia|]. apply Nat.ltb_lt in Hk. now rewrite Hk.
      * assert (Sp : forall r, sum_n (S (S n)) (fun k => a r k * (if (k <? S n)%nat then y k else last)) = sum_n (S n) (fun k => a r k * y k) + a r (S n) * last).
        { intros r. rewrite sum_n_S, Nat.ltb_irrefl. f_equal. apply sum_n_ext. intros j Hj. apply Nat.ltb_lt in Hj. now rewrite Hj. }
        intros r Hr. rewrite Sp. destruct (Nat.eq_dec r r0) as [->|Ne]; [unfold last; field; exact P|].
        set (r' := if (r <? r0)%nat then r else pred r).
        assert (Er : sk r' = r).
        { unfold sk, r'. destruct (Nat.ltb_spec r r0) as [L|L]; [apply Nat.ltb_lt in L; now rewrite L|]. destruct (Nat.ltb_spec (pred r) r0); lia. }
        assert (Hr' : (r' < n)%nat) by (unfold r'; destruct (Nat.ltb_spec r r0); lia).
        specialize (E r' Hr'). cbn beta in E. rewrite Er in E.
        rewrite (sum_n_ext _ _ (fun k => a r k * y k + - (a r (S n) / a r0 (S n)) * (a r0 k * y k))) in E by (intros; ring).
        rewrite sum_n_plus, sum_n_scal in E. unfold last. rewrite <- E at 1. field. exact P.
Qed.
Lemma square_solvable n (a : nat -> nat -> R) : (forall x, (forall r, (r < n)%nat -> sum_n n (fun k => a r k * x k) = 0) -> forall k, (k < n)%nat -> x k = 0) ->
  forall b, exists x, forall r, (r < n)%nat -> sum_n n (fun k => a r k * x k) = b r.
Proof.
  intros Inj b. destruct (underdetermined n (fun r k => if (k <? n)%nat then a r k else - b r)) as (x & (k & Hk & Nx) & E).
  assert (E' : forall r, (r < n)%nat -> sum_n n (fun k => a r k * x k) = x n * b r).
  { intros r Hr. specialize (E r Hr). rewrite sum_n_S, Nat.ltb_irrefl in E.
    rewrite (sum_n_ext n _ (fun k => a r k * x k)) in E by (intros j Hj; apply Nat.ltb_lt in Hj; now rewrite Hj). lra. }
  assert (Nz : x n <> 0).
  { intros Z. apply Nx. destruct (Nat.eq_dec k n) as [->|Ne]; [exact Z|]. apply Inj; [|lia]. intros r Hr. rewrite (E' r Hr), Z. ring. }
  exists (fun k => x k / x n). intros r Hr. rewrite (sum_n_ext _ _ (fun k => / x n * (a r k * x k))) by (intros; field; auto).
  rewrite sum_n_scal, (E' r Hr). field. exact Nz.
Qed.
(* the same for a linear map that depends on the first n entries only *)
Lemma linear_solvable n (L : (nat -> R) -> nat -> R) :
  (forall u v r, (r < n)%nat -> L (fun k => u k + v k) r = L u r + L v r) -> (forall t u r, (r < n)%nat -> L (fun k => t * u k) r = t * L u r) ->
  (forall u v r, (r < n)%nat -> (forall k, (k < n)%nat -> u k = v k) -> L u r = L v r) ->
  (forall u, (forall r, (r < n)%nat -> L u r = 0) -> forall k, (k < n)%nat -> u k = 0) ->
  forall b, exists u, forall r, (r < n)%nat -> L u r = b r.
Proof.
  intros Add Scal Ext Inj b. set (e := fun j k : nat => if (k =? j)%nat then 1 else 0).
  assert (M : forall u r, (r < n)%nat -> L u r = sum_n n (fun k => L (e k) r * u k)).
  { intros u r Hr. assert (T : forall j, (j <= n)%nat -> L (fun k => if (k <? j)%nat then u k else 0) r = sum_n j (fun k => L (e k) r * u k)).
    { induction j as [|j IH]; intros Hj.
      - rewrite sum_n_0. rewrite (Ext _ (fun k => 0 * 0) r Hr) by (intros k _; destruct (Nat.ltb_spec k 0); [lia|ring]). rewrite (Scal 0 (fun _ => 0) r Hr). ring.
      - rewrite sum_n_S, <- IH by lia. rewrite (Rmult_comm (L (e j) r)), <- Scal by auto. rewrite <- Add by auto. apply Ext; auto. intros k _. unfold e.
        destruct (Nat.ltb_spec k (S j)), (Nat.ltb_spec k j), (Nat.eqb_spec k j); subst; try lia; ring. }
    rewrite <- (T n (le_n n)). apply Ext; auto. intros k Hk. apply Nat.ltb_lt in Hk. now rewrite Hk. }
  destruct (square_solvable n (fun r k => L (e k) r)) with (b := b) as (x & E).
  - intros x Hx. apply Inj. intros r Hr. rewrite (M x r Hr). now apply Hx.
  - exists x. intros r Hr. rewrite (M x r Hr). now apply E.
Qed.
