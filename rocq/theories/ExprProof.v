(* Polynomial normal forms of [expr], a decision procedure for identities valid at every real
   point, symbolic differentiation and substitution.  Nothing here models code; it is the proof
   machinery for the shape-function theorems. *)
From Coq Require Import Reals QArith Qreals List Lia Lra Bool Arith.
From Verif Require Import Expr.
Import ListNotations.

Local Arguments Qred : simpl never.
Local Arguments Qplus : simpl never.
Local Arguments Qmult : simpl never.
Local Arguments Q2R : simpl never.
Local Arguments Qinv : simpl never.

(** ** Monomials: list of exponents *)
Definition mono := list nat.
Definition poly := list (mono * Q).

Fixpoint mmul (a b : mono) : mono :=
  match a, b with
  | [], _ => b
  | _, [] => a
  | x :: a', y :: b' => (x + y)%nat :: mmul a' b'
  end.

Fixpoint meval (ksi : nat -> R) (i : nat) (m : mono) : R :=
  match m with
  | [] => 1%R
  | e :: m' => (ksi i ^ e * meval ksi (S i) m')%R
  end.

Definition peval (ksi : nat -> R) (p : poly) : R :=
  fold_right (fun t acc => (Q2R (snd t) * meval ksi 0 (fst t) + acc)%R) 0%R p.

Fixpoint meqb (a b : mono) : bool :=
  match a, b with
  | [], [] => true
  | x :: a', y :: b' => Nat.eqb x y && meqb a' b'
  | _, _ => false
  end.

Fixpoint padd1 (t : mono * Q) (p : poly) : poly :=
  match p with
  | [] => [t]
  | u :: p' => if meqb (fst t) (fst u) then (fst u, Qred (snd t + snd u)) :: p'
               else u :: padd1 t p'
  end.

Definition padd (p q : poly) : poly := fold_right padd1 q p.
Definition pscale (c : Q) (p : poly) : poly := map (fun t => (fst t, Qred (c * snd t))) p.
Definition pmul1 (t : mono * Q) (p : poly) : poly :=
  map (fun u => (mmul (fst t) (fst u), Qred (snd t * snd u))) p.
Definition pmul (p q : poly) : poly := fold_right (fun t acc => padd (pmul1 t q) acc) [] p.
Definition pclean (p : poly) : poly := filter (fun t => negb (Qeq_bool (snd t) 0)) p.

Local Arguments pclean : simpl never.

Fixpoint norm (e : expr) : option poly :=
  match e with
  | X i => Some [(repeat 0%nat i ++ [1%nat], 1%Q)]
  | C q => Some (pclean [([], q)])
  | Add a b => match norm a, norm b with Some p, Some q => Some (pclean (padd p q)) | _, _ => None end
  | Sub a b => match norm a, norm b with
               | Some p, Some q => Some (pclean (padd p (pscale (-1) q))) | _, _ => None end
  | Mul a b => match norm a, norm b with Some p, Some q => Some (pclean (pmul p q)) | _, _ => None end
  | Neg a => match norm a with Some p => Some (pscale (-1) p) | None => None end
  | DivC a q => if Qeq_bool q 0 then None
                else match norm a with Some p => Some (pscale (/ q) p) | None => None end
  end.

Definition pzero (p : poly) : bool := forallb (fun t => Qeq_bool (snd t) 0) p.
Definition is_zero (e : expr) : bool := match norm e with Some p => pzero p | None => false end.
Definition expr_eqb (a b : expr) : bool := is_zero (Sub a b).

Lemma Q2R_red q : Q2R (Qred q) = Q2R q.
Proof. apply Qeq_eqR, Qred_correct. Qed.

Lemma meval_mmul ksi a : forall b i, meval ksi i (mmul a b) = (meval ksi i a * meval ksi i b)%R.
Proof.
  induction a as [|x a IH]; intros [|y b] i; simpl; try ring.
  rewrite IH, pow_add. ring.
Qed.

Lemma meqb_eq a : forall b, meqb a b = true -> a = b.
Proof.
  induction a as [|x a IH]; intros [|y b]; simpl; try discriminate; auto.
  rewrite andb_true_iff, Nat.eqb_eq. intros [-> H]. f_equal; auto.
Qed.

Lemma meval_var ksi i : forall j, meval ksi j (repeat 0%nat i ++ [1%nat]) = ksi (j + i)%nat.
Proof.
  induction i as [|i IH]; intros j; simpl.
  - rewrite Nat.add_0_r. ring.
  - rewrite IH. replace (S j + i)%nat with (j + S i)%nat by lia. ring.
Qed.

Lemma peval_padd1 ksi t p : peval ksi (padd1 t p) = (Q2R (snd t) * meval ksi 0 (fst t) + peval ksi p)%R.
Proof.
  induction p as [|u p IH]; simpl; [reflexivity|].
  destruct (meqb (fst t) (fst u)) eqn:E; simpl.
  - apply meqb_eq in E. rewrite Q2R_red, Q2R_plus, E. ring.
  - fold (peval ksi (padd1 t p)). rewrite IH. fold (peval ksi p). ring.
Qed.

Lemma peval_padd ksi p q : peval ksi (padd p q) = (peval ksi p + peval ksi q)%R.
Proof.
  induction p as [|t p IH]; simpl; [ring|].
  rewrite peval_padd1. fold (padd p q). rewrite IH. fold (peval ksi p). ring.
Qed.

Lemma peval_pscale ksi c p : peval ksi (pscale c p) = (Q2R c * peval ksi p)%R.
Proof.
  induction p as [|t p IH]; simpl; [ring|].
  fold (pscale c p) (peval ksi (pscale c p)) (peval ksi p). rewrite IH, Q2R_red, Q2R_mult. ring.
Qed.

Lemma peval_pmul1 ksi t p :
  peval ksi (pmul1 t p) = (Q2R (snd t) * meval ksi 0 (fst t) * peval ksi p)%R.
Proof.
  induction p as [|u p IH]; simpl; [ring|].
  fold (pmul1 t p) (peval ksi (pmul1 t p)) (peval ksi p).
  rewrite IH, Q2R_red, Q2R_mult, meval_mmul. ring.
Qed.

Lemma peval_pmul ksi p q : peval ksi (pmul p q) = (peval ksi p * peval ksi q)%R.
Proof.
  induction p as [|t p IH]; simpl; [ring|].
  rewrite peval_padd. fold (pmul p q). rewrite IH, peval_pmul1. fold (peval ksi p). ring.
Qed.

Lemma peval_pclean ksi p : peval ksi (pclean p) = peval ksi p.
Proof.
  induction p as [|t p IH]; unfold pclean; simpl; [reflexivity|].
  destruct (Qeq_bool (snd t) 0) eqn:E; simpl; fold (pclean p); fold (peval ksi (pclean p)) (peval ksi p);
    rewrite IH; [|reflexivity].
  apply Qeq_bool_iff in E. apply Qeq_eqR in E. rewrite E, RMicromega.Q2R_0. ring.
Qed.

Lemma Q2R_m1 : Q2R (-1) = (-1)%R.
Proof. unfold Q2R; simpl; lra. Qed.

Lemma norm_sound ksi e : forall p, norm e = Some p -> eval ksi e = peval ksi p.
Proof.
  induction e; simpl; intros p.
  - intros [= <-]. simpl. rewrite meval_var. simpl. rewrite RMicromega.Q2R_1. ring.
  - intros [= <-]. rewrite peval_pclean. simpl. ring.
  - destruct (norm e1), (norm e2); try discriminate. intros [= <-].
    rewrite peval_pclean, peval_padd, (IHe1 _ eq_refl), (IHe2 _ eq_refl). reflexivity.
  - destruct (norm e1), (norm e2); try discriminate. intros [= <-].
    rewrite peval_pclean, peval_padd, peval_pscale, (IHe1 _ eq_refl), (IHe2 _ eq_refl), Q2R_m1. ring.
  - destruct (norm e1), (norm e2); try discriminate. intros [= <-].
    rewrite peval_pclean, peval_pmul, (IHe1 _ eq_refl), (IHe2 _ eq_refl). reflexivity.
  - destruct (norm e); try discriminate. intros [= <-].
    rewrite peval_pscale, (IHe _ eq_refl), Q2R_m1. ring.
  - destruct (Qeq_bool q 0) eqn:E; try discriminate.
    destruct (norm e); try discriminate. intros [= <-].
    rewrite peval_pscale, (IHe _ eq_refl), Q2R_inv.
    + unfold Rdiv. ring.
    + intros H. apply Qeq_bool_neq in E. auto.
Qed.

Lemma pzero_sound ksi p : pzero p = true -> peval ksi p = 0%R.
Proof.
  induction p as [|t p IH]; simpl; auto.
  rewrite andb_true_iff. intros [H1 H2]. apply Qeq_bool_iff, Qeq_eqR in H1.
  fold (peval ksi p). rewrite IH, H1, RMicromega.Q2R_0 by assumption. ring.
Qed.

Lemma is_zero_sound ksi e : is_zero e = true -> eval ksi e = 0%R.
Proof.
  unfold is_zero. destruct (norm e) as [p|] eqn:E; try discriminate.
  intros H. rewrite (norm_sound _ _ _ E). apply pzero_sound, H.
Qed.

Lemma expr_eqb_sound ksi a b : expr_eqb a b = true -> eval ksi a = eval ksi b.
Proof. intros H. apply (is_zero_sound ksi) in H. simpl in H. lra. Qed.

(** ** Differentiation *)
Fixpoint D (j : nat) (e : expr) : expr :=
  match e with
  | X i => if Nat.eqb i j then C 1 else C 0
  | C _ => C 0
  | Add a b => Add (D j a) (D j b)
  | Sub a b => Sub (D j a) (D j b)
  | Mul a b => Add (Mul (D j a) b) (Mul a (D j b))
  | Neg a => Neg (D j a)
  | DivC a q => DivC (D j a) q
  end.

Definition set_var (ksi : nat -> R) (j : nat) (x : R) : nat -> R :=
  fun i => if Nat.eqb i j then x else ksi i.

Lemma eval_ext f g e : (forall i, f i = g i) -> eval f e = eval g e.
Proof. intros H. induction e; simpl; congruence. Qed.

Lemma set_var_same ksi j i : set_var ksi j (ksi j) i = ksi i.
Proof. unfold set_var. destruct (Nat.eqb_spec i j); subst; auto. Qed.

Lemma eval_set_var_same ksi j e : eval (set_var ksi j (ksi j)) e = eval ksi e.
Proof. apply eval_ext, set_var_same. Qed.

Lemma D_correct ksi j e :
  derivable_pt_lim (fun x => eval (set_var ksi j x) e) (ksi j) (eval ksi (D j e)).
Proof.
  induction e; simpl.
  - unfold set_var. destruct (Nat.eqb i j); simpl.
    + rewrite RMicromega.Q2R_1. apply derivable_pt_lim_id.
    + rewrite RMicromega.Q2R_0. apply derivable_pt_lim_const.
  - rewrite RMicromega.Q2R_0. apply derivable_pt_lim_const.
  - apply (derivable_pt_lim_plus (fun x => eval (set_var ksi j x) e1) (fun x => eval (set_var ksi j x) e2)); auto.
  - apply (derivable_pt_lim_minus (fun x => eval (set_var ksi j x) e1) (fun x => eval (set_var ksi j x) e2)); auto.
  - pose proof (derivable_pt_lim_mult (fun x => eval (set_var ksi j x) e1)
      (fun x => eval (set_var ksi j x) e2) _ _ _ IHe1 IHe2) as H.
    cbv beta in H. rewrite !eval_set_var_same in H. exact H.
  - apply (derivable_pt_lim_opp (fun x => eval (set_var ksi j x) e)); auto.
  - pose proof (derivable_pt_lim_scal (fun x => eval (set_var ksi j x) e) (/ Q2R q) _ _ IHe) as H.
    unfold Rdiv. rewrite Rmult_comm.
    intros eps Heps. destruct (H eps Heps) as [d Hd]. exists d. intros h Hh1 Hh2.
    specialize (Hd h Hh1 Hh2). unfold mult_real_fct in Hd.
    rewrite !(Rmult_comm _ (/ Q2R q)). exact Hd.
Qed.

(** ** Substitution *)
Fixpoint subst (s : nat -> expr) (e : expr) : expr :=
  match e with
  | X i => s i
  | C q => C q
  | Add a b => Add (subst s a) (subst s b)
  | Sub a b => Sub (subst s a) (subst s b)
  | Mul a b => Mul (subst s a) (subst s b)
  | Neg a => Neg (subst s a)
  | DivC a q => DivC (subst s a) q
  end.

Lemma eval_subst ksi s e : eval ksi (subst s e) = eval (fun i => eval ksi (s i)) e.
Proof. induction e; simpl; congruence. Qed.

(** ** Sums *)
Definition esum (l : list expr) : expr := fold_right Add (C 0) l.
Definition Rsum (l : list R) : R := fold_right Rplus 0%R l.

Lemma eval_esum ksi l : eval ksi (esum l) = Rsum (map (eval ksi) l).
Proof. induction l; simpl; [apply RMicromega.Q2R_0|congruence]. Qed.
