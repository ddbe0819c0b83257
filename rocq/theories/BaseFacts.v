(* Lemmas about Base.v *)
From Coq Require Import String List Arith Bool Lia Permutation Sorted.
From Verif Require Import Base.
Import ListNotations.

Lemma bind_ok {A B} (x : res A) (f : A -> res B) b :
  bind x f = Ok b -> exists a, x = Ok a /\ f a = Ok b.
Proof. destruct x; simpl; intros H; try discriminate. eauto. Qed.

Lemma get_ok {A} (l : list A) i d : i < List.length l -> get l i = Ok (nth i l d).
Proof. intros H. unfold get. rewrite (nth_error_nth' l d H). reflexivity. Qed.

Lemma get_inv {A} (l : list A) i a : get l i = Ok a -> i < List.length l /\ nth_error l i = Some a.
Proof.
  unfold get. destruct (nth_error l i) eqn:E; intros H; inversion H; subst. split; auto.
  apply nth_error_Some. congruence.
Qed.

Lemma upd_length {A} (l : list A) : forall i x, List.length (upd l i x) = List.length l.
Proof. induction l; intros [|i] x; simpl; auto. Qed.

Lemma nth_upd_same {A} (l : list A) : forall i x d, i < List.length l -> nth i (upd l i x) d = x.
Proof. induction l; intros [|i] x d H; simpl in *; try lia; auto. apply IHl. lia. Qed.

Lemma nth_upd_other {A} (l : list A) : forall i j x d, i <> j -> nth j (upd l i x) d = nth j l d.
Proof. induction l; intros [|i] [|j] x d H; simpl in *; auto; try lia; auto. Qed.

Lemma nth_upd {A} (l : list A) i j x d :
  i < List.length l -> nth j (upd l i x) d = if Nat.eqb i j then x else nth j l d.
Proof.
  intros H. destruct (Nat.eqb_spec i j) as [->|N].
  - apply nth_upd_same; auto.
  - apply nth_upd_other; auto.
Qed.

Lemma set_ok {A} (l : list A) i x : i < List.length l -> set l i x = Ok (upd l i x).
Proof. intros H. unfold set. apply Nat.ltb_lt in H. rewrite H. reflexivity. Qed.

Lemma set_inv {A} (l l' : list A) i x : set l i x = Ok l' -> i < List.length l /\ l' = upd l i x.
Proof.
  unfold set. destruct (Nat.ltb_spec i (List.length l)); intros H'; inversion H'; auto.
Qed.

Lemma foldM_app {A S} (f : S -> A -> res S) l1 : forall l2 s,
  foldM f (l1 ++ l2) s = bind (foldM f l1 s) (foldM f l2).
Proof.
  induction l1 as [|x l1 IH]; intros l2 s; simpl; auto.
  destruct (f s x); simpl; auto.
Qed.

Lemma foldM_inv {A S} (P : S -> Prop) (f : S -> A -> res S) l : forall s s',
  foldM f l s = Ok s' -> P s ->
  (forall x a b, In x l -> P a -> f a x = Ok b -> P b) -> P s'.
Proof.
  induction l as [|x l IH]; simpl; intros s s' H Hs Hf.
  - inversion H; subst; auto.
  - destruct (f s x) as [a| | |] eqn:E; simpl in H; try discriminate.
    eapply IH; eauto.
Qed.

(** sorting *)
Lemma insert_perm {A} (leb : A -> A -> bool) x l : Permutation (insert leb x l) (x :: l).
Proof.
  induction l as [|y l IH]; simpl; auto. destruct (leb x y); auto.
  rewrite IH. apply perm_swap.
Qed.
Lemma isort_perm {A} (leb : A -> A -> bool) l : Permutation (isort leb l) l.
Proof. induction l as [|x l IH]; simpl; auto. rewrite insert_perm. auto. Qed.

Lemma isort_length {A} (leb : A -> A -> bool) l : List.length (isort leb l) = List.length l.
Proof. apply Permutation_length, isort_perm. Qed.

Lemma insert_sorted {A} (leb : A -> A -> bool) x l :
  (forall a b, leb a b = true \/ leb b a = true) ->
  (forall a b c, leb a b = true -> leb b c = true -> leb a c = true) ->
  StronglySorted (fun a b => leb a b = true) l -> StronglySorted (fun a b => leb a b = true) (insert leb x l).
Proof.
  intros T Tr. induction l as [|y l IH]; simpl; intros H.
  - repeat constructor.
  - inversion H as [|? ? H1 H2]; subst. destruct (leb x y) eqn:E.
    + constructor; auto. constructor; auto. eapply Forall_impl; [|exact H2]. simpl. eauto.
    + constructor; auto.
      assert (leb y x = true) by (destruct (T x y); congruence).
      rewrite Forall_forall in *. intros z Hz.
      apply (Permutation_in z (insert_perm leb x l)) in Hz. destruct Hz as [->|Hz]; auto.
Qed.
Lemma isort_sorted {A} (leb : A -> A -> bool) l :
  (forall a b, leb a b = true \/ leb b a = true) ->
  (forall a b c, leb a b = true -> leb b c = true -> leb a c = true) ->
  StronglySorted (fun a b => leb a b = true) (isort leb l).
Proof. intros T Tr. induction l; simpl; [constructor|apply insert_sorted; auto]. Qed.

Lemma nth_error_nth_iff {A} (l : list A) i a d : nth_error l i = Some a <-> i < List.length l /\ nth i l d = a.
Proof.
  split.
  - intros H. split; [apply nth_error_Some; congruence|]. apply nth_error_nth. auto.
  - intros [H <-]. apply nth_error_nth'. auto.
Qed.

Lemma nodup_app {A} (l1 l2 : list A) : NoDup l1 -> NoDup l2 -> (forall x, In x l1 -> ~ In x l2) -> NoDup (l1 ++ l2).
Proof.
  induction 1 as [|x l Hx Hn IH]; simpl; intros H2 H; auto. constructor.
  - rewrite in_app_iff. intros [HH|HH]; [exact (Hx HH)|]. apply (H x); auto.
  - apply IH; [exact H2|]. intros y Hy. apply H. auto.
Qed.

(* naming the result of a computation without normalising it *)
Definition is_ok {A} (r : res A) : bool := match r with Ok _ => true | _ => false end.
Definition the {A} (d : A) (r : res A) : A := match r with Ok a => a | _ => d end.
Lemma the_ok {A} (d : A) (r : res A) : is_ok r = true -> r = Ok (the d r).
Proof. destruct r; simpl; congruence. Qed.
