(* Lemmas about the maps and monadic lists of TopoModel.v *)
From Coq Require Import String List Arith Bool ZArith Lia Permutation Sorted.
From Verif Require Import Base BaseFacts Kind MeshModel TopoModel.
Import ListNotations.
Open Scope nat_scope.

Section Maps.
Context {K V : Type} (eqb : K -> K -> bool) (eqb_eq : forall a b, eqb a b = true <-> a = b).

Lemma eqb_refl k : eqb k k = true. Proof. apply eqb_eq; reflexivity. Qed.
Lemma eqb_neq a b : a <> b -> eqb a b = false.
Proof. intros H. destruct (eqb a b) eqn:E; [|reflexivity]. apply eqb_eq in E. contradiction. Qed.

Lemma mget_mput_same (m : list (K * V)) k v : mget eqb (mput eqb m k v) k = Some v.
Proof.
  induction m as [|[k' v'] t IH]; cbn.
  - rewrite eqb_refl. reflexivity.
  - destruct (eqb k' k) eqn:E; cbn; rewrite ?eqb_refl, ?E; auto.
Qed.
Lemma mget_mput_other (m : list (K * V)) k k' v : k <> k' -> mget eqb (mput eqb m k v) k' = mget eqb m k'.
Proof.
  intros N. induction m as [|[k1 v1] t IH]; cbn.
  - rewrite (eqb_neq _ _ N). reflexivity.
  - destruct (eqb k1 k) eqn:E; cbn.
    + apply eqb_eq in E. subst k1. rewrite (eqb_neq _ _ N). reflexivity.
    + rewrite IH. reflexivity.
Qed.
Lemma mput_keys (m : list (K * V)) k v :
  map fst (mput eqb m k v) = if existsb (fun k' => eqb k' k) (map fst m) then map fst m else map fst m ++ [k].
Proof.
  induction m as [|[k' v'] t IH]; cbn; [reflexivity|].
  destruct (eqb k' k) eqn:E; cbn.
  - apply eqb_eq in E. subst. reflexivity.
  - rewrite IH. destruct (existsb _ _); reflexivity.
Qed.
Lemma mget_none (m : list (K * V)) k : mget eqb m k = None <-> ~ In k (map fst m).
Proof.
  induction m as [|[k' v'] t IH]; cbn; [tauto|].
  destruct (eqb k' k) eqn:E.
  - apply eqb_eq in E. split; [discriminate|]. intros H. exfalso. auto.
  - rewrite IH. split; intros H; [|tauto]. intros [->|X]; [rewrite eqb_refl in E; discriminate|auto].
Qed.
Lemma mget_in (m : list (K * V)) k v : mget eqb m k = Some v -> In (k, v) m.
Proof.
  induction m as [|[k' v'] t IH]; cbn; [discriminate|].
  destruct (eqb k' k) eqn:E; [|auto]. apply eqb_eq in E. intros H. injection H as ->. subst. auto.
Qed.
Lemma in_mget (m : list (K * V)) k v : NoDup (map fst m) -> In (k, v) m -> mget eqb m k = Some v.
Proof.
  induction m as [|[k' v'] t IH]; cbn; [tauto|]. intros ND [H|H].
  - injection H as -> ->. rewrite eqb_refl. reflexivity.
  - inversion ND as [|? ? N1 N2]; subst. destruct (eqb k' k) eqn:E; [|auto].
    apply eqb_eq in E. subst. exfalso. apply N1. apply in_map_iff. exists (k, v). auto.
Qed.
Lemma mput_nodup (m : list (K * V)) k v : NoDup (map fst m) -> NoDup (map fst (mput eqb m k v)).
Proof.
  intros H. rewrite mput_keys. destruct (existsb _ _) eqn:E; [exact H|].
  apply nodup_app; [exact H|constructor; [intros []|constructor]|].
  intros x Hx [->|[]].
  assert (X : existsb (fun k' => eqb k' x) (map fst m) = true)
    by (apply existsb_exists; exists x; split; [exact Hx|apply eqb_refl]).
  congruence.
Qed.
Lemma sadd_in (s : list K) x y : In y (sadd eqb s x) <-> y = x \/ In y s.
Proof.
  unfold sadd. destruct (existsb (eqb x) s) eqn:E.
  - apply existsb_exists in E. destruct E as (z & Hz & E). apply eqb_eq in E. subst z.
    split; [tauto|]. intros [->|H]; assumption.
  - rewrite in_app_iff. cbn. intuition.
Qed.
Lemma sadd_nodup (s : list K) x : NoDup s -> NoDup (sadd eqb s x).
Proof.
  intros H. unfold sadd. destruct (existsb (eqb x) s) eqn:E; [exact H|].
  apply nodup_app; [exact H|constructor; [intros []|constructor]|].
  intros y Hy [->|[]].
  assert (X : existsb (eqb y) s = true) by (apply existsb_exists; exists y; split; [exact Hy|apply eqb_refl]).
  congruence.
Qed.
Lemma fold_sadd_in l : forall (s : list K) y, In y (fold_left (sadd eqb) l s) <-> In y s \/ In y l.
Proof.
  induction l as [|a t IH]; intros s y; cbn [fold_left]; [cbn; tauto|].
  rewrite IH, sadd_in. cbn. intuition.
Qed.
Lemma fold_sadd_nodup l : forall (s : list K), NoDup s -> NoDup (fold_left (sadd eqb) l s).
Proof. induction l as [|a t IH]; intros s H; cbn [fold_left]; [exact H|]. apply IH, sadd_nodup, H. Qed.
End Maps.

Lemma mpush_same {K V} (eqb : K -> K -> bool) (H : forall a b, eqb a b = true <-> a = b) (m : list (K * list V)) k x :
  mget eqb (mpush eqb m k x) k = Some (match mget eqb m k with Some l => l | None => [] end ++ [x]).
Proof. unfold mpush. rewrite (mget_mput_same _ H). destruct (mget eqb m k); reflexivity. Qed.
Lemma mpush_other {K V} (eqb : K -> K -> bool) (H : forall a b, eqb a b = true <-> a = b) (m : list (K * list V)) k k' x :
  k <> k' -> mget eqb (mpush eqb m k x) k' = mget eqb m k'.
Proof. intros N. unfold mpush. apply (mget_mput_other _ H). exact N. Qed.

Lemma ekey_eqb_eq a b : ekey_eqb a b = true <-> a = b.
Proof.
  destruct a as [a1 a2], b as [b1 b2]. unfold ekey_eqb; cbn. rewrite andb_true_iff, !Nat.eqb_eq.
  split; [intros [-> ->]; reflexivity|intros H; injection H; auto].
Qed.
Lemma fkey_eqb_eq a : forall b, fkey_eqb a b = true <-> a = b.
Proof.
  induction a as [|x s IH]; intros [|y t]; cbn; try (split; [discriminate|discriminate]); [tauto|].
  rewrite andb_true_iff, Nat.eqb_eq, IH. split; [intros [-> ->]; reflexivity|intros H; injection H; auto].
Qed.
Lemma nat_eqb_eq a b : Nat.eqb a b = true <-> a = b. Proof. apply Nat.eqb_eq. Qed.

Lemma mapM_ok {A B} (f : A -> res B) l r : mapM f l = Ok r <-> Forall2 (fun a b => f a = Ok b) l r.
Proof.
  revert r. induction l as [|a t IH]; intros r; cbn.
  - split; [intros H; injection H as <-; constructor|intros H; inversion H; reflexivity].
  - split.
    + intros H. apply bind_ok in H. destruct H as (b & E & H). apply bind_ok in H. destruct H as (r' & E' & H).
      injection H as <-. constructor; [exact E|]. apply IH. exact E'.
    + intros H. inversion H as [|? b ? r' E E']; subst. rewrite E. cbn. apply IH in E'. rewrite E'. reflexivity.
Qed.
Lemma mapM_total {A B} (f : A -> res B) (g : A -> B) l :
  (forall a, In a l -> f a = Ok (g a)) -> mapM f l = Ok (map g l).
Proof.
  intros H. apply mapM_ok. induction l as [|a t IH]; cbn; constructor; [apply H; left; reflexivity|].
  apply IH. intros b Hb. apply H. right. exact Hb.
Qed.
Lemma mapM_length {A B} (f : A -> res B) l r : mapM f l = Ok r -> List.length r = List.length l.
Proof. intros H. apply mapM_ok in H. induction H; cbn; congruence. Qed.
Lemma mapM_nth {A B} (f : A -> res B) l r i a b :
  mapM f l = Ok r -> nth_error l i = Some a -> nth_error r i = Some b -> f a = Ok b.
Proof.
  intros H. apply mapM_ok in H. revert i. induction H as [|x y l r E H IH]; intros [|i]; cbn; try discriminate.
  - intros H1 H2. injection H1 as ->. injection H2 as ->. exact E.
  - apply IH.
Qed.
Lemma mapM_in {A B} (f : A -> res B) l r b : mapM f l = Ok r -> (In b r <-> exists a, In a l /\ f a = Ok b).
Proof.
  intros H. apply mapM_ok in H. induction H as [|x y l r E H IH]; cbn.
  - split; [tauto|intros (a & [] & _)].
  - rewrite IH. split.
    + intros [->|(a & Ha & Ea)]; [exists x; auto|exists a; auto].
    + intros (a & [->|Ha] & Ea); [left; congruence|right; exists a; auto].
Qed.

(* folds that collect under keys *)
Section Collect.
Context {K : Type} (eqb : K -> K -> bool) (eqb_eq : forall a b, eqb a b = true <-> a = b).
Variable sel : cell -> bool.
Variable nl : cell -> nat.
Variable lk : cell -> nat -> res K.
Definition gen_add (m : list (K * list (nat * nat))) (c : cell) : res (list (K * list (nat * nat))) :=
  if sel c then foldM (fun (m : list (K * list (nat * nat))) e => let! k := lk c e in Ok (mpush eqb m k (c_id c, e))) (seq 0 (nl c)) m
  else Ok m.
Definition hits (k : K) (c : cell) (e : nat) : bool := match lk c e with Ok k' => eqb k' k | _ => false end.
Definition cell_hits (k : K) (c : cell) : list (nat * nat) :=
  if sel c then map (pair (c_id c)) (filter (hits k c) (seq 0 (nl c))) else [].
Definition as_entry (o : list (nat * nat)) : option (list (nat * nat)) := match o with [] => None | l => Some l end.
Definition from_entry (o : option (list (nat * nat))) : list (nat * nat) := match o with Some l => l | None => [] end.

Lemma as_entry_app a b : as_entry (a ++ [b]) = Some (a ++ [b]).
Proof. destruct a; reflexivity. Qed.

Lemma gen_edges c es : forall m m',
  NoDup (map fst m) -> (forall k l, mget eqb m k = Some l -> l <> []) ->
  foldM (fun (m : list (K * list (nat * nat))) e => let! k := lk c e in Ok (mpush eqb m k (c_id c, e))) es m = Ok m' ->
  NoDup (map fst m') /\
  (forall e, In e es -> exists k, lk c e = Ok k) /\
  (forall k, mget eqb m' k = as_entry (from_entry (mget eqb m k) ++ map (pair (c_id c)) (filter (hits k c) es))).
Proof.
  induction es as [|e t IH]; intros m m' ND NE H; cbn in H.
  - injection H as <-. split; [exact ND|]. split; [intros e []|]. intros k. cbn. rewrite app_nil_r.
    destruct (mget eqb m k) as [l|] eqn:E; cbn; [|reflexivity]. specialize (NE k l E). destruct l; [contradiction|reflexivity].
  - apply bind_ok in H. destruct H as (m1 & E1 & H). apply bind_ok in E1. destruct E1 as (k0 & E0 & E1).
    injection E1 as <-.
    assert (ND1 : NoDup (map fst (mpush eqb m k0 (c_id c, e)))) by (apply mput_nodup; [exact eqb_eq|exact ND]).
    assert (NE1 : forall k l, mget eqb (mpush eqb m k0 (c_id c, e)) k = Some l -> l <> []).
    { intros k l E. destruct (eqb k0 k) eqn:EK.
      - apply eqb_eq in EK. subst k. rewrite (mpush_same _ eqb_eq) in E. injection E as <-.
        destruct (match mget eqb m k0 with Some l => l | None => [] end); discriminate.
      - rewrite (mpush_other _ eqb_eq) in E; [exact (NE k l E)|]. intros ->. rewrite (eqb_refl _ eqb_eq) in EK. discriminate. }
    specialize (IH _ _ ND1 NE1 H). destruct IH as (I1 & I2 & I3).
    split; [exact I1|]. split.
    { intros e' [<-|He']; [exists k0; exact E0|exact (I2 e' He')]. }
    intros k. rewrite I3. cbn [filter]. unfold hits at 2. rewrite E0.
    destruct (eqb k0 k) eqn:EK.
    + apply eqb_eq in EK. subst k. rewrite (mpush_same _ eqb_eq). cbn [from_entry map]. rewrite <- app_assoc. reflexivity.
    + rewrite (mpush_other _ eqb_eq); [reflexivity|]. intros ->. rewrite (eqb_refl _ eqb_eq) in EK. discriminate.
Qed.

Lemma as_entry_ne o l : as_entry o = Some l -> l <> [].
Proof. destruct o; [discriminate|]. intros H. injection H as <-. discriminate. Qed.
Lemma from_as o : from_entry (as_entry o) = o. Proof. destruct o; reflexivity. Qed.

Lemma gen_all cs : forall m m',
  NoDup (map fst m) -> (forall k l, mget eqb m k = Some l -> l <> []) ->
  foldM gen_add cs m = Ok m' ->
  NoDup (map fst m') /\
  (forall c e, In c cs -> sel c = true -> e < nl c -> exists k, lk c e = Ok k) /\
  (forall k, mget eqb m' k = as_entry (from_entry (mget eqb m k) ++ flat_map (cell_hits k) cs)).
Proof.
  induction cs as [|c t IH]; intros m m' ND NE H; cbn in H.
  - injection H as <-. split; [exact ND|]. split; [intros c e []|]. intros k. cbn. rewrite app_nil_r.
    destruct (mget eqb m k) as [l|] eqn:E; cbn; [|reflexivity]. specialize (NE k l E). destruct l; [contradiction|reflexivity].
  - apply bind_ok in H. destruct H as (m1 & E1 & H). unfold gen_add in E1.
    assert (X : NoDup (map fst m1) /\ (sel c = true -> forall e, e < nl c -> exists k, lk c e = Ok k) /\
                (forall k, mget eqb m1 k = as_entry (from_entry (mget eqb m k) ++ cell_hits k c))).
    { unfold cell_hits. destruct (sel c) eqn:S.
      - destruct (gen_edges c _ _ _ ND NE E1) as (X1 & X2 & X3). split; [exact X1|]. split; [|exact X3].
        intros _ e He. apply X2. apply in_seq. lia.
      - injection E1 as <-. split; [exact ND|]. split; [discriminate|]. intros k. rewrite app_nil_r.
        destruct (mget eqb m k) as [l|] eqn:E; cbn; [|reflexivity]. specialize (NE k l E). destruct l; [contradiction|reflexivity]. }
    destruct X as (X1 & X2 & X3).
    assert (NE1 : forall k l, mget eqb m1 k = Some l -> l <> []).
    { intros k l E. rewrite X3 in E. eapply as_entry_ne. exact E. }
    destruct (IH _ _ X1 NE1 H) as (I1 & I2 & I3).
    split; [exact I1|]. split.
    { intros c' e [<-|Hc'] Sc He; [apply X2; assumption|apply I2; assumption]. }
    intros k. rewrite I3, X3, from_as. cbn [flat_map]. rewrite app_assoc. reflexivity.
Qed.

Lemma gen_all0 cs m' : foldM gen_add cs [] = Ok m' ->
  NoDup (map fst m') /\
  (forall c e, In c cs -> sel c = true -> e < nl c -> exists k, lk c e = Ok k) /\
  (forall k, mget eqb m' k = as_entry (flat_map (cell_hits k) cs)).
Proof.
  intros H. destruct (gen_all cs [] m') as (A & B & C); [constructor|discriminate|exact H|].
  split; [exact A|]. split; [exact B|]. intros k. rewrite C. reflexivity.
Qed.

Lemma gen_total cs : (forall c e, In c cs -> sel c = true -> e < nl c -> exists k, lk c e = Ok k) ->
  forall m, exists m', foldM gen_add cs m = Ok m'.
Proof.
  induction cs as [|c t IH]; intros H m; cbn; [eexists; reflexivity|].
  assert (X : exists m1, gen_add m c = Ok m1).
  { unfold gen_add. destruct (sel c) eqn:S; [|eexists; reflexivity].
    assert (Y : forall e, In e (seq 0 (nl c)) -> exists k, lk c e = Ok k).
    { intros e He. apply in_seq in He. apply H; [left; reflexivity|exact S|lia]. }
    revert m Y. generalize (seq 0 (nl c)). intros es. induction es as [|e es IHe]; intros m Y; cbn; [eexists; reflexivity|].
    destruct (Y e (or_introl eq_refl)) as (k & ->). cbn. apply IHe. intros e' He'. apply Y. right. exact He'. }
  destruct X as (m1 & ->). cbn. apply IH. intros c' e Hc'. apply H. right. exact Hc'.
Qed.

Lemma in_hits cs k c e : In (c, e) (flat_map (cell_hits k) cs) <->
  exists cl, In cl cs /\ sel cl = true /\ c_id cl = c /\ e < nl cl /\ lk cl e = Ok k.
Proof.
  rewrite in_flat_map. unfold cell_hits. split.
  - intros (cl & Hc & H). destruct (sel cl) eqn:S; [|destruct H].
    apply in_map_iff in H. destruct H as (e' & E & H). injection E as <- <-.
    apply filter_In in H. destruct H as (H & Hh). apply in_seq in H.
    exists cl. repeat split; auto; [lia|].
    unfold hits in Hh. destruct (lk cl e') as [k'| | |]; try discriminate. apply eqb_eq in Hh. congruence.
  - intros (cl & Hc & S & <- & He & E). exists cl. split; [exact Hc|]. rewrite S. apply in_map. apply filter_In.
    split; [apply in_seq; lia|]. unfold hits. rewrite E. apply (eqb_refl _ eqb_eq).
Qed.

Lemma hits_nodup cs k : NoDup (map c_id cs) -> NoDup (flat_map (cell_hits k) cs).
Proof.
  induction cs as [|c t IH]; cbn; [constructor|]. intros ND. inversion ND as [|? ? N1 N2]; subst.
  apply nodup_app; [|auto|].
  - unfold cell_hits. destruct (sel c); [|constructor].
    apply FinFun.Injective_map_NoDup; [intros x y E; congruence|]. apply NoDup_filter, seq_NoDup.
  - intros [c' e] H1 H2.
    assert (c' = c_id c).
    { unfold cell_hits in H1. destruct (sel c); [|destruct H1]. apply in_map_iff in H1. destruct H1 as (e' & E & _). congruence. }
    subst c'. apply in_hits in H2. destruct H2 as (cl & Hc & _ & E & _). apply N1. rewrite <- E. apply in_map. exact Hc.
Qed.
End Collect.
