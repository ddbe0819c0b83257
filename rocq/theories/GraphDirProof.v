(* Floyd-Warshall: distances are optimal and the next-hop matrix leads along an optimal walk,
   also with zero weights. *)
From Coq Require Import String List Arith Bool QArith Lia Lqa Permutation.
From Verif Require Import Base BaseFacts GraphDirModel GraphDirSpec.
Import ListNotations.
Open Scope nat_scope.

Lemma egtb_fin x y : egtb (Fin x) (Fin y) = true <-> (y < x)%Q.
Proof.
  simpl. rewrite negb_true_iff. split.
  - intros H. apply Qnot_le_lt. intros H'. apply Qle_bool_iff in H'. congruence.
  - intros H. destruct (Qle_bool x y) eqn:E; auto. apply Qle_bool_iff in E. lra.
Qed.
Lemma egtb_fin_false x y : egtb (Fin x) (Fin y) = false <-> (x <= y)%Q.
Proof.
  simpl. rewrite negb_false_iff. apply Qle_bool_iff.
Qed.

Section FW.
Variable E : nat -> nat -> Q -> Prop.
Hypothesis E_nonneg : forall i j w, E i j w -> (0 <= w)%Q.

(* non-empty walks whose intermediate vertices are < k *)
Inductive kw (k : nat) : nat -> nat -> Q -> Prop :=
| kw_edge i j w : E i j w -> kw k i j w
| kw_step i m j w c : E i m w -> m < k -> kw k m j c -> kw k i j (w + c).

Lemma kw_nonneg k i j c : kw k i j c -> (0 <= c)%Q.
Proof. induction 1 as [i j w H|i m j w c H]; apply E_nonneg in H; lra. Qed.
Lemma kw_mono k k' i j c : k <= k' -> kw k i j c -> kw k' i j c.
Proof. intros L. induction 1; [now apply kw_edge|eapply kw_step; eauto; lia]. Qed.

Lemma kw_split k i j c : kw (S k) i j c ->
  kw k i j c \/ exists c1 c2, kw k i k c1 /\ kw k k j c2 /\ (c1 + c2 <= c)%Q.
Proof.
  induction 1 as [i j w H|i m j w c H L K IH].
  - left. now apply kw_edge.
  - destruct (Nat.eq_dec m k) as [->|N].
    + destruct IH as [K'|(c1 & c2 & K1 & K2 & L')]; right.
      * exists w, c. repeat split; auto using kw_edge. lra.
      * exists w, c2. apply kw_nonneg in K1. repeat split; auto using kw_edge. lra.
    + assert (m < k) by lia.
      destruct IH as [K'|(c1 & c2 & K1 & K2 & L')].
      * left. eapply kw_step; eauto.
      * right. exists (w + c1)%Q, c2. split; [eapply kw_step; eauto|split; auto]. lra.
Qed.

(* following the next-hop matrix towards j *)
Inductive chain (nx : mat (option nat)) (k j : nat) : nat -> Q -> Prop :=
| ch_last i w : nx i j = Some j -> i <> j -> E i j w -> chain nx k j i w
| ch_step i m w c : nx i j = Some m -> i <> j -> m <> j -> m < k -> E i m w ->
    chain nx k j m c -> chain nx k j i (w + c).

Lemma chain_kw nx k j i c : chain nx k j i c -> kw k i j c.
Proof. induction 1; [now apply kw_edge|eapply kw_step; eauto]. Qed.
Lemma chain_ne nx k j i c : chain nx k j i c -> i <> j.
Proof. now destruct 1. Qed.

Record Inv (k : nat) (d : mat ext) (nx : mat (option nat)) : Prop := {
  i_low : forall i j c, kw k i j c -> i <> j -> exists q, d i j = Fin q /\ (q <= c)%Q;
  i_chain : forall i j q, i <> j -> d i j = Fin q -> exists c, chain nx k j i c /\ (c == q)%Q;
  i_inf : forall i j, i <> j -> d i j = Inf -> nx i j = None;
  i_diag : forall i, exists q, d i i = Fin q /\ (0 <= q)%Q }.

(* simultaneous version of one stage *)
Definition dnew (k : nat) (d : mat ext) : mat ext :=
  fun i j => if egtb (d i j) (eadd (d i k) (d k j)) then eadd (d i k) (d k j) else d i j.
Definition nnew (k : nat) (d : mat ext) (nx : mat (option nat)) : mat (option nat) :=
  fun i j => if egtb (d i j) (eadd (d i k) (d k j)) then nx i k else nx i j.
Definition U (k : nat) (d : mat ext) (i j : nat) : Prop := egtb (d i j) (eadd (d i k) (d k j)) = true.

Section Stage.
Variables (k : nat) (d : mat ext) (nx : mat (option nat)).
Hypothesis I : Inv k d nx.

Lemma fin_nonneg i j q : d i j = Fin q -> (0 <= q)%Q.
Proof.
  intros H. destruct (Nat.eq_dec i j) as [->|N].
  - destruct (i_diag _ _ _ I j) as (q' & E' & L). congruence.
  - destruct (i_chain _ _ _ I i j q N H) as (c & C & L). apply chain_kw, kw_nonneg in C. lra.
Qed.

Lemma U_inv i j : U k d i j ->
  exists a b, d i k = Fin a /\ d k j = Fin b /\ (forall q, d i j = Fin q -> (a + b < q)%Q).
Proof.
  unfold U. destruct (d i k) as [a|], (d k j) as [b|]; simpl; try (destruct (d i j); discriminate).
  intros H. exists a, b. repeat split; auto. intros q Eq. rewrite Eq in H. now apply egtb_fin.
Qed.
Lemma U_intro i j a b : d i k = Fin a -> d k j = Fin b ->
  (d i j = Inf \/ exists q, d i j = Fin q /\ (a + b < q)%Q) -> U k d i j.
Proof.
  unfold U. intros -> -> [->|(q & -> & L)]; [reflexivity|]. now apply egtb_fin.
Qed.
Lemma not_U i j a b : ~ U k d i j -> d i k = Fin a -> d k j = Fin b ->
  exists q, d i j = Fin q /\ (q <= a + b)%Q.
Proof.
  intros H Ea Eb. destruct (d i j) as [q|] eqn:Eq.
  - exists q. split; auto. destruct (Qlt_le_dec (a + b) q) as [L|L]; auto.
    destruct H. eapply U_intro; eauto.
  - destruct H. eapply U_intro; eauto.
Qed.
Lemma U_row i : ~ U k d k i.
Proof.
  intros H. destruct (U_inv _ _ H) as (a & b & Ea & Eb & L).
  specialize (L b Eb). apply fin_nonneg in Ea. lra.
Qed.
Lemma U_col i : ~ U k d i k.
Proof.
  intros H. destruct (U_inv _ _ H) as (a & b & Ea & Eb & L).
  specialize (L a Ea). apply fin_nonneg in Eb. lra.
Qed.
Lemma U_dec i j : {U k d i j} + {~ U k d i j}.
Proof. unfold U. destruct (egtb _ _); [left|right]; congruence. Qed.

Lemma nnew_not i j : ~ U k d i j -> nnew k d nx i j = nx i j.
Proof. unfold nnew, U. destruct (egtb _ _); congruence. Qed.
Lemma nnew_yes i j : U k d i j -> nnew k d nx i j = nx i k.
Proof. unfold nnew, U. now intros ->. Qed.
Lemma dnew_not i j : ~ U k d i j -> dnew k d i j = d i j.
Proof. unfold dnew, U. destruct (egtb _ _); congruence. Qed.
Lemma dnew_yes i j a b : U k d i j -> d i k = Fin a -> d k j = Fin b -> dnew k d i j = Fin (a + b).
Proof. unfold dnew, U. intros -> -> ->. reflexivity. Qed.

(* (1) chains starting outside U stay outside *)
Lemma chain_keep j i c : chain nx k j i c -> ~ U k d i j ->
  (forall q, d i j = Fin q -> (c <= q)%Q) -> chain (nnew k d nx) (S k) j i c.
Proof.
  induction 1 as [i w Hn Nij He|i m w c Hn Nij Nmj Lm He C IH]; intros NU Hq.
  - apply ch_last; auto. rewrite nnew_not; auto.
  - destruct (i_low _ _ _ I i j (w + c)%Q) as (qi & Eqi & Li); auto.
    { eapply kw_step; eauto using chain_kw. }
    destruct (i_low _ _ _ I m j c) as (qm & Eqm & Lmq); auto. { eauto using chain_kw. }
    destruct (i_chain _ _ _ I m j qm Nmj Eqm) as (cm & Cm & Em).
    destruct (i_low _ _ _ I i j (w + cm)%Q) as (qi' & Eqi' & Li'); auto.
    { eapply kw_step; eauto using chain_kw. }
    rewrite Eqi in Eqi'. injection Eqi' as <-.
    pose proof (Hq _ Eqi) as Hqi.
    assert (NUm : ~ U k d m j).
    { intros Um. destruct (U_inv _ _ Um) as (a & b & Ea & Eb & L). specialize (L _ Eqm).
      pose proof (E_nonneg _ _ _ He) as Wn. pose proof (fin_nonneg _ _ _ Ea) as An.
      destruct (Nat.eq_dec i k) as [->|Nik].
      - rewrite Eb in Eqi. injection Eqi as <-. lra.
      - assert (Nmk : m <> k) by lia.
        destruct (i_chain _ _ _ I m k a Nmk Ea) as (ck & Ck & Ek).
        destruct (i_low _ _ _ I i k (w + ck)%Q) as (qk & Eqk & Lk); auto.
        { eapply kw_step; eauto using chain_kw. }
        apply NU. eapply U_intro; eauto. right. exists qi. split; auto. lra. }
    eapply ch_step with (m := m); auto. { rewrite nnew_not; auto. }
    apply IH; auto. intros q Eq. rewrite Eqm in Eq. injection Eq as <-. lra.
Qed.

(* (2) chains towards k starting in U lead to j *)
Lemma chain_via j b i c : d k j = Fin b -> k <> j -> chain nx k k i c -> i <> j -> U k d i j ->
  exists c', chain (nnew k d nx) (S k) j i c' /\ (c' <= c + b)%Q.
Proof.
  intros Eb Nkj. pose proof (fin_nonneg _ _ _ Eb) as Bn.
  induction 1 as [i w Hn Nik He|i m w c Hn Nik Nmk Lm He C IH]; intros Nij Ui.
  - destruct (i_chain _ _ _ I k j b Nkj Eb) as (ck & Ck & Ek).
    exists (w + ck)%Q. split; [|lra].
    apply ch_step with (m := k); auto. { rewrite nnew_yes; auto. }
    apply chain_keep; auto. { apply U_row. }
    intros q Eq. rewrite Eb in Eq. injection Eq as <-. lra.
  - pose proof (kw_nonneg _ _ _ _ (chain_kw _ _ _ _ _ C)) as Cn.
    destruct (Nat.eq_dec m j) as [->|Nmj].
    + exists w. split; [|lra]. apply ch_last; auto. rewrite nnew_yes; auto.
    + destruct (U_dec m j) as [Um|NUm].
      * destruct (IH Nmj Um) as (c' & C' & L'). exists (w + c')%Q. split; [|lra].
        apply ch_step with (m := m); auto. rewrite nnew_yes; auto.
      * destruct (i_low _ _ _ I m k c) as (a & Ea & La); auto. { eauto using chain_kw. }
        destruct (not_U m j a b NUm Ea Eb) as (q & Eq & Lq).
        destruct (i_chain _ _ _ I m j q Nmj Eq) as (cm & Cm & Em).
        exists (w + cm)%Q. split; [|lra].
        apply ch_step with (m := m); auto. { rewrite nnew_yes; auto. }
        apply chain_keep; auto. intros q' Eq'. rewrite Eq in Eq'. injection Eq' as <-. lra.
Qed.

Lemma low_new i j c : kw (S k) i j c -> i <> j -> exists q, dnew k d i j = Fin q /\ (q <= c)%Q.
Proof.
  intros K N.
  assert (D : forall q, d i j = Fin q -> exists q', dnew k d i j = Fin q' /\ (q' <= q)%Q).
  { intros q Eq. destruct (U_dec i j) as [Ui|Ui].
    - destruct (U_inv _ _ Ui) as (a & b & Ea & Eb & L). exists (a + b)%Q.
      split; [apply dnew_yes; auto|]. specialize (L _ Eq). lra.
    - exists q. rewrite dnew_not; auto. split; auto. lra. }
  destruct (kw_split _ _ _ _ K) as [K'|(c1 & c2 & K1 & K2 & L)].
  - destruct (i_low _ _ _ I _ _ _ K' N) as (q & Eq & Lq).
    destruct (D _ Eq) as (q' & E' & L'). exists q'. split; auto. lra.
  - pose proof (kw_nonneg _ _ _ _ K1). pose proof (kw_nonneg _ _ _ _ K2).
    destruct (Nat.eq_dec i k) as [->|Nik]; [|destruct (Nat.eq_dec j k) as [->|Njk]].
    + destruct (i_low _ _ _ I _ _ _ K2 N) as (q & Eq & Lq).
      destruct (D _ Eq) as (q' & E' & L'). exists q'. split; auto. lra.
    + destruct (i_low _ _ _ I _ _ _ K1 N) as (q & Eq & Lq).
      destruct (D _ Eq) as (q' & E' & L'). exists q'. split; auto. lra.
    + destruct (i_low _ _ _ I _ _ _ K1 Nik) as (a & Ea & La).
      destruct (i_low _ _ _ I k j c2 K2) as (b & Eb & Lb); auto.
      destruct (U_dec i j) as [Ui|Ui].
      * exists (a + b)%Q. split; [apply dnew_yes; auto|]. lra.
      * destruct (not_U _ _ _ _ Ui Ea Eb) as (q & Eq & Lq).
        exists q. rewrite dnew_not; auto. split; auto. lra.
Qed.

Lemma stage_inv : Inv (S k) (dnew k d) (nnew k d nx).
Proof.
  constructor.
  - apply low_new.
  - intros i j q N Eq.
    assert (F : exists c, chain (nnew k d nx) (S k) j i c /\ (c <= q)%Q).
    { destruct (U_dec i j) as [Ui|Ui].
      - destruct (U_inv _ _ Ui) as (a & b & Ea & Eb & L).
        rewrite (dnew_yes i j a b) in Eq; auto. injection Eq as <-.
        assert (Nik : i <> k) by (intros ->; now apply U_row in Ui).
        assert (Nkj : k <> j) by (intros X; rewrite <- X in Ui; now apply U_col in Ui).
        destruct (i_chain _ _ _ I i k a Nik Ea) as (c & C & Ec).
        destruct (chain_via j b i c) as (c' & C' & L'); auto.
        exists c'. split; auto. lra.
      - rewrite dnew_not in Eq; auto.
        destruct (i_chain _ _ _ I i j q N Eq) as (c & C & Ec).
        exists c. split; [|lra]. apply chain_keep; auto.
        intros q' Eq'. rewrite Eq in Eq'. injection Eq' as <-. lra. }
    destruct F as (c & C & L). exists c. split; auto.
    destruct (low_new i j c) as (q' & Eq' & L'); auto. { eapply chain_kw; eauto. }
    rewrite Eq in Eq'. injection Eq' as <-. lra.
  - intros i j N Eq. destruct (U_dec i j) as [Ui|Ui].
    + destruct (U_inv _ _ Ui) as (a & b & Ea & Eb & L). rewrite (dnew_yes i j a b) in Eq; auto. discriminate.
    + rewrite dnew_not in Eq; auto. rewrite nnew_not; auto. eapply i_inf; eauto.
  - intros i. destruct (U_dec i i) as [Ui|Ui].
    + destruct (U_inv _ _ Ui) as (a & b & Ea & Eb & L). exists (a + b)%Q.
      split; [apply dnew_yes; auto|]. apply fin_nonneg in Ea. apply fin_nonneg in Eb. lra.
    + rewrite dnew_not; auto. apply (i_diag _ _ _ I).
Qed.
End Stage.
End FW.

Definition pair_dec (x y : nat * nat) : {x = y} + {x <> y}.
Proof. decide equality; apply Nat.eq_dec. Defined.

(* the in-place loops compute the simultaneous update *)
Lemma fw_inplace (k : nat) (d : mat ext) nx :
  (forall i, egtb (d i k) (eadd (d i k) (d k k)) = false) ->
  (forall j, egtb (d k j) (eadd (d k k) (d k j)) = false) ->
  forall L, NoDup L ->
  forall i j,
    fst (fold_left (fw_body k) L (d, nx)) i j = (if in_dec pair_dec (i, j) L
                                                then dnew k d i j else d i j) /\
    snd (fold_left (fw_body k) L (d, nx)) i j = (if in_dec pair_dec (i, j) L
                                                then nnew k d nx i j else nx i j).
Proof.
  intros Hc Hr L. induction L as [|[a b] L IH] using rev_ind; intros ND i j.
  - simpl. auto.
  - assert (NDL : NoDup L /\ ~ In (a, b) L).
    { apply NoDup_remove in ND. rewrite app_nil_r in ND. auto. }
    destruct NDL as [NDL Nab]. specialize (IH NDL).
    rewrite fold_left_app.
    destruct (fold_left (fw_body k) L (d, nx)) as [d' nx'] eqn:Ef. cbn [fst snd] in IH.
    cbn [fold_left fw_body].
    assert (Ecol : forall x, d' x k = d x k).
    { intros x. destruct (IH x k) as [-> _]. destruct (in_dec _ _ _); auto. unfold dnew. now rewrite Hc. }
    assert (Erow : forall x, d' k x = d k x).
    { intros x. destruct (IH k x) as [-> _]. destruct (in_dec _ _ _); auto. unfold dnew. now rewrite Hr. }
    assert (Encol : forall x, nx' x k = nx x k).
    { intros x. destruct (IH x k) as [_ ->]. destruct (in_dec _ _ _); auto. unfold nnew. now rewrite Hc. }
    assert (Eab : d' a b = d a b /\ nx' a b = nx a b).
    { destruct (IH a b) as [-> ->]. destruct (in_dec _ _ _); tauto. }
    destruct Eab as [Eab Enab].
    rewrite (Ecol a), (Erow b), Eab, (Encol a).
    assert (Hin : forall i j, (i, j) <> (a, b) -> In (i, j) (L ++ [(a, b)]) <-> In (i, j) L).
    { intros x y N. rewrite in_app_iff. simpl. intuition congruence. }
    destruct (pair_dec (i, j) (a, b)) as [Eij|Nij].
    + injection Eij as -> ->.
      destruct (in_dec _ (a, b) (L ++ [(a, b)])) as [_|n]; [|destruct n; apply in_app_iff; simpl; auto].
      unfold dnew, nnew. destruct (egtb (d a b) _); simpl; rewrite ?Nat.eqb_refl; simpl; auto.
    + assert (Eb : (i =? a) && (j =? b) = false).
      { destruct (i =? a) eqn:E1, (j =? b) eqn:E2; auto. apply Nat.eqb_eq in E1, E2. congruence. }
      specialize (IH i j).
      assert (Ein : forall T (x y : T), (if in_dec pair_dec (i, j) (L ++ [(a, b)]) then x else y)
                    = if in_dec pair_dec (i, j) L then x else y).
      { intros T x y. destruct (in_dec _ _ (L ++ _)) as [i0|n0]; destruct (in_dec _ _ L) as [i1|n1]; auto.
        - apply Hin in i0; tauto.
        - destruct n0. apply Hin; auto. }
      rewrite !Ein. destruct (egtb (d a b) _); simpl; rewrite ?Eb; auto.
Qed.

Lemma list_prod_nodup {A B} (l : list A) (m : list B) : NoDup l -> NoDup m -> NoDup (list_prod l m).
Proof.
  intros Hl Hm. induction Hl as [|x l N Hl IH]; simpl; [constructor|].
  apply nodup_app; auto.
  - apply FinFun.Injective_map_NoDup; auto. intros a b H. congruence.
  - intros [a b] H1 H2. apply in_map_iff in H1 as (y & E' & _). injection E' as <- <-.
    apply in_prod_iff in H2. tauto.
Qed.

Section Loop.
Variable E : nat -> nat -> Q -> Prop.
Hypothesis E_nonneg : forall i j w, E i j w -> (0 <= w)%Q.
Variable n : nat.

(* everything outside the matrix stays empty *)
Definition outside (s : mat ext * mat (option nat)) : Prop :=
  forall i j, ~ (i < n /\ j < n) -> i <> j -> fst s i j = Inf /\ snd s i j = None.

Lemma Inv_ext k d nx d' nx' : (forall i j, d i j = d' i j) -> (forall i j, nx i j = nx' i j) ->
  Inv E k d nx -> Inv E k d' nx'.
Proof.
  intros Hd Hn I. constructor.
  - intros i j c K N. rewrite <- Hd. eapply i_low; eauto.
  - intros i j q N Eq. rewrite <- Hd in Eq. destruct (i_chain _ _ _ _ I i j q N Eq) as (c & C & L).
    exists c. split; auto. clear -C Hn. induction C; [apply ch_last|eapply ch_step]; eauto; rewrite <- Hn; auto.
  - intros i j N Eq. rewrite <- Hd in Eq. rewrite <- Hn. eapply i_inf; eauto.
  - intros i. rewrite <- Hd. apply (i_diag _ _ _ _ I).
Qed.

Lemma fw_stage_new k d nx : k < n -> Inv E k d nx -> outside (d, nx) ->
  forall i j, fst (fw_stage n (d, nx) k) i j = (if (i <? n) && (j <? n) then dnew k d i j else d i j)
           /\ snd (fw_stage n (d, nx) k) i j = (if (i <? n) && (j <? n) then nnew k d nx i j else nx i j).
Proof.
  intros Lk I O i j. unfold fw_stage.
  assert (Hc : forall i, egtb (d i k) (eadd (d i k) (d k k)) = false).
  { intros x. destruct (egtb _ _) eqn:Eg; auto. destruct (U_col _ E_nonneg _ _ _ I x). exact Eg. }
  assert (Hr : forall j, egtb (d k j) (eadd (d k k) (d k j)) = false).
  { intros x. destruct (egtb _ _) eqn:Eg; auto. destruct (U_row _ E_nonneg _ _ _ I x). exact Eg. }
  destruct (fw_inplace k d nx Hc Hr (list_prod (seq 0 n) (seq 0 n))
              (list_prod_nodup _ _ (seq_NoDup _ _) (seq_NoDup _ _)) i j) as [-> ->].
  assert (Hin : In (i, j) (list_prod (seq 0 n) (seq 0 n)) <-> (i <? n) && (j <? n) = true).
  { rewrite in_prod_iff, !in_seq, andb_true_iff, !Nat.ltb_lt. lia. }
  destruct (in_dec _ _ _) as [H|H]; destruct ((i <? n) && (j <? n)); auto.
  - apply Hin in H. discriminate.
  - destruct H. now apply Hin.
Qed.

Lemma fw_stage_inv k s : k < n -> Inv E k (fst s) (snd s) -> outside s ->
  Inv E (S k) (fst (fw_stage n s k)) (snd (fw_stage n s k)) /\ outside (fw_stage n s k).
Proof.
  destruct s as [d nx]. intros Lk I O. simpl in I.
  pose proof (fw_stage_new k d nx Lk I O) as H.
  assert (Hout : forall i j, ~ (i < n /\ j < n) -> ~ U k d i j).
  { intros i j Nij Ui. destruct (U_inv _ _ _ _ Ui) as (a & b & Ea & Eb & L).
    destruct (Nat.eq_dec i k) as [->|Nik]; [eapply U_row; eauto|].
    destruct (Nat.eq_dec j k) as [->|Njk]; [eapply U_col; eauto|].
    destruct (Nat.lt_ge_cases i n) as [Li|Li].
    - destruct (O k j) as [Q _]; [lia|auto|]. simpl in Q. congruence.
    - destruct (O i k) as [Q _]; [lia|auto|]. simpl in Q. congruence. }
  split.
  - eapply Inv_ext; [| |apply (stage_inv _ E_nonneg _ _ _ I)].
    + intros i j. destruct (H i j) as [-> _]. destruct ((i <? n) && (j <? n)) eqn:Eb; auto.
      apply dnew_not. apply Hout. intros [A B]. apply Nat.ltb_lt in A, B. rewrite A, B in Eb. discriminate.
    + intros i j. destruct (H i j) as [_ ->]. destruct ((i <? n) && (j <? n)) eqn:Eb; auto.
      apply nnew_not. apply Hout. intros [A B]. apply Nat.ltb_lt in A, B. rewrite A, B in Eb. discriminate.
  - intros i j Nij N. destruct (H i j) as [-> ->].
    destruct ((i <? n) && (j <? n)) eqn:Eb.
    { apply andb_true_iff in Eb as [A B]. apply Nat.ltb_lt in A, B. lia. }
    now apply O.
Qed.

Lemma fw_loop_inv s : Inv E 0 (fst s) (snd s) -> outside s ->
  forall m, m <= n ->
  let s' := fold_left (fw_stage n) (seq 0 m) s in
  Inv E m (fst s') (snd s') /\ outside s'.
Proof.
  intros I O m. induction m as [|m IH]; intros L; cbv zeta in *; [now split|].
  rewrite seq_S, fold_left_app. cbn [fold_left Nat.add].
  destruct IH as [I' O']; [lia|]. apply fw_stage_inv; auto.
Qed.

(* without a self-loop the diagonal stays 0 *)
Lemma diag_zero i s : (forall a b q, fst s a b = Fin q -> (0 <= q)%Q) ->
  (exists q, fst s i i = Fin q /\ (q == 0)%Q) ->
  forall k L, let s' := fold_left (fw_body k) L s in
  (forall a b q, fst s' a b = Fin q -> (0 <= q)%Q) /\ (exists q, fst s' i i = Fin q /\ (q == 0)%Q).
Proof.
  intros Hn Hz k L. revert s Hn Hz. induction L as [|[a b] L IH]; intros [d nx] Hn Hz; simpl; [auto|].
  apply IH; simpl in *.
  - destruct (egtb _ _); simpl; auto. intros x y q. destruct ((x =? a) && (y =? b)); [|apply Hn].
    destruct (d a k) as [u|] eqn:Eu, (d k b) as [v|] eqn:Ev; simpl; try discriminate.
    intros H. injection H as <-. apply Hn in Eu, Ev. lra.
  - destruct (egtb (d a b) _) eqn:Eg; simpl; auto.
    destruct ((i =? a) && (i =? b)) eqn:Eb; auto.
    apply andb_true_iff in Eb as [A B]. apply Nat.eqb_eq in A, B. subst a b.
    destruct Hz as (q & Eq & Hq). rewrite Eq in Eg.
    destruct (d i k) as [u|] eqn:Eu, (d k i) as [v|] eqn:Ev; simpl eadd in Eg; try discriminate.
    apply egtb_fin in Eg. apply Hn in Eu, Ev. lra.
Qed.
Lemma diag_zero_loop i L : forall s, (forall a b q, fst s a b = Fin q -> (0 <= q)%Q) ->
  (exists q, fst s i i = Fin q /\ (q == 0)%Q) ->
  exists q, fst (fold_left (fw_stage n) L s) i i = Fin q /\ (q == 0)%Q.
Proof.
  induction L as [|k L IH]; intros s Hn Hz; simpl; auto.
  destruct (diag_zero i s Hn Hz k (list_prod (seq 0 n) (seq 0 n))) as [A B]. apply IH; auto.
Qed.
End Loop.

(* initial matrices *)
Lemma mset_ok {A} n (m : mat A) i j v : i < n -> j < n ->
  mset n m i j v = Ok (fun a b => if (a =? i) && (b =? j) then v else m a b).
Proof. intros Hi Hj. unfold mset. apply Nat.ltb_lt in Hi, Hj. now rewrite Hi, Hj. Qed.

Lemma last_edge_snoc es ws e w i j v : List.length es = List.length ws ->
  last_edge (es ++ [e]) (ws ++ [w]) i j v <-> (e = (i, j) /\ v = w) \/ (e <> (i, j) /\ last_edge es ws i j v).
Proof.
  intros Len. split.
  - intros (p & H1 & H2 & H3).
    assert (Lp : p < List.length (es ++ [e])) by (apply nth_error_Some; congruence).
    rewrite app_length in Lp. simpl in Lp.
    destruct (Nat.eq_dec p (List.length es)) as [->|Np].
    + rewrite nth_error_app2, Nat.sub_diag in H1 by lia. simpl in H1.
      rewrite Len, nth_error_app2, Nat.sub_diag in H2 by lia. simpl in H2. left. split; congruence.
    + rewrite nth_error_app1 in H1, H2 by lia. right. split.
      * intros ->. apply (H3 (List.length es)); [lia|]. rewrite nth_error_app2, Nat.sub_diag by lia. reflexivity.
      * exists p. repeat split; auto. intros p' Lp' Ep'. apply (H3 p' Lp').
        rewrite nth_error_app1; auto. apply nth_error_Some. congruence.
  - intros [[-> ->]|[N (p & H1 & H2 & H3)]].
    + exists (List.length es). repeat split.
      * rewrite nth_error_app2, Nat.sub_diag by lia. reflexivity.
      * rewrite Len, nth_error_app2, Nat.sub_diag by lia. reflexivity.
      * intros p' L H. assert (p' < List.length (es ++ [(i, j)])) by (apply nth_error_Some; congruence).
        rewrite app_length in H0. simpl in H0. lia.
    + exists p. assert (p < List.length es) by (apply nth_error_Some; congruence).
      repeat split; try (rewrite nth_error_app1; auto; lia).
      intros p' L H'. destruct (Nat.lt_ge_cases p' (List.length es)) as [L'|L'].
      * rewrite nth_error_app1 in H' by lia. now apply (H3 p').
      * assert (p' < List.length (es ++ [e])) by (apply nth_error_Some; congruence).
        rewrite app_length in H0. simpl in H0. assert (p' = List.length es) by lia. subst p'.
        rewrite nth_error_app2, Nat.sub_diag in H' by lia. simpl in H'. congruence.
Qed.

Lemma last_edge_fun es ws i j v v' : last_edge es ws i j v -> last_edge es ws i j v' -> v = v'.
Proof.
  intros (p & H1 & H2 & H3) (p' & H1' & H2' & H3').
  destruct (Nat.lt_trichotomy p p') as [L|[->|L]].
  - now destruct (H3 _ L).
  - congruence.
  - now destruct (H3' _ L).
Qed.

Definition entered (es : list (nat * nat)) (ws : list Q) (s : mat ext * mat (option nat)) : Prop :=
  forall i j,
    (forall v, last_edge es ws i j v -> fst s i j = Fin v /\ snd s i j = Some j) /\
    ((forall v, ~ last_edge es ws i j v) -> fst s i j = gd_init_dist i j /\ snd s i j = None).

Lemma pair_eqb_ne i j a b : (a, b) <> (i, j) -> (i =? a) && (j =? b) = false.
Proof.
  intros N. destruct (i =? a) eqn:E1, (j =? b) eqn:E2; auto. apply Nat.eqb_eq in E1, E2. congruence.
Qed.

Lemma combine_snoc {A B} (l : list A) (m : list B) a b : List.length l = List.length m ->
  combine (l ++ [a]) (m ++ [b]) = combine l m ++ [(a, b)].
Proof.
  revert m. induction l as [|x l IH]; intros [|y m] L; simpl in *; try discriminate; auto.
  f_equal. apply IH. lia.
Qed.

Lemma calc_init n es : forall ws, List.length es = List.length ws ->
  (forall i j, In (i, j) es -> i < n /\ j < n) ->
  exists s, foldM (gd_enter_edge n) (combine es ws) (gd_init_dist, gd_init_next) = Ok s /\ entered es ws s.
Proof.
  induction es as [|[a b] es IH] using rev_ind; intros ws Len Hin.
  - destruct ws; [|discriminate]. exists (gd_init_dist, gd_init_next). split; auto.
    intros i j. split; auto. intros v (p & H & _). destruct p; discriminate.
  - destruct (exists_last (l := ws)) as (ws' & w & ->).
    { intros ->. rewrite app_length in Len. simpl in Len. lia. }
    rewrite !app_length in Len. simpl in Len.
    assert (Len' : List.length es = List.length ws') by lia.
    destruct (IH ws' Len') as ([d nx] & Hf & He). { intros i j H. apply Hin. apply in_app_iff. auto. }
    destruct (Hin a b) as [La Lb]. { apply in_app_iff. simpl. auto. }
    rewrite combine_snoc by auto.
    rewrite foldM_app, Hf. cbn [bind foldM gd_enter_edge].
    rewrite mset_ok by auto. cbn [bind]. rewrite mset_ok by auto. cbn [bind].
    eexists. split; [reflexivity|]. intros i j. cbn [fst snd].
    destruct (pair_dec (a, b) (i, j)) as [Eq|N].
    + injection Eq as <- <-. rewrite !Nat.eqb_refl. simpl. split.
      * intros v H. apply last_edge_snoc in H; auto. destruct H as [[_ ->]|[N _]]; [auto|congruence].
      * intros H. destruct (H w). apply last_edge_snoc; auto.
    + rewrite pair_eqb_ne by auto. destruct (He i j) as [H1 H2]. split.
      * intros v H. apply last_edge_snoc in H; auto. destruct H as [[X _]|[_ H]]; [congruence|auto].
      * intros H. apply H2. intros v H'. apply (H v). apply last_edge_snoc; auto.
Qed.

Lemma last_edge_exists es ws i j : List.length es = List.length ws -> In (i, j) es -> exists v, last_edge es ws i j v.
Proof.
  revert ws. induction es as [|e es IH] using rev_ind; intros ws Len H; [destruct H|].
  destruct (exists_last (l := ws)) as (ws' & w & ->).
  { intros ->. rewrite app_length in Len. simpl in Len. lia. }
  rewrite !app_length in Len. simpl in Len.
  destruct (pair_dec e (i, j)) as [->|N].
  - exists w. apply last_edge_snoc; [lia|auto].
  - apply in_app_iff in H as [H|[H|[]]]; [|congruence].
    destruct (IH ws' ltac:(lia) H) as (v & Hv). exists v. apply last_edge_snoc; [lia|auto].
Qed.
Lemma last_edge_in es ws i j v : last_edge es ws i j v -> In (i, j) es /\ In v ws.
Proof. intros (p & H1 & H2 & _). split; eapply nth_error_In; eauto. Qed.
Lemma last_edge_dec es ws i j : List.length es = List.length ws ->
  (exists v, last_edge es ws i j v) \/ (forall v, ~ last_edge es ws i j v).
Proof.
  intros Len. destruct (in_dec pair_dec (i, j) es) as [H|H].
  - left. now apply last_edge_exists.
  - right. intros v Hv. apply last_edge_in in Hv. tauto.
Qed.

Lemma entered_inv n es ws s : List.length es = List.length ws ->
  (forall i j, In (i, j) es -> i < n /\ j < n) -> (forall w, In w ws -> (0 <= w)%Q) ->
  entered es ws s -> Inv (last_edge es ws) 0 (fst s) (snd s) /\ outside n s.
Proof.
  intros Len Hin Hw He. split; [constructor|].
  - intros i j c K N. destruct K as [i j w H|]; [|lia].
    destruct (He i j) as [H1 _]. destruct (H1 _ H) as [Ed _]. exists w. split; auto. lra.
  - intros i j q N Eq. destruct (last_edge_dec es ws i j Len) as [[v H]|H].
    + destruct (He i j) as [H1 _]. destruct (H1 _ H) as [Ed En].
      rewrite Ed in Eq. injection Eq as <-. exists v. split; [|lra]. apply ch_last; auto.
    + destruct (He i j) as [_ H2]. destruct (H2 H) as [Ed _]. unfold gd_init_dist in Ed.
      apply Nat.eqb_neq in N. rewrite N in Ed. congruence.
  - intros i j N Eq. destruct (last_edge_dec es ws i j Len) as [[v H]|H].
    + destruct (He i j) as [H1 _]. destruct (H1 _ H) as [Ed En]. congruence.
    + destruct (He i j) as [_ H2]. now destruct (H2 H).
  - intros i. destruct (last_edge_dec es ws i i Len) as [[v H]|H].
    + destruct (He i i) as [H1 _]. destruct (H1 _ H) as [Ed En]. exists v. split; auto.
      apply last_edge_in in H. apply Hw. tauto.
    + destruct (He i i) as [_ H2]. destruct (H2 H) as [Ed _]. unfold gd_init_dist in Ed.
      rewrite Nat.eqb_refl in Ed. exists 0%Q. split; auto. lra.
  - intros i j Nij N. destruct (He i j) as [_ H2].
    destruct H2 as [Ed En]. { intros v Hv. apply last_edge_in in Hv as [Hv _]. apply Hin in Hv. tauto. }
    split; auto. rewrite Ed. unfold gd_init_dist. apply Nat.eqb_neq in N. now rewrite N.
Qed.

(* walks and nonempty walks *)
Lemma dwalk_kw (E : nat -> nat -> Q -> Prop) n i j p c : (forall i j w, E i j w -> i < n /\ j < n) -> dwalk E i j p c ->
  (i = j /\ c = 0%Q) \/ exists c', kw E n i j c' /\ (c' == c)%Q.
Proof.
  intros Hin. induction 1 as [i|i m j w p c He W IH]; [auto|]. right.
  destruct IH as [[-> ->]|(c' & K & Ec)].
  - exists w. split; [now apply kw_edge|lra].
  - exists (w + c')%Q. split; [|lra]. eapply kw_step; eauto. eapply Hin; eauto.
Qed.
Lemma kw_dwalk (E : nat -> nat -> Q -> Prop) n i j c : kw E n i j c -> exists p c', dwalk E i j p c' /\ (c' == c)%Q.
Proof.
  induction 1 as [i j w H|i m j w c H L K IH].
  - exists [i; j], (w + 0)%Q. split; [|lra]. eapply dwalk_cons; eauto. apply dwalk_nil.
  - destruct IH as (p & c' & W & Ec). exists (i :: p), (w + c')%Q. split; [|lra].
    eapply dwalk_cons; eauto.
Qed.
Lemma dwalk_nonneg (E : nat -> nat -> Q -> Prop) i j p c : (forall i j w, E i j w -> (0 <= w)%Q) -> dwalk E i j p c -> (0 <= c)%Q.
Proof. intros H. induction 1 as [i|i m j w p c He W IH]; [lra|]. apply H in He. lra. Qed.

(* graphs made by new and set_weight *)
Definition wf_gdir (es : list (nat * nat)) (g : gdir) : Prop :=
  gd_edges g = es /\ gd_nnode g = List.length (node_set es) /\
  List.length es = List.length (gd_weights g) /\ (forall w, In w (gd_weights g) -> (0 <= w)%Q).

Lemma gd_new_wf es : wf_gdir es (gd_new es).
Proof.
  repeat split; simpl; [now rewrite map_length|].
  intros w H. apply in_map_iff in H as (x & <- & _). discriminate.
Qed.
Lemma upd_in {A} (l : list A) i x y : In y (upd l i x) -> y = x \/ In y l.
Proof.
  revert i. induction l as [|a l IH]; intros [|i]; simpl; auto; intros [H|H]; auto.
  destruct (IH _ H); auto.
Qed.
Lemma gd_set_weight_inv g e w g' : gd_set_weight g e w = Ok g' ->
  (0 <= w)%Q /\ e < List.length (gd_weights g) /\
  g' = mkGdir (gd_edges g) (upd (gd_weights g) e w) (gd_nnode g) (gd_dist g) (gd_next g) false.
Proof.
  unfold gd_set_weight, set. destruct (Qle_bool 0 w) eqn:Ew; [|discriminate].
  destruct (e <? _) eqn:Ee; [|discriminate]. simpl. intros H. injection H as <-.
  apply Qle_bool_iff in Ew. apply Nat.ltb_lt in Ee. auto.
Qed.
Lemma gd_set_weight_wf es g e w g' : wf_gdir es g -> gd_set_weight g e w = Ok g' -> wf_gdir es g'.
Proof.
  intros (A & B & C & D) H. apply gd_set_weight_inv in H as (Hw & He & ->).
  repeat split; simpl; auto.
  - rewrite upd_length. auto.
  - intros x Hx. apply upd_in in Hx as [->|Hx]; auto.
Qed.

Lemma node_set_length es : List.length (node_set es) = List.length (nodup Nat.eq_dec (map fst es ++ map snd es)).
Proof.
  apply Permutation_length. apply NoDup_Permutation; try apply NoDup_nodup.
  intros x. unfold node_set. rewrite !nodup_In, in_app_iff, in_flat_map. split.
  - intros ([a b] & H & [<-|[<-|[]]]); [left|right].
    + change a with (fst (a, b)). now apply in_map.
    + change b with (snd (a, b)). now apply in_map.
  - intros [H|H]; apply in_map_iff in H as ([a b] & <- & H); exists (a, b); simpl; auto.
Qed.

Lemma contiguous_in es : contiguous es -> forall i j, In (i, j) es ->
  i < List.length (node_set es) /\ j < List.length (node_set es).
Proof. intros H i j Hi. rewrite node_set_length. now apply H. Qed.

Definition fw_result (es : list (nat * nat)) (g g' : gdir) : Prop :=
  let E := last_edge es (gd_weights g) in
  Inv E (gd_nnode g) (gd_dist g') (gd_next g') /\ outside (gd_nnode g) (gd_dist g', gd_next g') /\
  gd_nnode g' = gd_nnode g /\ gd_edges g' = es /\ gd_weights g' = gd_weights g /\ gd_ready g' = true /\
  (forall i, ~ In (i, i) es -> exists q, gd_dist g' i i = Fin q /\ (q == 0)%Q).

Lemma fw_correct es g : wf_gdir es g -> contiguous es ->
  exists g', gd_shortest_paths_fw g = Ok g' /\ fw_result es g g'.
Proof.
  intros (A & B & C & D) Cn. unfold gd_shortest_paths_fw, gd_calc_dist_and_next.
  rewrite A, B.
  destruct (calc_init (List.length (node_set es)) es (gd_weights g) C (contiguous_in es Cn)) as (s & -> & He).
  cbn [bind]. destruct s as [d nx]. cbn [bind gd_nnode gd_dist gd_next gd_edges gd_weights].
  destruct (fold_left (fw_stage _) _ _) as [d' nx'] eqn:Ef.
  eexists. split; [reflexivity|].
  set (n := List.length (node_set es)) in *.
  assert (En : forall i j w, last_edge es (gd_weights g) i j w -> (0 <= w)%Q).
  { intros i j w H. apply last_edge_in in H. apply D. tauto. }
  destruct (entered_inv n es (gd_weights g) (d, nx) C (contiguous_in es Cn) D He) as [I O].
  pose proof (fw_loop_inv _ En n (d, nx) I O n (Nat.le_refl _)) as H. cbv zeta in H. rewrite Ef in H.
  unfold fw_result. cbn [gd_nnode gd_dist gd_next gd_edges gd_weights gd_ready fst snd] in *.
  rewrite B. fold n. destruct H as [I' O']. split; [exact I'|]. split; [exact O'|]. do 4 (split; [auto|]).
  intros i Ni.
  pose proof (diag_zero_loop n i (seq 0 n) (d, nx)) as Z. rewrite Ef in Z. apply Z; cbn [fst].
  - intros a b q. apply (fin_nonneg _ En _ _ _ I).
  - destruct (He i i) as [_ H2]. destruct H2 as [Ed _].
    { intros v Hv. apply last_edge_in in Hv. tauto. }
    exists 0%Q. simpl in Ed. unfold gd_init_dist in Ed. rewrite Nat.eqb_refl in Ed. split; auto. lra.
Qed.

Lemma fw_dist es g g' : wf_gdir es g -> contiguous es -> fw_result es g g' ->
  forall i j, i <> j \/ ~ In (i, i) es ->
  match gd_dist g' i j with
  | Fin d => least_weight (last_edge es (gd_weights g)) i j d
  | Inf => no_walk (last_edge es (gd_weights g)) i j
  end.
Proof.
  intros (A & B & C & D) Cn (I & O & Hn & _ & _ & _ & Z) i j Hij.
  set (E := last_edge es (gd_weights g)) in *.
  assert (En : forall i j w, E i j w -> (0 <= w)%Q).
  { intros a b w H. apply last_edge_in in H. apply D. tauto. }
  assert (Ein : forall i j w, E i j w -> i < gd_nnode g /\ j < gd_nnode g).
  { intros a b w H. apply last_edge_in in H as [H _]. rewrite B. now apply contiguous_in. }
  destruct (Nat.eq_dec i j) as [<-|N].
  - destruct Hij as [|Hij]; [tauto|]. destruct (Z i Hij) as (q & -> & Eq). split.
    + exists [i], 0%Q. split; [constructor|lra].
    + intros p c W. apply dwalk_nonneg in W; auto. lra.
  - destruct (gd_dist g' i j) as [q|] eqn:Eq.
    + split.
      * destruct (i_chain _ _ _ _ I i j q N Eq) as (c & Ch & Ec). apply chain_kw, kw_dwalk in Ch.
        destruct Ch as (p & c' & W & Ec'). exists p, c'. split; auto. lra.
      * intros p c W. destruct (dwalk_kw _ _ _ _ _ _ Ein W) as [[X _]|(c' & K & Ec)]; [tauto|].
        destruct (i_low _ _ _ _ I i j c' K N) as (q' & Eq' & L). rewrite Eq in Eq'. injection Eq' as <-. lra.
    + intros p c W. destruct (dwalk_kw _ _ _ _ _ _ Ein W) as [[X _]|(c' & K & Ec)]; [tauto|].
      destruct (i_low _ _ _ _ I i j c' K N) as (q' & Eq' & L). congruence.
Qed.

(* path *)
Lemma path_chain es g g' : wf_gdir es g -> contiguous es -> fw_result es g g' ->
  forall i j c, chain (last_edge es (gd_weights g)) (gd_next g') (gd_nnode g) j i c ->
  exists l f, (exists c', dwalk (last_edge es (gd_weights g)) i j (i :: l) c' /\ (c' == c)%Q) /\
    forall fuel acc, f <= fuel -> path_loop fuel g' j (Some i) acc = Ok (acc ++ l).
Proof.
  intros (A & B & C & D) Cn (I & O & Hn & _ & _ & _ & Z) i j c.
  assert (Ein : forall i j w, last_edge es (gd_weights g) i j w -> i < gd_nnode g /\ j < gd_nnode g).
  { intros a b w H. apply last_edge_in in H as [H _]. rewrite B. now apply contiguous_in. }
  assert (Jin : forall i c, chain (last_edge es (gd_weights g)) (gd_next g') (gd_nnode g) j i c -> j < gd_nnode g).
  { intros i0 c0. induction 1; auto. eapply Ein; eauto. }
  induction 1 as [i w Hx N He|i m w c Hx N Nm Lm He Ch IH].
  - exists [j], 2. split.
    + exists (w + 0)%Q. split; [|lra]. eapply dwalk_cons; eauto. apply dwalk_nil.
    + intros [|[|fuel]] acc L; try lia. cbn [path_loop].
      apply Nat.eqb_neq in N. rewrite N. unfold mget. rewrite Hn.
      destruct (Ein _ _ _ He) as [Li Lj]. apply Nat.ltb_lt in Li, Lj. rewrite Li, Lj.
      cbn [andb bind]. rewrite Hx. now rewrite Nat.eqb_refl.
  - destruct IH as (l & f & (c' & W & Ec) & Hf). exists (m :: l), (S f). split.
    + exists (w + c')%Q. split; [|lra]. eapply dwalk_cons; eauto.
    + intros [|fuel] acc L; [lia|]. cbn [path_loop].
      apply Nat.eqb_neq in N. rewrite N. unfold mget. rewrite Hn.
      destruct (Ein _ _ _ He) as [Li _]. pose proof (Jin _ _ Ch) as Lj. apply Nat.ltb_lt in Li, Lj. rewrite Li, Lj.
      cbn [andb bind]. rewrite Hx. rewrite Hf by lia. now rewrite <- app_assoc.
Qed.

Lemma path_correct es g g' : wf_gdir es g -> contiguous es -> fw_result es g g' ->
  forall i j, i < gd_nnode g -> j < gd_nnode g ->
  (forall d, gd_dist g' i j = Fin d -> i <> j ->
     exists p f, (forall fuel, f <= fuel -> gd_path fuel g' i j = Ok p) /\
       exists c, dwalk (last_edge es (gd_weights g)) i j p c /\ (c == d)%Q) /\
  (gd_dist g' i j = Inf -> i <> j -> forall fuel, 2 <= fuel -> gd_path fuel g' i j = Err "no path found") /\
  (i = j -> forall fuel, 1 <= fuel -> gd_path fuel g' i j = Ok [i]).
Proof.
  intros W Cn R i j Li Lj. pose proof R as (I & O & Hn & _ & _ & Hr & Z).
  unfold gd_path. rewrite Hr. repeat split.
  - intros d Ed N. destruct (i_chain _ _ _ _ I i j d N Ed) as (c & Ch & Ec).
    destruct (path_chain es g g' W Cn R i j c Ch) as (l & f & (c' & Wk & Ec') & Hf).
    exists (i :: l), f. split; [|exists c'; split; auto; lra].
    intros fuel L. now rewrite Hf.
  - intros Ed N [|[|fuel]] L; try lia. cbn [path_loop]. apply Nat.eqb_neq in N as N'. rewrite N'.
    unfold mget. rewrite Hn. apply Nat.ltb_lt in Li, Lj. rewrite Li, Lj. cbn [andb bind].
    now rewrite (i_inf _ _ _ _ I i j N Ed).
  - intros -> [|fuel] L; [lia|]. cbn [path_loop]. now rewrite Nat.eqb_refl.
Qed.

(* graphs without parallel edges *)
Lemma last_some es ws i j w : NoDup es -> last_edge es ws i j w <-> some_edge es ws i j w.
Proof.
  intros ND. split.
  - intros (e & H1 & H2 & _). now exists e.
  - intros (e & H1 & H2). exists e. repeat split; auto. intros e' L H.
    assert (e = e'); [|lia]. rewrite NoDup_nth_error in ND. apply ND; [|congruence].
    apply nth_error_Some. congruence.
Qed.
Lemma dwalk_impl (E F : nat -> nat -> Q -> Prop) i j p c : (forall a b w, E a b w -> F a b w) -> dwalk E i j p c -> dwalk F i j p c.
Proof. intros H. induction 1; [constructor|econstructor; eauto]. Qed.
