(* Proofs: extraction of features (points, limits, edges, faces) *)
From Coq Require Import String List Arith Bool ZArith Lia Permutation Sorted.
From Verif Require Import Base BaseFacts Kind ShapesProof ShapesTables MeshModel MeshQuerySpec TopoModel TopoSpec TopoMaps TopoProof.
Import ListNotations.
Open Scope nat_scope.

Lemma unwrap_ok {A} (o : option A) a : unwrap o = Ok a <-> o = Some a.
Proof. destruct o; cbn; split; intros H; try discriminate; injection H as ->; reflexivity. Qed.

Lemma mput_new {K V} (eqb : K -> K -> bool) (H : forall a b, eqb a b = true <-> a = b) (m : list (K * V)) k v :
  ~ In k (map fst m) -> mput eqb m k v = m ++ [(k, v)].
Proof.
  induction m as [|[k' v'] t IH]; cbn; [reflexivity|]. intros N.
  rewrite (eqb_neq _ H) by (intros ->; auto). rewrite IH by auto. reflexivity.
Qed.

Section Limits.
Context {T : Type}.
Variable leb : T -> T -> bool.
Hypothesis ord : total_order leb.
Implicit Types (m : mesh T).

Lemma gmin_spec (S : T -> Prop) a x :
  match a with None => forall y, ~ S y | Some z => least leb S z end ->
  match gmin leb a x with None => False | Some z => least leb (fun y => S y \/ y = x) z end.
Proof.
  destruct ord as [Tot Tr]. unfold least. destruct a as [z|]; cbn.
  - intros [Hz Hm]. destruct (leb z x) eqn:E.
    + split; [auto|]. intros y [Hy| ->]; auto.
    + assert (X : leb x z = true) by (destruct (Tot x z); congruence).
      split; [auto|]. intros y [Hy| ->]; [eauto|]. destruct (Tot x x); assumption.
  - intros N. split; [auto|]. intros y [Hy| ->]; [destruct (N y Hy)|]. destruct (Tot x x); assumption.
Qed.
Lemma gmax_spec (S : T -> Prop) a x :
  match a with None => forall y, ~ S y | Some z => greatest leb S z end ->
  match gmax leb a x with None => False | Some z => greatest leb (fun y => S y \/ y = x) z end.
Proof.
  destruct ord as [Tot Tr]. unfold greatest. destruct a as [z|]; cbn.
  - intros [Hz Hm]. destruct (leb x z) eqn:E.
    + split; [auto|]. intros y [Hy| ->]; auto.
    + assert (X : leb z x = true) by (destruct (Tot x z); congruence).
      split; [auto|]. intros y [Hy| ->]; [eauto|]. destruct (Tot x x); assumption.
  - intros N. split; [auto|]. intros y [Hy| ->]; [destruct (N y Hy)|]. destruct (Tot x x); assumption.
Qed.

(* the limits are those of the coordinates in [S j], for each direction j *)
Definition lim_of (nd : nat) (S : nat -> T -> Prop) (lim : @limits T) : Prop :=
  List.length (fst lim) = nd /\ List.length (snd lim) = nd /\
  forall j, j < nd ->
    match nth j (fst lim) None with None => forall y, ~ S j y | Some z => least leb (S j) z end /\
    match nth j (snd lim) None with None => forall y, ~ S j y | Some z => greatest leb (S j) z end.
Lemma lim_ext nd S S' lim : (forall j y, j < nd -> (S j y <-> S' j y)) -> lim_of nd S lim -> lim_of nd S' lim.
Proof.
  intros E (A & B & C). split; [exact A|]. split; [exact B|]. intros j Hj. destruct (C j Hj) as [C1 C2].
  split; [destruct (nth j (fst lim) None) as [z|]|destruct (nth j (snd lim) None) as [z|]].
  - destruct C1 as [X Y]. split; [apply E; auto|]. intros y Hy. apply Y, E; auto.
  - intros y Hy. apply (C1 y), E; auto.
  - destruct C2 as [X Y]. split; [apply E; auto|]. intros y Hy. apply Y, E; auto.
  - intros y Hy. apply (C2 y), E; auto.
Qed.
Lemma lim_none nd : lim_of nd (fun _ _ => False) (no_limits nd).
Proof.
  unfold no_limits. split; [apply repeat_length|]. split; [apply repeat_length|]. intros j Hj. cbn.
  rewrite nth_repeat. auto.
Qed.

Lemma grow_spec nd S lim coords lim' : lim_of nd S lim -> grow leb nd lim coords = Ok lim' ->
  (forall j, j < nd -> exists x, nth_error coords j = Some x) /\
  lim_of nd (fun j y => S j y \/ nth_error coords j = Some y) lim'.
Proof.
  intros L H. unfold grow in H.
  assert (X : forall n lim', n <= nd ->
    foldM (fun (lim : limits) j =>
      let! x := get coords j in
      let! a := get (fst lim) j in
      let! b := get (snd lim) j in
      let! mn := set (fst lim) j (gmin leb a x) in
      let! mx := set (snd lim) j (gmax leb b x) in
      Ok (mn, mx)) (seq 0 n) lim = Ok lim' ->
    (forall j, j < n -> exists x, nth_error coords j = Some x) /\
    lim_of nd (fun j y => S j y \/ (j < n /\ nth_error coords j = Some y)) lim').
  { clear lim' H. induction n as [|n IH]; intros lim' Hn H.
    - cbn in H. injection H as <-. split; [intros j Hj; lia|]. eapply lim_ext; [|exact L]. intros j y Hj; cbn. intuition lia.
    - rewrite seq_S in H. rewrite foldM_app in H. apply bind_ok in H. destruct H as (l1 & E1 & H).
      destruct (IH l1 ltac:(lia) E1) as (I1 & I2). clear IH E1.
      cbn [foldM plus] in H. apply bind_ok in H. destruct H as (l2 & E2 & H). injection H as ->.
      apply bind_ok in E2. destruct E2 as (x & Ex & E2). apply bind_ok in E2. destruct E2 as (a & Ea & E2).
      apply bind_ok in E2. destruct E2 as (b & Eb & E2). apply bind_ok in E2. destruct E2 as (mn & Emn & E2).
      apply bind_ok in E2. destruct E2 as (mx & Emx & E2). injection E2 as <-.
      apply get_iff in Ex. apply get_inv in Ea, Eb. apply set_inv in Emn, Emx.
      destruct Emn as [Ln ->], Emx as [Lx ->]. destruct I2 as (A & B & C).
      split; [intros j Hj; destruct (Nat.eq_dec j n) as [->|]; [eauto|apply I1; lia]|].
      split; [cbn; rewrite upd_length; exact A|]. split; [cbn; rewrite upd_length; exact B|].
      intros j Hj. cbn [fst snd]. destruct (Nat.eq_dec j n) as [->|N].
      + rewrite !nth_upd_same by assumption.
        destruct (C n Hj) as [C1 C2].
        assert (Ea' : nth n (fst l1) None = a) by (apply nth_error_nth; tauto).
        assert (Eb' : nth n (snd l1) None = b) by (apply nth_error_nth; tauto).
        rewrite Ea' in C1. rewrite Eb' in C2. apply (gmin_spec _ _ x) in C1. apply (gmax_spec _ _ x) in C2.
        assert (EQ : forall y, ((S n y \/ n < n /\ nth_error coords n = Some y) \/ y = x) <->
                               (S n y \/ n < Datatypes.S n /\ nth_error coords n = Some y)).
        { intros y. rewrite Ex. split; [intros [[?|[? ?]]| ->]; auto; lia|intros [?|[_ E]]; [auto|]]. injection E as ->. auto. }
        split.
        * destruct (gmin leb a x) as [z|]; [|destruct C1]. destruct C1 as [Z1 Z2].
          split; [apply EQ; exact Z1|]. intros y Hy. apply Z2, EQ, Hy.
        * destruct (gmax leb b x) as [z|]; [|destruct C2]. destruct C2 as [Z1 Z2].
          split; [apply EQ; exact Z1|]. intros y Hy. apply Z2, EQ, Hy.
      + rewrite !nth_upd_other by auto. destruct (C j Hj) as [C1 C2].
        assert (EQ : forall y, (S j y \/ j < n /\ nth_error coords j = Some y) <->
                               (S j y \/ j < Datatypes.S n /\ nth_error coords j = Some y)) by (intros y; intuition lia).
        split.
        * destruct (nth j (fst l1) None) as [z|]; [|intros y Hy; apply (C1 y), EQ, Hy]. destruct C1 as [Z1 Z2].
          split; [apply EQ; exact Z1|]. intros y Hy. apply Z2, EQ, Hy.
        * destruct (nth j (snd l1) None) as [z|]; [|intros y Hy; apply (C2 y), EQ, Hy]. destruct C2 as [Z1 Z2].
          split; [apply EQ; exact Z1|]. intros y Hy. apply Z2, EQ, Hy. }
  destruct (X nd lim' ltac:(lia) H) as [X1 X2]. split; [exact X1|]. eapply lim_ext; [|exact X2].
  intros j y Hj. cbn. intuition.
Qed.

Definition pl_of m (P : nat -> Prop) (pl : list nat * @limits T) : Prop :=
  NoDup (fst pl) /\ (forall p, In p (fst pl) <-> P p) /\
  lim_of (ndim m) (fun j x => exists p, P p /\ coord_is m p j x) (snd pl).
Lemma pl_ext m P P' pl : (forall p, P p <-> P' p) -> pl_of m P pl -> pl_of m P' pl.
Proof.
  intros E (A & B & C). split; [exact A|]. split; [intros p; rewrite B; apply E|]. eapply lim_ext; [|exact C].
  intros j y _; cbn. split; intros (p & Hp & X); exists p; (split; [apply E; exact Hp|exact X]).
Qed.
Lemma pl_none m : pl_of m (fun _ => False) ([], no_limits (ndim m)).
Proof.
  split; [constructor|]. split; [intros p; cbn; tauto|]. cbn [snd]. eapply lim_ext; [|apply lim_none].
  intros j y _; cbn. split; [tauto|intros (p & [] & _)].
Qed.
Lemma add_point_spec m P pl p pl' : pl_of m P pl -> add_point leb m pl p = Ok pl' ->
  pl_of m (fun q => P q \/ q = p) pl'.
Proof.
  intros (A & B & C) H. unfold add_point in H. apply bind_ok in H. destruct H as (pt & Ept & H).
  apply bind_ok in H. destruct H as (lim & El & H). injection H as <-. apply get_iff in Ept.
  destruct (grow_spec _ _ _ _ _ C El) as [G1 G2].
  split; [apply sadd_nodup; [apply nat_eqb_eq|exact A]|]. split.
  - intros q. cbn [fst]. rewrite (sadd_in _ nat_eqb_eq). rewrite B. tauto.
  - cbn [snd]. eapply lim_ext; [|exact G2]. intros j y _; cbn. split.
    + intros [(q & Hq & X)|X]; [exists q; auto|]. exists p. split; [auto|]. exists pt. auto.
    + intros (q & [Hq| ->] & X); [left; exists q; auto|]. right. destruct X as (pt' & E1 & E2). congruence.
Qed.
Lemma add_points_spec m ps : forall P pl pl', pl_of m P pl -> foldM (add_point leb m) ps pl = Ok pl' ->
  pl_of m (fun q => P q \/ In q ps) pl'.
Proof.
  induction ps as [|p t IH]; intros P pl pl' L H; cbn in H.
  - injection H as <-. eapply pl_ext; [|exact L]. intros q; cbn. tauto.
  - apply bind_ok in H. destruct H as (pl1 & E & H). apply (add_point_spec _ _ _ _ _ L) in E.
    specialize (IH _ _ _ E H). eapply pl_ext; [|exact IH]. intros q; cbn. intuition.
Qed.
Lemma grow_total nd lim coords : List.length (fst lim) = nd -> List.length (snd lim) = nd -> List.length coords = nd ->
  exists lim', grow leb nd lim coords = Ok lim' /\ List.length (fst lim') = nd /\ List.length (snd lim') = nd.
Proof.
  intros A B C. unfold grow.
  assert (X : forall js lim, (forall j, In j js -> j < nd) -> List.length (fst lim) = nd -> List.length (snd lim) = nd ->
    exists lim', foldM (fun (lim : limits) j =>
      let! x := get coords j in
      let! a := get (fst lim) j in
      let! b := get (snd lim) j in
      let! mn := set (fst lim) j (gmin leb a x) in
      let! mx := set (snd lim) j (gmax leb b x) in
      Ok (mn, mx)) js lim = Ok lim' /\ List.length (fst lim') = nd /\ List.length (snd lim') = nd).
  { clear lim A B. induction js as [|j t IH]; intros lim Hj A B; cbn; [eexists; auto|].
    assert (J : j < nd) by (apply Hj; left; reflexivity).
    destruct (nth_error coords j) as [x|] eqn:E; [|apply nth_error_None in E; lia].
    apply get_iff in E. rewrite E. cbn. rewrite (get_ok (fst lim) j None) by lia. cbn.
    rewrite (get_ok (snd lim) j None) by lia. cbn. rewrite set_ok by lia. cbn. rewrite set_ok by lia. cbn.
    apply IH; [intros j' H'; apply Hj; right; exact H'|cbn; rewrite upd_length; exact A|cbn; rewrite upd_length; exact B]. }
  apply X; auto. intros j Hj. apply in_seq in Hj. lia.
Qed.
Definition pl_len m (pl : list nat * @limits T) : Prop :=
  List.length (fst (snd pl)) = ndim m /\ List.length (snd (snd pl)) = ndim m.
Lemma add_points_total m ps : coords_complete m -> forall pl, pl_len m pl ->
  (forall p, In p ps -> p < List.length (points m)) ->
  exists pl', foldM (add_point leb m) ps pl = Ok pl' /\ pl_len m pl'.
Proof.
  intros CC. induction ps as [|p t IH]; intros pl L H; cbn; [eexists; eauto|].
  assert (Hp : p < List.length (points m)) by (apply H; left; reflexivity).
  destruct (nth_error (points m) p) as [pt|] eqn:E; [|apply nth_error_None in E; lia].
  unfold add_point at 1. pose proof E as E'. apply get_iff in E. rewrite E. cbn.
  destruct L as [L1 L2].
  destruct (grow_total (ndim m) (snd pl) (pt_coords pt) L1 L2) as (lim & -> & M1 & M2);
    [apply CC; eapply nth_error_In; exact E'|]. cbn.
  apply IH; [split; assumption|]. intros q Hq. apply H. right. exact Hq.
Qed.
End Limits.
