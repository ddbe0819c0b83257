(* Breadth-first search: a master state with all the data, its invariant, and the simulation of the
   four loops of graph_und.rs by it. *)
From Coq Require Import String List Arith Bool Lia Sorted Permutation.
From Verif Require Import Base BaseFacts MeshModel GraphModel GraphSpec GraphVocab.
Import ListNotations.

Section BFS.
Variable adj : list (list nat).
Notation n := (List.length adj).
Notation row a := (nth a adj []).
Hypothesis wf : forall u, Forall (fun v => v < n) (row u).

Notation E := (adj_edge adj).

Record ms := mkMs { mx : list bool; mq : list nat; md : list nat; mp : list (option nat); mo : list nat }.
Definition setq (s : ms) (q : list nat) : ms := mkMs (mx s) q (md s) (mp s) (mo s).

Definition mvisit (a : nat) (s : ms) (b : nat) : ms :=
  if nth b (mx s) true then s
  else mkMs (upd (mx s) b true) (mq s ++ [b]) (upd (md s) b (nth a (md s) 0 + 1))
            (upd (mp s) b (Some a)) (mo s ++ [b]).
Definition mbody (a : nat) (s : ms) : ms := fold_left (mvisit a) (row a) s.
Fixpoint mloop (fuel : nat) (s : ms) : ms :=
  match mq s with
  | [] => s
  | a :: q => match fuel with 0 => s | S f => mloop f (mbody a (setq s q)) end
  end.
Definition minit (root : nat) : ms :=
  mkMs (upd (repeat false n) root true) [root] (repeat 0 n) (repeat None n) [root].

Notation D s v := (nth v (md s) 0).
Notation P s v := (nth v (mp s) None).

(* pd: the vertices popped so far; A: the arcs examined so far *)
Record Inv (root : nat) (pd : list nat) (A : nat -> nat -> Prop) (s : ms) : Prop := {
  i_lx : List.length (mx s) = n;
  i_ld : List.length (md s) = n;
  i_lp : List.length (mp s) = n;
  i_split : mo s = pd ++ mq s;
  i_nodup : NoDup (mo s);
  i_lt : Forall (fun v => v < n) (mo s);
  i_ex : forall v, v < n -> (nth v (mx s) true = true <-> In v (mo s));
  i_root : exists t, mo s = root :: t;
  i_droot : D s root = 0;
  i_proot : P s root = None;
  i_fresh : forall v, ~ In v (mo s) -> D s v = 0 /\ P s v = None;
  i_par : forall v, In v (mo s) -> v <> root -> exists p, P s v = Some p /\ In p pd /\ A p v /\
             D s v = D s p + 1 /\
             exists l1 l2, mo s = l1 ++ p :: l2 /\ forall x, In x l1 -> ~ E x v;
  i_sorted : StronglySorted (fun x y => D s x <= D s y) (mo s);
  i_arcs : forall v w, A v w -> In v pd /\ E v w /\ In w (mo s) /\ D s w <= D s v + 1;
  i_cm : StronglySorted (fun x y => exists px py, P s x = Some px /\ P s y = Some py /\
             (before (mo s) px py \/ (px = py /\ before (row px) x y))) (tl (mo s))
}.

Lemma In_before_app {T} (l : list T) x y : In x l -> before (l ++ [y]) x y.
Proof.
  intros H. apply in_split in H. destruct H as (l1 & l2 & ->).
  exists l1, l2, []. rewrite <- app_assoc. reflexivity.
Qed.
Lemma before_app {T} (l m : list T) x y : before l x y -> before (l ++ m) x y.
Proof.
  intros (l1 & l2 & l3 & ->). exists l1, l2, (l3 ++ m). rewrite <- !app_assoc. simpl.
  rewrite <- !app_assoc. reflexivity.
Qed.
Lemma before_in {T} (l : list T) x y : before l x y -> In x l /\ In y l.
Proof.
  intros (l1 & l2 & l3 & ->). split; rewrite ?in_app_iff; simpl; auto.
  right. right. rewrite in_app_iff. simpl. auto.
Qed.

Lemma ss_app {T} (R : T -> T -> Prop) l b :
  StronglySorted R l -> (forall x, In x l -> R x b) -> StronglySorted R (l ++ [b]).
Proof.
  induction l as [|x l IH]; simpl; intros H Hb; [repeat constructor|].
  inversion H; subst. constructor; [apply IH; auto|].
  apply Forall_app. split; auto.
Qed.
Lemma ss_impl {T} (R R' : T -> T -> Prop) l :
  (forall x y, In x l -> In y l -> R x y -> R' x y) -> StronglySorted R l -> StronglySorted R' l.
Proof.
  induction l as [|x l IH]; intros H S; [constructor|]. inversion S; subst. constructor.
  - apply IH; auto. intros; apply H; simpl; auto.
  - rewrite Forall_forall in *. intros y Hy. apply H; simpl; auto.
Qed.
Lemma ss_before {T} (R : T -> T -> Prop) l x y : StronglySorted R l -> before l x y -> R x y.
Proof.
  intros S (l1 & l2 & l3 & ->). induction l1; simpl in S; inversion S; subst; auto.
  rewrite Forall_forall in H2. apply H2. rewrite in_app_iff. simpl. auto.
Qed.

(* one visit *)
Lemma visit_inv root d a pre b A s :
  let pd := d ++ [a] in
  (exists suf, row a = pre ++ b :: suf) ->
  Inv root pd A s ->
  (forall v w, A v w <-> (In v d /\ E v w) \/ (v = a /\ In w pre)) ->
  (forall v, In v (mo s) -> D s v <= D s a + 1) ->
  a < n ->
  let A' := fun v w => A v w \/ (v = a /\ w = b) in
  Inv root pd A' (mvisit a s b) /\
  (forall v, In v (mo (mvisit a s b)) -> D (mvisit a s b) v <= D (mvisit a s b) a + 1).
Proof.
  intros pd [suf Hrow] HI HA Htop Han A'.
  assert (Hb : b < n).
  { pose proof (wf a) as W. rewrite Hrow in W. rewrite Forall_forall in W. apply W.
    rewrite in_app_iff. simpl. auto. }
  assert (HEab : E a b) by (unfold adj_edge; rewrite Hrow, in_app_iff; simpl; auto).
  assert (Hapd : In a pd) by (unfold pd; rewrite in_app_iff; simpl; auto).
  assert (Hamo : In a (mo s)) by (rewrite (i_split _ _ _ _ HI), in_app_iff; auto).
  unfold mvisit. destruct (nth b (mx s) true) eqn:Ex.
  - (* already explored *)
    apply (i_ex _ _ _ _ HI) in Ex; [|exact Hb]. split; [|exact Htop].
    destruct HI; constructor; auto.
    + intros v Hv Hr. destruct (i_par0 v Hv Hr) as (p & H1 & H2 & H3 & H4 & H5).
      exists p. repeat split; auto. left; auto.
    + intros v w [H|[-> ->]]; auto.
  - assert (Hnb : ~ In b (mo s)).
    { intros H. apply (i_ex _ _ _ _ HI) in H; [congruence|exact Hb]. }
    assert (Hab : a <> b) by (intros ->; auto).
    assert (Hrb : root <> b).
    { destruct (i_root _ _ _ _ HI) as [t Ht]. intros ->. apply Hnb. rewrite Ht. simpl; auto. }
    assert (Lx := i_lx _ _ _ _ HI). assert (Ld := i_ld _ _ _ _ HI). assert (Lp := i_lp _ _ _ _ HI).
    assert (DB : nth b (upd (md s) b (D s a + 1)) 0 = D s a + 1) by (apply nth_upd_same; lia).
    assert (DO : forall v, v <> b -> nth v (upd (md s) b (D s a + 1)) 0 = D s v)
      by (intros; apply nth_upd_other; auto).
    assert (PB : nth b (upd (mp s) b (Some a)) None = Some a) by (apply nth_upd_same; lia).
    assert (PO : forall v, v <> b -> nth v (upd (mp s) b (Some a)) None = P s v)
      by (intros; apply nth_upd_other; auto).
    assert (MO : forall v, In v (mo s) -> v <> b) by (intros v Hv ->; auto).
    assert (PDmo : forall v, In v pd -> In v (mo s)).
    { intros v Hv. rewrite (i_split _ _ _ _ HI), in_app_iff. auto. }
    split.
    + constructor; cbn [mx mq md mp mo].
      * rewrite upd_length; auto.
      * rewrite upd_length; auto.
      * rewrite upd_length; auto.
      * rewrite (i_split _ _ _ _ HI), app_assoc. reflexivity.
      * assert (NoDup (b :: mo s)) by (constructor; [exact Hnb|apply (i_nodup _ _ _ _ HI)]).
        eapply Permutation_NoDup; [apply Permutation_cons_append|exact H].
      * apply Forall_app. split; [apply (i_lt _ _ _ _ HI)|auto].
      * intros v Hv. rewrite nth_upd by lia. rewrite in_app_iff. simpl.
        destruct (Nat.eqb_spec b v) as [->|N].
        -- split; auto.
        -- rewrite (i_ex _ _ _ _ HI v Hv). split; [auto|]. intros [H|[H|[]]]; auto. congruence.
      * destruct (i_root _ _ _ _ HI) as [t Ht]. exists (t ++ [b]). rewrite Ht. reflexivity.
      * rewrite DO by auto. apply (i_droot _ _ _ _ HI).
      * rewrite PO by auto. apply (i_proot _ _ _ _ HI).
      * intros v Hv. rewrite in_app_iff in Hv. simpl in Hv.
        assert (v <> b) by (intros ->; tauto). rewrite DO, PO by auto.
        apply (i_fresh _ _ _ _ HI). tauto.
      * intros v Hv Hr. rewrite in_app_iff in Hv. simpl in Hv. destruct Hv as [Hv|[<-|[]]].
        -- destruct (i_par _ _ _ _ HI v Hv Hr) as (p & H1 & H2 & H3 & H4 & l1 & l2 & H5 & H6).
           exists p. rewrite PO, !DO by auto. repeat split; auto; [left; auto|].
           exists l1, (l2 ++ [b]). split; [rewrite H5, <- app_assoc; reflexivity|exact H6].
        -- exists a. rewrite PB, DB, DO by auto. repeat split; auto; [right; auto|].
           exists d, (mq s ++ [b]). split.
           ++ rewrite (i_split _ _ _ _ HI). unfold pd. rewrite <- !app_assoc. reflexivity.
           ++ intros x Hx HE. apply Hnb.
              assert (HAx : A x b) by (apply HA; left; auto).
              apply (i_arcs _ _ _ _ HI) in HAx. tauto.
      * apply ss_app.
        -- eapply ss_impl; [|apply (i_sorted _ _ _ _ HI)].
           intros x y Hx Hy H. cbv beta in *. rewrite !DO by auto. exact H.
        -- intros x Hx. rewrite DB, DO by auto. apply Htop; auto.
      * intros v w [H|[-> ->]].
        -- apply (i_arcs _ _ _ _ HI) in H. destruct H as (H1 & H2 & H3 & H4).
           rewrite !DO by auto. repeat split; auto. rewrite in_app_iff; auto.
        -- rewrite DB, DO by auto. repeat split; auto. rewrite in_app_iff; simpl; auto.
      * destruct (i_root _ _ _ _ HI) as [t Ht].
        pose proof (i_cm _ _ _ _ HI) as CM. pose proof (i_nodup _ _ _ _ HI) as ND.
        assert (Tin : forall x, In x t -> In x (mo s) /\ x <> root).
        { intros x Hx. rewrite Ht in ND. inversion ND; subst. rewrite Ht. split; [simpl; auto|].
          intros ->; auto. }
        replace (tl (mo s ++ [b])) with (t ++ [b]) by (rewrite Ht; reflexivity).
        replace (tl (mo s)) with t in CM by (rewrite Ht; reflexivity). apply ss_app.
        -- eapply ss_impl; [|exact CM]. intros x y Hx Hy (px & py & H1 & H2 & H3). cbv beta.
           exists px, py. rewrite !PO by (apply MO; apply Tin; auto). repeat split; auto.
           destruct H3 as [H3|H3]; auto. left. apply before_app. exact H3.
        -- intros x Hx. destruct (Tin x Hx) as [Hx1 Hx2].
           destruct (i_par _ _ _ _ HI x Hx1 Hx2) as (p & H1 & H2 & H3 & _).
           exists p, a. rewrite PB, PO by auto. repeat split; auto.
           apply HA in H3. destruct H3 as [[H3 _]|[-> H3]].
           ++ left. rewrite (i_split _ _ _ _ HI). apply before_app, before_app.
              unfold pd. apply In_before_app. exact H3.
           ++ right. split; auto. rewrite Hrow. apply in_split in H3.
              destruct H3 as (r1 & r2 & ->). exists r1, r2, suf. rewrite <- app_assoc. reflexivity.
    + cbn [md mo]. intros v Hv. rewrite (DO a) by auto. rewrite in_app_iff in Hv. simpl in Hv.
      destruct Hv as [Hv|[<-|[]]]; [rewrite DO by auto; apply Htop; auto|rewrite DB; lia].
Qed.

Lemma Inv_ext root pd A A' s : (forall v w, A v w <-> A' v w) -> Inv root pd A s -> Inv root pd A' s.
Proof.
  intros H []. constructor; auto.
  - intros v Hv Hr. destruct (i_par0 v Hv Hr) as (p & H1 & H2 & H3 & H4).
    exists p. split; [auto|]. split; [auto|]. split; [apply H; auto|auto].
  - intros v w G. apply H in G. auto.
Qed.

Definition Aof (d : list nat) (a : nat) (pre : list nat) (v w : nat) : Prop :=
  (In v d /\ E v w) \/ (v = a /\ In w pre).

(* the whole row, together with a simulation of a concrete step function *)
Section Sim.
Context {S : Type}.
Variable proj : ms -> S.
Variable step : nat -> S -> nat -> res S.
Variable good : ms -> Prop.
Hypothesis good_setq : forall s q, good s -> good (setq s q).
Hypothesis step_ok : forall root pd A a s b,
  Inv root pd A s -> good s -> In a pd -> a < n -> b < n ->
  step a (proj s) b = Ok (proj (mvisit a s b)) /\ good (mvisit a s b).

Lemma row_sim root d a suf : forall pre s,
  row a = pre ++ suf -> a < n ->
  Inv root (d ++ [a]) (Aof d a pre) s -> good s ->
  (forall v, In v (mo s) -> D s v <= D s a + 1) ->
  foldM (step a) suf (proj s) = Ok (proj (fold_left (mvisit a) suf s)) /\
  good (fold_left (mvisit a) suf s) /\
  Inv root (d ++ [a]) (Aof d a (row a)) (fold_left (mvisit a) suf s) /\
  (forall v, In v (mo (fold_left (mvisit a) suf s)) ->
     D (fold_left (mvisit a) suf s) v <= D (fold_left (mvisit a) suf s) a + 1).
Proof.
  induction suf as [|b suf IH]; intros pre s Hr Ha HI HG HT; simpl.
  - rewrite app_nil_r in Hr. rewrite Hr. auto.
  - assert (Hb : b < n).
    { pose proof (wf a) as W. rewrite Hr in W. rewrite Forall_forall in W. apply W.
      rewrite in_app_iff. simpl. auto. }
    destruct (step_ok root (d ++ [a]) (Aof d a pre) a s b HI HG) as [St Gt]; auto.
    { rewrite in_app_iff; simpl; auto. }
    rewrite St. cbn [bind].
    destruct (visit_inv root d a pre b (Aof d a pre) s) as [HI' HT']; auto.
    { exists suf. exact Hr. }
    { intros; reflexivity. }
    apply (IH (pre ++ [b])); auto.
    + rewrite <- app_assoc. exact Hr.
    + eapply Inv_ext; [|exact HI']. intros v w. unfold Aof. rewrite in_app_iff. simpl.
      split; [intros [[H|[H1 H2]]|[-> ->]]; auto|].
      intros [H|[-> [H|[->|[]]]]]; auto.
Qed.

Variable queue : S -> list nat.
Variable set_queue : S -> list nat -> S.
Hypothesis queue_proj : forall s, queue (proj s) = mq s.
Hypothesis set_queue_proj : forall s q, set_queue (proj s) q = proj (setq s q).

Definition Aall (d : list nat) (v w : nat) : Prop := In v d /\ E v w.

Lemma NoDup_bound (l : list nat) m : NoDup l -> Forall (fun v => v < m) l -> List.length l <= m.
Proof.
  intros ND F. rewrite <- (seq_length m 0). apply NoDup_incl_length; auto.
  intros x Hx. rewrite Forall_forall in F. apply in_seq. specialize (F x Hx). lia.
Qed.

Lemma pop_inv root d a q s :
  mq s = a :: q -> Inv root d (Aall d) s ->
  Inv root (d ++ [a]) (Aof d a []) (setq s q) /\ a < n /\ In a (mo s).
Proof.
  intros Hq HI. destruct HI. rewrite Hq in i_split0.
  assert (Ha : In a (mo s)) by (rewrite i_split0, in_app_iff; simpl; auto).
  split; [|split; auto].
  - constructor; cbn [mx mq md mp mo setq]; auto.
    + rewrite i_split0, <- app_assoc. reflexivity.
    + intros v Hv Hr. destruct (i_par0 v Hv Hr) as (p & H1 & H2 & H3 & H4).
      exists p. split; [auto|]. split; [rewrite in_app_iff; auto|]. split; [left; exact H3|exact H4].
    + intros v w [H|[_ []]]. apply i_arcs0 in H. destruct H as (H1 & H2).
      split; [rewrite in_app_iff; auto|exact H2].
  - rewrite Forall_forall in i_lt0. auto.
Qed.

(* distance bound relative to the next vertex to pop *)
Definition Top (s : ms) : Prop :=
  match mq s with
  | [] => True
  | a :: _ => forall v, In v (mo s) -> D s v <= D s a + 1
  end.

Lemma loop_sim body root :
  (forall a s, body a s = let! r := get adj a in foldM (step a) r s) ->
  forall fuel d s,
  Inv root d (Aall d) s -> good s -> Top s -> n < fuel + List.length d ->
  while_queue queue set_queue body fuel (proj s) = Ok (proj (mloop fuel s)) /\
  mq (mloop fuel s) = [] /\ good (mloop fuel s) /\
  exists d', Inv root d' (Aall d') (mloop fuel s).
Proof.
  intros Hbody. induction fuel as [|fuel IH]; intros d s HI HG HT Hf.
  - exfalso. pose proof (NoDup_bound _ n (i_nodup _ _ _ _ HI) (i_lt _ _ _ _ HI)) as B.
    rewrite (i_split _ _ _ _ HI), app_length in B. lia.
  - cbn [while_queue mloop]. rewrite queue_proj. destruct (mq s) as [|a q] eqn:Hq.
    + rewrite Hq. split; [reflexivity|]. split; [reflexivity|]. split; [exact HG|]. exists d. exact HI.
    + destruct (pop_inv root d a q s Hq HI) as (HI1 & Ha & Hao).
      unfold Top in HT. rewrite Hq in HT. rewrite set_queue_proj, Hbody.
      rewrite (get_ok adj a [] Ha). cbn [bind].
      destruct (row_sim root d a (row a) [] (setq s q) eq_refl Ha HI1 (good_setq s q HG) HT)
        as (R1 & R2 & R3 & R4).
      rewrite R1. cbn [bind]. fold (mbody a (setq s q)) in *.
      apply (IH (d ++ [a])).
      * eapply Inv_ext; [|exact R3]. intros v w. unfold Aof, Aall. rewrite in_app_iff. simpl.
        split; [intros [H|[-> H]]; [tauto|auto]|]. intros [[H|[->|[]]] H2]; auto.
      * exact R2.
      * unfold Top. destruct (mq (mbody a (setq s q))) as [|a' q'] eqn:Hq'; auto.
        intros v Hv. specialize (R4 v Hv).
        assert (B : before (mo (mbody a (setq s q))) a a').
        { exists d, [], q'. rewrite (i_split _ _ _ _ R3), Hq', <- app_assoc. reflexivity. }
        pose proof (ss_before _ _ _ _ (i_sorted _ _ _ _ R3) B). cbv beta in H. lia.
      * rewrite app_length. simpl. lia.
Qed.
End Sim.

Lemma init_inv root : root < n -> Inv root [] (Aall []) (minit root) /\ Top (minit root).
Proof.
  intros Hr. split.
  - constructor; cbn [mx mq md mp mo minit]; try (rewrite ?upd_length, repeat_length; reflexivity).
    + reflexivity.
    + repeat constructor. intros [].
    + repeat constructor. exact Hr.
    + intros v Hv. rewrite nth_upd by (rewrite repeat_length; exact Hr). simpl.
      destruct (Nat.eqb_spec root v) as [->|N]; [tauto|].
      rewrite (nth_indep _ true false), nth_repeat by (rewrite repeat_length; exact Hv).
      split; [discriminate|]. intros [H|[]]; congruence.
    + exists []. reflexivity.
    + apply nth_repeat.
    + apply nth_repeat.
    + intros v _. split; apply nth_repeat.
    + intros v [->|[]] H; congruence.
    + repeat constructor.
    + intros v w [[] _].
    + constructor.
  - unfold Top. simpl. intros v [->|[]]. lia.
Qed.

Definition bfs (root : nat) : ms := mloop (Datatypes.S n) (minit root).

(* simulation, starting from the initial state *)
Lemma bfs_sim {S} (proj : ms -> S) step (good : ms -> Prop) queue set_queue body root :
  (forall s q, good s -> good (setq s q)) ->
  (forall root pd A a s b, Inv root pd A s -> good s -> In a pd -> a < n -> b < n ->
     step a (proj s) b = Ok (proj (mvisit a s b)) /\ good (mvisit a s b)) ->
  (forall s, queue (proj s) = mq s) -> (forall s q, set_queue (proj s) q = proj (setq s q)) ->
  (forall a s, body a s = let! r := get adj a in foldM (step a) r s) ->
  root < n -> good (minit root) ->
  while_queue queue set_queue body (Datatypes.S n) (proj (minit root)) = Ok (proj (bfs root)) /\
  good (bfs root).
Proof.
  intros H1 H2 H3 H4 H5 Hr HG. destruct (init_inv root Hr) as [HI HT].
  destruct (loop_sim proj step good H1 H2 queue set_queue H3 H4 body root H5 (Datatypes.S n) [] (minit root) HI HG HT) as (A & B & G & _).
  - simpl. lia.
  - auto.
Qed.

Record Final (root : nat) (s : ms) : Prop := {
  f_lx : List.length (mx s) = n;
  f_ld : List.length (md s) = n;
  f_lp : List.length (mp s) = n;
  f_nodup : NoDup (mo s);
  f_lt : Forall (fun v => v < n) (mo s);
  f_ex : forall v, v < n -> (nth v (mx s) true = true <-> In v (mo s));
  f_root : exists t, mo s = root :: t;
  f_droot : D s root = 0;
  f_proot : P s root = None;
  f_fresh : forall v, ~ In v (mo s) -> D s v = 0 /\ P s v = None;
  f_par : forall v, In v (mo s) -> v <> root -> exists p, P s v = Some p /\ In p (mo s) /\ E p v /\
             D s v = D s p + 1 /\
             exists l1 l2, mo s = l1 ++ p :: l2 /\ forall x, In x l1 -> ~ E x v;
  f_sorted : StronglySorted (fun x y => D s x <= D s y) (mo s);
  f_closed : forall v w, In v (mo s) -> E v w -> In w (mo s) /\ D s w <= D s v + 1;
  f_cm : StronglySorted (fun x y => exists px py, P s x = Some px /\ P s y = Some py /\
             (before (mo s) px py \/ (px = py /\ before (row px) x y))) (tl (mo s))
}.

Lemma bfs_final root : root < n -> Final root (bfs root).
Proof.
  intros Hr. destruct (init_inv root Hr) as [HI HT].
  destruct (loop_sim (fun s => s) (fun a s b => Ok (mvisit a s b)) (fun _ => True)
     (fun _ _ _ => I) (fun _ _ _ _ _ _ _ _ _ _ _ => conj eq_refl I)
     mq setq (fun _ => eq_refl) (fun _ _ => eq_refl)
     (fun a s => let! r := get adj a in foldM (fun s b => Ok (mvisit a s b)) r s) root
     (fun _ _ => eq_refl) (Datatypes.S n) [] (minit root) HI I HT) as (_ & Hq & _ & d & HF).
  { simpl. lia. }
  fold (bfs root) in *. pose proof (i_split _ _ _ _ HF) as Sp. rewrite Hq, app_nil_r in Sp.
  destruct HF. constructor; auto.
  - intros v Hv Hr'. destruct (i_par0 v Hv Hr') as (p & H1 & H2 & H3 & H4 & H5).
    apply i_arcs0 in H3. exists p. rewrite Sp at 1. tauto.
  - intros v w Hv HE. apply i_arcs0. split; auto. rewrite <- Sp. exact Hv.
Qed.

(** * Consequences: distances *)
Lemma walk_explored root : root < n -> forall u v k, walk E u v k -> forall du, In u (mo (bfs root)) ->
  D (bfs root) u = du -> In v (mo (bfs root)) /\ D (bfs root) v <= du + k.
Proof.
  intros Hr. pose proof (bfs_final root Hr) as F. induction 1 as [u|u v w k HE HW IH]; intros du Hu Hd.
  - split; auto. lia.
  - destruct (f_closed _ _ F u v Hu HE) as [H1 H2].
    destruct (IH (D (bfs root) v) H1 eq_refl) as [H3 H4]. split; auto. lia.
Qed.

Lemma walk_app (R : nat -> nat -> Prop) u v w k l : walk R u v k -> walk R v w l -> walk R u w (k + l).
Proof. induction 1; simpl; auto. intros H'. econstructor; eauto. Qed.
Lemma walk_one (R : nat -> nat -> Prop) u v : R u v -> walk R u v 1.
Proof. intros. econstructor; eauto. constructor. Qed.

Lemma explored_walk root : root < n -> forall d v, In v (mo (bfs root)) -> D (bfs root) v = d ->
  walk E root v d.
Proof.
  intros Hr. pose proof (bfs_final root Hr) as F. induction d as [|d IH]; intros v Hv Hd.
  - destruct (Nat.eq_dec v root) as [->|N]; [constructor|].
    destruct (f_par _ _ F v Hv N) as (p & _ & _ & _ & H & _). lia.
  - destruct (Nat.eq_dec v root) as [->|N].
    + rewrite (f_droot _ _ F) in Hd. lia.
    + destruct (f_par _ _ F v Hv N) as (p & _ & Hp & HE & H & _).
      replace (Datatypes.S d) with (d + 1) by lia. apply (walk_app _ _ p); [apply IH; auto; lia|apply walk_one; auto].
Qed.

Lemma root_explored root : root < n -> In root (mo (bfs root)).
Proof. intros Hr. destruct (f_root _ _ (bfs_final root Hr)) as [t ->]. simpl; auto. Qed.

Lemma explored_iff root v : root < n -> (In v (mo (bfs root)) <-> reachable E root v).
Proof.
  intros Hr. split.
  - intros H. exists (D (bfs root) v). eapply explored_walk; eauto.
  - intros [k H]. eapply walk_explored; eauto. apply root_explored; auto.
Qed.

Lemma dist_correct root v : root < n -> reachable E root v -> is_dist E root v (D (bfs root) v).
Proof.
  intros Hr H. split.
  - apply explored_walk; auto. apply explored_iff; auto.
  - intros k Hk. destruct (walk_explored root Hr root v k Hk 0) as [_ G]; auto.
    + apply root_explored; auto.
    + apply (f_droot _ _ (bfs_final root Hr)).
Qed.

Lemma dist_unreachable root v : root < n -> ~ reachable E root v -> D (bfs root) v = 0.
Proof.
  intros Hr H. apply (f_fresh _ _ (bfs_final root Hr)). intros G. apply H. apply explored_iff; auto.
Qed.
End BFS.
