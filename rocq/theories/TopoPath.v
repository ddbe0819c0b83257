(* Proofs about Edges::any_path *)
From Coq Require Import String List Arith Bool ZArith QArith Lia Permutation Sorted Relations.
From Verif Require Import Base BaseFacts Kind MeshModel TopoModel TopoSpec TopoMaps TopoProof TopoFeat4 TopoPathSpec.
Import ListNotations.
Open Scope nat_scope.

Lemma travel_ok k fwd : kind_ndim k = 1 -> exists loc, travel k fwd = Ok loc /\
  Permutation ((if fwd then 0 else 1) :: loc) (seq 0 (kind_nnode k)) /\
  (exists l', loc = l' ++ [if fwd then 1 else 0]) /\
  (if fwd then StronglySorted (fun i j => (along k i < along k j)%Q) (0 :: loc)
   else StronglySorted (fun i j => (along k j < along k i)%Q) (1 :: loc)).
Proof.
  destruct k; vm_compute kind_ndim; intros H; try discriminate; destruct fwd; eexists; (split; [reflexivity|]).
  all: split; [|split].
  all: try (match goal with |- exists l', ?l = _ => exists (removelast l); reflexivity end).
  all: try (match goal with |- Permutation ?a ?b => let b' := eval vm_compute in b in change b with b' end;
            repeat first [apply Permutation_refl
              | apply perm_skip
              | eapply Permutation_trans; [|apply perm_swap]; apply perm_skip
              ]; fail).
  all: try (repeat constructor; fail).
  all: try (apply NoDup_Permutation; [repeat constructor; cbn; lia|apply seq_NoDup|intros x; vm_compute; lia]).
Qed.

Section Path.
Variable all : list edge.
Hypothesis LE : forall ed, In ed all -> lin_edge ed.

Definition tb (p e : nat) : bool :=
  match nth_error all e with
  | Some ed => match nth_error (e_points ed) 0, nth_error (e_points ed) 1 with
               | Some a, Some b => (a =? p) || (b =? p)
               | _, _ => false
               end
  | None => false
  end.
Lemma ends e : e < List.length all -> exists ed a b, nth_error all e = Some ed /\ In ed all /\
  nth_error (e_points ed) 0 = Some a /\ nth_error (e_points ed) 1 = Some b /\ a <> b.
Proof.
  intros H. destruct (nth_error all e) as [ed|] eqn:E; [|apply nth_error_None in E; lia].
  pose proof (nth_error_In _ _ E) as I. destruct (LE ed I) as (D & L & N).
  assert (2 <= kind_nnode (e_kind ed)) by (destruct (e_kind ed); vm_compute in D |- *; try discriminate; lia).
  destruct (e_points ed) as [|a [|b t]] eqn:EP; cbn in L; try lia. exists ed, a, b. rewrite EP. cbn in *. repeat split; auto; congruence.
Qed.
Lemma tb_iff p e : tb p e = true <-> touches all p e.
Proof.
  unfold tb, touches. destruct (nth_error all e) as [ed|] eqn:E.
  - assert (He : e < List.length all) by (apply nth_error_Some; congruence).
    destruct (ends e He) as (ed' & a & b & E' & _ & EA & EB & _). rewrite E in E'. injection E' as <-. rewrite EA, EB.
    rewrite orb_true_iff, !Nat.eqb_eq. split.
    + intros [<-|<-]; exists ed; auto.
    + intros (ed' & X & Y). injection X as <-. rewrite EA, EB in Y. destruct Y as [Y|Y]; injection Y as ->; auto.
  - split; [discriminate|intros (ed & X & _); discriminate].
Qed.
Lemma touches_lt p e : touches all p e -> e < List.length all.
Proof. intros (ed & E & _). apply nth_error_Some. congruence. Qed.
Lemma touches_two e p q r : touches all p e -> touches all q e -> touches all r e -> p = q \/ q = r \/ p = r.
Proof.
  intros (d1 & E1 & H1) (d2 & E2 & H2) (d3 & E3 & H3). assert (d2 = d1) by congruence. assert (d3 = d1) by congruence. subst.
  destruct H1 as [H1|H1], H2 as [H2|H2], H3 as [H3|H3];
    first [left; congruence | right; left; congruence | right; right; congruence].
Qed.

Definition mp_ok (mp : list (nat * list nat)) (n : nat) : Prop :=
  NoDup (map fst mp) /\ forall p, mget Nat.eqb mp p = match filter (tb p) (seq 0 n) with [] => None | l => Some l end.
Lemma mpush_nodup (m : list (nat * list nat)) k x : NoDup (map fst m) -> NoDup (map fst (mpush Nat.eqb m k x)).
Proof. intros H. apply mput_nodup; [exact nat_eqb_eq|exact H]. Qed.
Lemma mp_step mp n : mp_ok mp n -> n < List.length all -> exists mp', (let! ed := get all n in
      let! k := edge_key ed in
      Ok (mpush Nat.eqb (mpush Nat.eqb mp (fst k) n) (snd k) n)) = Ok mp' /\ mp_ok mp' (S n).
Proof.
  intros [ND M] H. destruct (ends n H) as (ed & a & b & E & _ & EA & EB & NE).
  pose proof E as E0. apply get_iff in E. rewrite E. cbn [bind]. unfold edge_key.
  pose proof EA as EA'. pose proof EB as EB'. apply get_iff in EA', EB'. rewrite EA', EB'. cbn [bind].
  destruct (sort2 (a, b)) as [u v] eqn:S2. cbn [fst snd]. eexists. split; [reflexivity|]. split; [apply mpush_nodup, mpush_nodup; exact ND|].
  pose proof (sort2_le _ _ _ _ S2) as L. pose proof (proj1 (sort2_iff u v a b L) S2) as SP.
  intros p. rewrite seq_S, filter_app. cbn [filter Nat.add plus].
  assert (T : tb p n = true <-> p = u \/ p = v).
  { unfold tb. rewrite E0, EA, EB, orb_true_iff, !Nat.eqb_eq. destruct SP as [[-> ->]|[-> ->]]; split; intros [X|X]; subst; auto. }
  assert (NUV : u <> v) by (destruct SP as [[-> ->]|[-> ->]]; auto).
  destruct (Nat.eq_dec p u) as [->|Nu].
  - rewrite (mpush_other _ nat_eqb_eq) by auto. rewrite (mpush_same _ nat_eqb_eq), M.
    rewrite (proj2 T (or_introl eq_refl)). destruct (filter (tb u) (seq 0 n)) as [|x t]; reflexivity.
  - destruct (Nat.eq_dec p v) as [->|Nv].
    + rewrite (mpush_same _ nat_eqb_eq). rewrite (mpush_other _ nat_eqb_eq) by auto. rewrite M.
      rewrite (proj2 T (or_intror eq_refl)). destruct (filter (tb v) (seq 0 n)) as [|x t]; reflexivity.
    + rewrite !(mpush_other _ nat_eqb_eq) by auto. rewrite M.
      destruct (tb p n) eqn:X; [destruct (proj1 T eq_refl); contradiction|]. rewrite app_nil_r. reflexivity.
Qed.
Lemma path_map_ok : exists mp, path_map all = Ok mp /\ mp_ok mp (List.length all).
Proof.
  unfold path_map.
  assert (X : forall n, n <= List.length all -> exists mp, foldM (fun (mp : list (nat * list nat)) e =>
      let! ed := get all e in
      let! k := edge_key ed in
      Ok (mpush Nat.eqb (mpush Nat.eqb mp (fst k) e) (snd k) e)) (seq 0 n) [] = Ok mp /\ mp_ok mp n).
  { induction n as [|n IH]; intros H.
    - exists []. split; [reflexivity|]. split; [constructor|]. intros p. reflexivity.
    - destruct IH as (mp & E & M); [lia|]. destruct (mp_step mp n M) as (mp' & E' & M'); [lia|].
      exists mp'. split; [|exact M']. rewrite seq_S, foldM_app, E. cbn [bind foldM Nat.add plus]. rewrite E'. reflexivity. }
  apply X. lia.
Qed.

Section Run.
Variable mp : list (nat * list nat).
Hypothesis MP : mp_ok mp (List.length all).

Lemma mp_in p es e : mget Nat.eqb mp p = Some es -> In e es <-> touches all p e.
Proof.
  destruct MP as [_ M]. rewrite M. intros H.
  assert (es = filter (tb p) (seq 0 (List.length all))) as -> by (destruct (filter (tb p) (seq 0 (List.length all))); congruence).
  rewrite filter_In, in_seq, tb_iff. split; [tauto|]. intros T. split; [|exact T]. apply touches_lt in T. lia.
Qed.
Lemma mp_nodup p es : mget Nat.eqb mp p = Some es -> NoDup es /\ es <> [].
Proof.
  destruct MP as [_ M]. rewrite M. intros H. destruct (filter (tb p) (seq 0 (List.length all))) eqn:F; [discriminate|].
  injection H as <-. rewrite <- F. split; [apply NoDup_filter, seq_NoDup|rewrite F; discriminate].
Qed.
Lemma mp_some p e : touches all p e -> exists es, mget Nat.eqb mp p = Some es.
Proof.
  intros T. destruct MP as [_ M]. rewrite M.
  assert (I : In e (filter (tb p) (seq 0 (List.length all)))).
  { apply filter_In. split; [apply in_seq; apply touches_lt in T; lia|apply tb_iff; exact T]. }
  destruct (filter (tb p) (seq 0 (List.length all))); [destruct I|eauto].
Qed.
Lemma loose_len p es : mget Nat.eqb mp p = Some es -> List.length es = 1 <-> loose all p.
Proof.
  intros G. destruct (mp_nodup p es G) as [ND NE]. pose proof (fun e => mp_in p es e G) as I. unfold loose. split.
  - destruct es as [|e [|? ?]]; cbn; try lia. intros _. exists e. split; [apply I; left; reflexivity|].
    intros e' H. apply I in H. destruct H as [->|[]]. reflexivity.
  - intros (e & T & U). destruct es as [|x [|y t]]; [congruence|reflexivity|]. exfalso.
    assert (x = e) by (symmetry; apply U, I; left; reflexivity). assert (y = e) by (symmetry; apply U, I; right; left; reflexivity).
    subst. inversion ND as [|? ? X _]. apply X. left. reflexivity.
Qed.
Lemma sorted_head l p t : isort Nat.leb l = p :: t -> In p l /\ forall q, In q l -> p <= q.
Proof.
  intros E. pose proof (isort_perm Nat.leb l) as P. rewrite E in P. split; [eapply Permutation_in; [exact P|left; reflexivity]|].
  intros q Hq. apply (Permutation_in _ (Permutation_sym P)) in Hq. destruct Hq as [->|Hq]; [lia|].
  pose proof (isort_sorted_le l) as S. rewrite E in S. inversion S as [|? ? _ F]. rewrite Forall_forall in F. auto.
Qed.
Lemma start_ok : all <> [] -> exists s, path_start mp = Ok s /\ starts_at all s.
Proof.
  intros N. unfold path_start.
  assert (FI : forall p, In p (map fst (filter (fun pe => List.length (snd pe) =? 1) mp)) <-> loose all p).
  { intros p. rewrite in_map_iff. split.
    - intros ([q es] & <- & X). apply filter_In in X. destruct X as [X1 X2]. cbn [fst snd] in *. apply Nat.eqb_eq in X2.
      apply (loose_len q es); [|exact X2]. apply in_mget; [exact nat_eqb_eq|apply MP|exact X1].
    - intros L. destruct L as (e & T & U). destruct (mp_some p e T) as (es & G). exists (p, es). split; [reflexivity|].
      apply filter_In. split; [apply mget_in in G; [exact G|exact nat_eqb_eq]|]. cbn [snd]. apply Nat.eqb_eq. apply (loose_len p es G).
      exists e. split; [exact T|exact U]. }
  assert (MI : forall p, In p (map fst mp) <-> exists e, touches all p e).
  { intros p. split.
    - intros X. apply in_map_iff in X. destruct X as ([q es] & <- & X). apply (in_mget _ nat_eqb_eq _ _ _ (proj1 MP)) in X.
      destruct (mp_nodup _ _ X) as [_ NE]. cbn [fst]. destruct es as [|e t]; [congruence|]. exists e. apply (mp_in _ _ e X). left. reflexivity.
    - intros (e & T). destruct (mp_some p e T) as (es & G). apply mget_in in G; [|exact nat_eqb_eq]. apply in_map_iff. exists (p, es). auto. }
  destruct (isort Nat.leb (map fst (filter (fun pe => List.length (snd pe) =? 1) mp))) as [|p t] eqn:ES.
  - assert (NL : forall p, ~ loose all p).
    { intros p L. apply FI in L. apply (Permutation_in _ (Permutation_sym (isort_perm Nat.leb _))) in L. rewrite ES in L. destruct L. }
    destruct (isort Nat.leb (map fst mp)) as [|p t] eqn:EA.
    + exfalso. assert (L0 : 0 < List.length all) by (destruct all; [congruence|cbn; lia]).
      destruct (ends 0 L0) as (ed & a & b & E & _ & EA' & _).
      assert (X : In a (map fst mp)) by (apply MI; exists 0, ed; auto).
      apply (Permutation_in _ (Permutation_sym (isort_perm Nat.leb _))) in X. rewrite EA in X. destruct X.
    + exists p. split; [reflexivity|]. right. destruct (sorted_head _ _ _ EA) as [H1 H2].
      split; [exact NL|]. split; [apply MI; exact H1|]. intros q e T. apply H2, MI. exists e. exact T.
  - exists p. split; [reflexivity|]. left. destruct (sorted_head _ _ _ ES) as [H1 H2].
    split; [apply FI; exact H1|]. intros q Q. apply H2, FI. exact Q.
Qed.

(* one step along an edge *)
Lemma step_ok a e pts : touches all a e -> exists b l ed, next_point all a e = Ok b /\ push_other_points all e a pts = Ok (pts ++ l) /\
  nth_error all e = Some ed /\ travelled ed a b (a :: l) /\ touches all b e /\ b <> a.
Proof.
  intros T. pose proof (touches_lt _ _ T) as He. destruct (ends e He) as (ed & p & q & E & I & EP & EQ & NE).
  destruct T as (ed' & E' & T). assert (ed' = ed) by congruence. subst ed'.
  destruct (LE ed I) as (D & LN & _).
  destruct (travel_ok (e_kind ed) (p =? a) D) as (loc & ET & P & (l' & EL) & SS).
  assert (LT : forall i, In i loc -> i < List.length (e_points ed)).
  { intros i Hi. assert (X : In i (seq 0 (kind_nnode (e_kind ed)))) by (eapply Permutation_in; [exact P|right; exact Hi]).
    apply in_seq in X. lia. }
  unfold next_point, push_other_points. pose proof E as E1. pose proof EP as EP1. pose proof EQ as EQ1. apply get_iff in E1, EP1, EQ1.
  rewrite E1. cbn [bind]. rewrite EP1. cbn [bind]. rewrite EQ1, ET. cbn [bind].
  assert (EM : mapM (get (e_points ed)) loc = Ok (map (fun i => nth i (e_points ed) 0) loc)).
  { apply mapM_total. intros i Hi. apply get_ok. auto. }
  rewrite EM. cbn [bind].
  exists (if p =? a then q else p), (map (fun i => nth i (e_points ed) 0) loc), ed.
  assert (MS : map (nth_error (e_points ed)) loc = map Some (map (fun i => nth i (e_points ed) 0) loc)).
  { rewrite map_map. apply map_ext_in. intros i Hi. apply nth_error_nth'. auto. }
  assert (HA : nth_error (e_points ed) (if p =? a then 0 else 1) = Some a).
  { destruct (Nat.eqb_spec p a) as [->|Npa]; [exact EP|]. destruct T as [T|T]; [congruence|exact T]. }
  assert (HB : nth (if p =? a then 1 else 0) (e_points ed) 0 = (if p =? a then q else p)).
  { destruct (p =? a); apply nth_error_nth; assumption. }
  split; [reflexivity|]. split; [reflexivity|]. split; [exact E|]. split; [|split].
  - exists ((if p =? a then 0 else 1) :: loc). split; [exact P|]. split; [destruct (p =? a); auto|].
    split; [cbn [map]; rewrite HA, MS; reflexivity|]. split; [reflexivity|].
    exists (a :: map (fun i => nth i (e_points ed) 0) l'). rewrite EL, map_app. cbn [map app]. rewrite HB. reflexivity.
  - exists ed. split; [exact E|]. destruct (p =? a); auto.
  - destruct (Nat.eqb_spec p a) as [->|Npa]; [auto|exact Npa].
Qed.
Lemma path_snoc a es pts b e ed c l : path all a es pts b -> nth_error all e = Some ed -> travelled ed b c (b :: l) ->
  path all a (es ++ [e]) (pts ++ l) c.
Proof.
  intros P E T. induction P as [a|a e0 ed0 b0 l0 es pts c0 E0 T0 P IH].
  - cbn [app]. pose proof T as T'. destruct T as (loc & _ & _ & _ & _ & (l' & EL)). rewrite EL in *.
    replace (a :: l) with (l' ++ [c]) by (rewrite <- EL; reflexivity).
    eapply path_cons; [exact E|exact T'|constructor].
  - cbn [app]. rewrite <- app_assoc. eapply path_cons; [exact E0|exact T0|]. apply IH. exact T.
Qed.

Definition no_repeat (es : list nat) : Prop := forall l1 e l2, es <> l1 ++ e :: e :: l2.
Lemma no_repeat_snoc es e e' : no_repeat (es ++ [e]) -> e' <> e -> no_repeat ((es ++ [e]) ++ [e']).
Proof.
  intros H N l1 x l2 X. destruct l2 as [|y t] using rev_ind.
  - change (l1 ++ [x; x]) with (l1 ++ [x] ++ [x]) in X. rewrite app_assoc in X.
    apply app_inj_tail in X. destruct X as [X ->]. apply app_inj_tail in X. destruct X as [_ ->]. congruence.
  - clear IHt. rewrite app_comm_cons, app_comm_cons, app_assoc in X. apply app_inj_tail in X. destruct X as [X _]. apply (H l1 x t X).
Qed.

Lemma only_edge b e es : mget Nat.eqb mp b = Some es -> filter (fun e' => negb (e' =? e)) es = [] ->
  forall x, touches all b x -> x = e.
Proof.
  intros G F x Tx. apply (mp_in _ _ _ G) in Tx. destruct (Nat.eq_dec x e) as [->|Nx]; [reflexivity|]. exfalso.
  assert (X : In x (filter (fun e' => negb (e' =? e)) es)) by (apply filter_In; split; [exact Tx|]; apply negb_true_iff, Nat.eqb_neq; exact Nx).
  rewrite F in X. destruct X.
Qed.
Lemma next_edge b e es e' t : mget Nat.eqb mp b = Some es -> filter (fun e' => negb (e' =? e)) es = e' :: t ->
  touches all b e' /\ e' <> e.
Proof.
  intros G F. assert (X : In e' (filter (fun e' => negb (e' =? e)) es)) by (rewrite F; left; reflexivity).
  apply filter_In in X. destruct X as [X1 X2]. apply (mp_in _ _ _ G) in X1. apply negb_true_iff, Nat.eqb_neq in X2. auto.
Qed.

(* invariant of the loop: [es0 ++ [e]] have been travelled from s to b *)
Definition stopped (s : nat) (es : list nat) (c : nat) : Prop :=
  c = s \/ loose all c \/ List.length es = S (List.length all).
Lemma follow_ok s : forall n e b es0 pts, path all s (es0 ++ [e]) pts b -> no_repeat (es0 ++ [e]) -> touches all b e -> b <> s ->
  List.length (es0 ++ [e]) + n = S (List.length all) ->
  exists es pts' c, follow all mp s n e b (es0 ++ [e]) pts = Ok (es, pts') /\ (exists t, es = (es0 ++ [e]) ++ t) /\ path all s es pts' c /\ no_repeat es /\ stopped s es c.
Proof.
  induction n as [|n IH]; intros e b es0 pts P NR T NB LN; cbn [follow].
  - exists (es0 ++ [e]), pts, b. split; [reflexivity|]. split; [exists []; rewrite app_nil_r; reflexivity|].
    split; [exact P|]. split; [exact NR|]. right. right. lia.
  - unfold next_edges. destruct (mp_some b e T) as (es & G). rewrite G. cbn [unwrap bind].
    destruct (filter (fun e' => negb (e' =? e)) es) as [|e' t] eqn:F.
    + exists (es0 ++ [e]), pts, b. split; [reflexivity|]. split; [exists []; rewrite app_nil_r; reflexivity|].
      split; [exact P|]. split; [exact NR|]. right. left.
      exists e. split; [exact T|]. intros x Tx. symmetry. apply (only_edge _ _ _ G F x Tx).
    + destruct (next_edge _ _ _ _ _ G F) as [X1 X2].
      destruct (step_ok b e' pts X1) as (b' & l & ed & -> & -> & E & TR & T' & NB'). cbn [bind].
      pose proof (path_snoc _ _ _ _ _ _ _ _ P E TR) as P'. pose proof (no_repeat_snoc _ _ _ NR X2) as NR'.
      destruct (Nat.eqb_spec b' s) as [->|NS].
      * exists ((es0 ++ [e]) ++ [e']), (pts ++ l), s. split; [reflexivity|]. split; [exists [e']; reflexivity|].
        split; [exact P'|]. split; [exact NR'|]. left. reflexivity.
      * destruct (IH e' b' (es0 ++ [e]) (pts ++ l) P' NR' T' NS) as (es' & pts' & c & F' & (t' & Et) & R).
        { rewrite !app_length in *. cbn [List.length] in *. lia. }
        exists es', pts', c. split; [exact F'|]. split; [|exact R]. exists (e' :: t'). rewrite Et, <- app_assoc. reflexivity.
Qed.

(* without branches *)
Hypothesis UB : unbranched all.
Definition closed (es : list nat) : Prop := forall e p e', In e es -> touches all p e -> touches all p e' -> In e' es.
Record simple (s : nat) (V es : list nat) (e b : nat) : Prop := {
  si_nodup : NoDup es;
  si_lt : forall x, In x es -> x < List.length all;
  si_bnew : ~ In b V;
  si_s : In s V;
  si_done : forall v x, In v V -> v <> s -> touches all v x -> In x es;
  si_ends : forall x p, In x es -> touches all p x -> p = b \/ In p V;
  si_last : forall x, In x es -> touches all b x -> x = e;
  si_e : In e es;
  si_tb : touches all b e;
  si_first : exists e0, In e0 es /\ touches all s e0 }.
Lemma follow_simple s : starts_at all s -> forall n e b es0 pts V, simple s V (es0 ++ [e]) e b ->
  List.length (es0 ++ [e]) + n = Datatypes.S (List.length all) ->
  forall es pts', follow all mp s n e b (es0 ++ [e]) pts = Ok (es, pts') -> NoDup es /\ closed es.
Proof.
  intros SA. induction n as [|n IH]; intros e b es0 pts V I LN es pts' F; cbn [follow] in F.
  - exfalso. assert (X : List.length (es0 ++ [e]) <= List.length (seq 0 (List.length all))).
    { apply NoDup_incl_length; [apply I|]. intros x Hx. apply in_seq. split; [lia|].
      apply (si_lt _ _ _ _ _ I) in Hx. lia. }
    rewrite seq_length in X. lia.
  - pose proof (si_tb _ _ _ _ _ I) as T. unfold next_edges in F. destruct (mp_some b e T) as (cs & G). rewrite G in F. cbn [unwrap bind] in F.
    assert (SL : forall x, touches all s x -> (exists y, In y (es0 ++ [e]) /\ touches all s y) -> loose all s -> In x (es0 ++ [e])).
    { intros x Tx (y & Y1 & Y2) (z & _ & U). rewrite <- (U x Tx). rewrite (U y Y2). exact Y1. }
    destruct (filter (fun e' => negb (e' =? e)) cs) as [|e' t] eqn:FI.
    + injection F as <- <-. split; [apply I|]. intros x p y Ix Tx Ty.
      destruct (si_ends _ _ _ _ _ I x p Ix Tx) as [->|Vp].
      * rewrite (only_edge _ _ _ G FI y Ty). apply I.
      * destruct (Nat.eq_dec p s) as [->|Np]; [|apply (si_done _ _ _ _ _ I p y Vp Np Ty)].
        apply SL; [exact Ty|apply I|]. destruct SA as [[L _]|(NL & _)]; [exact L|]. exfalso. apply (NL b).
        exists e. split; [exact T|]. intros z Tz. symmetry. apply (only_edge _ _ _ G FI z Tz).
    + destruct (next_edge _ _ _ _ _ G FI) as [X1 X2].
      destruct (step_ok b e' pts X1) as (b' & l & ed & Eb & Ep & E & TR & T' & NB'). rewrite Eb, Ep in F. cbn [bind] in F.
      assert (NEW : ~ In e' (es0 ++ [e])) by (intros Y; apply X2, (si_last _ _ _ _ _ I e' Y X1)).
      assert (ND' : NoDup ((es0 ++ [e]) ++ [e'])).
      { apply nodup_app; [apply I|repeat constructor; intros []|]. intros x Hx [<-|[]]. contradiction. }
      assert (BN : b <> s) by (intros ->; apply (si_bnew _ _ _ _ _ I), I).
      assert (AT : forall x, touches all b x -> In x ((es0 ++ [e]) ++ [e'])).
      { intros x Tx. destruct (UB b e e' x T X1 Tx) as [Y|[Y|Y]]; [congruence| |].
        - subst x. apply in_or_app. right. left. reflexivity.
        - subst x. apply in_or_app. left. apply I. }
      destruct (Nat.eqb_spec b' s) as [->|NS].
      * injection F as <- <-. split; [exact ND'|]. intros x p y Ix Tx Ty.
        assert (Q : p = b \/ In p V).
        { apply in_app_or in Ix. destruct Ix as [Ix|[<-|[]]]; [apply (si_ends _ _ _ _ _ I x p Ix Tx)|].
          destruct (touches_two e' p b s Tx X1 T') as [Y|[Y|Y]]; [auto|congruence|]. subst p. right. apply I. }
        destruct Q as [->|Vp]; [apply AT; exact Ty|].
        destruct (Nat.eq_dec p s) as [->|Np]; [|apply in_or_app; left; apply (si_done _ _ _ _ _ I p y Vp Np Ty)].
        destruct (si_first _ _ _ _ _ I) as (f & If & Tf).
        destruct (UB s f e' y Tf T' Ty) as [Y|[Y|Y]].
        -- subst f. contradiction.
        -- subst y. apply in_or_app. right. left. reflexivity.
        -- subst y. apply in_or_app. left. exact If.
      * assert (NV : ~ In b' V) by (intros Y; apply NEW, (si_done _ _ _ _ _ I b' e' Y NS T')).
        eapply (IH e' b' (es0 ++ [e]) (pts ++ l) (b :: V)); [|rewrite !app_length in *; cbn [List.length] in *; lia|exact F].
        constructor.
        -- exact ND'.
        -- intros x Hx. apply in_app_or in Hx. destruct Hx as [Hx|[<-|[]]]; [apply (si_lt _ _ _ _ _ I x Hx)|apply (touches_lt b'); exact T'].
        -- intros [Y|Y]; [congruence|contradiction].
        -- right. apply I.
        -- intros v x [<-|Hv] Nv Tx; [apply AT; exact Tx|]. apply in_or_app. left. apply (si_done _ _ _ _ _ I v x Hv Nv Tx).
        -- intros x p Hx Tx. apply in_app_or in Hx. destruct Hx as [Hx|[<-|[]]].
           ++ right. destruct (si_ends _ _ _ _ _ I x p Hx Tx) as [->|Y]; [left; reflexivity|right; exact Y].
           ++ destruct (touches_two e' p b b' Tx X1 T') as [Y|[Y|Y]]; [right; left; congruence|congruence|left; exact Y].
        -- intros x Hx Tx. apply in_app_or in Hx. destruct Hx as [Hx|[<-|[]]]; [|reflexivity]. exfalso.
           destruct (si_ends _ _ _ _ _ I x b' Hx Tx); [congruence|contradiction].
        -- apply in_or_app. right. left. reflexivity.
        -- exact T'.
        -- destruct (si_first _ _ _ _ _ I) as (f & If & Tf). exists f. split; [apply in_or_app; left; exact If|exact Tf].
Qed.
End Run.


Lemma any_path_ok : all <> [] -> exists s es pts c, any_path all = Ok (es, pts) /\ starts_at all s /\
  es <> [] /\ path all s es pts c /\ no_repeat es /\ stopped s es c /\
  (unbranched all -> NoDup es /\ closed es).
Proof.
  intros N. destruct path_map_ok as (mp & EM & MP). destruct (start_ok mp MP N) as (s & ES & SA).
  assert (T : exists e, touches all s e) by (destruct SA as [[(e & T & _) _]|(_ & T & _)]; [exists e; exact T|exact T]).
  destruct T as (e0 & T0). destruct (mp_some mp MP s e0 T0) as (es & G).
  destruct (mp_nodup mp MP s es G) as [ND NE]. destruct es as [|e t]; [congruence|].
  assert (T : touches all s e) by (apply (mp_in mp MP s (e :: t) e G); left; reflexivity).
  destruct (step_ok s e [s] T) as (b & l & ed & E1 & E2 & E3 & TR & TB & NB).
  pose proof (path_snoc s [] [s] s e ed b l (path_nil _ _) E3 TR) as P.
  destruct (follow_ok mp MP s (List.length all) e b [] ([s] ++ l) P) as (es' & pts' & c & F & (t' & Et) & P' & NR & ST).
  { intros l1 x l2 X. destruct l1 as [|? [|? ?]]; discriminate. }
  { exact TB. }
  { exact NB. }
  { cbn. lia. }
  exists s, es', pts', c.
  split; [|split; [exact SA|split; [rewrite Et; discriminate|split; [exact P'|split; [exact NR|split; [exact ST|]]]]]].
  - unfold any_path. replace (match all with [] => Ok ([], []) | _ :: _ => let! mp := path_map all in
      let! endpoint := path_start mp in
      let! es := unwrap (mget Nat.eqb mp endpoint) in
      let! e := get es 0 in
      let! b := next_point all endpoint e in
      let! pts := push_other_points all e endpoint [endpoint] in
      follow all mp endpoint (List.length all) e b [e] pts end) with (let! mp := path_map all in
      let! endpoint := path_start mp in
      let! es := unwrap (mget Nat.eqb mp endpoint) in
      let! e := get es 0 in
      let! b := next_point all endpoint e in
      let! pts := push_other_points all e endpoint [endpoint] in
      follow all mp endpoint (List.length all) e b [e] pts) by (destruct all; [congruence|reflexivity]).
    rewrite EM. cbn [bind]. rewrite ES. cbn [bind]. rewrite G. cbn [unwrap bind get nth_error]. rewrite E1. cbn [bind].
    rewrite E2. cbn [bind]. exact F.
  - intros UB. eapply (follow_simple mp MP UB s SA (List.length all) e b [] ([s] ++ l) [s]); [|cbn; lia|exact F].
    constructor.
    + repeat constructor. intros [].
    + intros x [<-|[]]. apply (touches_lt s). exact T.
    + intros [X|[]]. congruence.
    + left. reflexivity.
    + intros v x [<-|[]]. congruence.
    + intros x p [<-|[]] Tp. cbn [In]. destruct (touches_two e p s b Tp T TB) as [X|[X|X]]; auto; congruence.
    + intros x [<-|[]] _. reflexivity.
    + left. reflexivity.
    + exact TB.
    + exists e. split; [left; reflexivity|exact T].
Qed.
Lemma closed_all es : connected all -> es <> [] -> closed es -> NoDup es -> (forall e, In e es -> e < List.length all) ->
  Permutation es (seq 0 (List.length all)).
Proof.
  intros C N CL ND LT. apply NoDup_Permutation; [exact ND|apply seq_NoDup|]. intros x. rewrite in_seq. split; [intros H; apply LT in H; lia|].
  intros [_ H]. destruct es as [|e t] eqn:E; [congruence|]. rewrite <- E in *.
  assert (X : clos_refl_trans nat (adjacent all) e x) by (apply C; [apply LT; rewrite E; left; reflexivity|lia]).
  apply clos_rt_rtn1 in X. induction X as [|y z (p & A1 & A2) _ IH]; [rewrite E; left; reflexivity|].
  eapply CL; [apply IH|exact A1|exact A2]. apply touches_lt in A1. lia.
Qed.
Lemma path_lt s es pts c : path all s es pts c -> forall e, In e es -> e < List.length all.
Proof.
  induction 1 as [a|a e ed b l es pts c E T P IH]; intros x Hx; [destruct Hx|]. destruct Hx as [<-|Hx]; [|auto].
  apply nth_error_Some. congruence.
Qed.
End Path.
