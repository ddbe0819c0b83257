(* The cells of the mesh of a block: common edges and faces have opposite directions *)
From Coq Require Import String Reals List Lia Lra Bool Arith ZArith Permutation Sorted.
From Verif Require Import Base BaseFacts Kind MeshModel GraphModel MeshQuerySpec TopoModel TopoSpec TopoProof GridModel BlockModel BlockSpec BlockProof BlockProof2 BlockProof3 BlockProof5 BlockProof7 BlockProof8 BlockProof9
  BlockFeatSpec BlockFeatProof BlockFeatProof2 BlockFeatProof3 PropBlock BalanceSpec BalanceProof.
Import ListNotations.
Local Open Scope list_scope.
Local Open Scope nat_scope.

Definition turn (j : nat) (l : list nat) : list nat := skipn j (rev l) ++ firstn j (rev l).
Definition matches (nd : nat) (k : geokind) (s m m' : nat) : bool := forallb (fun a => (a =? side_axis nd s) || (offset k m a =? offset k m' a)) (seq 0 nd).
Fixpoint all2 (f : nat -> nat -> bool) (l l' : list nat) : bool :=
  match l, l' with [], [] => true | x :: t, y :: t' => f x y && all2 f t t' | _, _ => false end.
Definition turn_check (nd : nat) (k : geokind) (s : nat) : bool :=
  existsb (fun j => all2 (matches nd k s) (turn j (side_ids nd k s)) (side_ids nd k (opposite nd s))) (if nd =? 2 then [0] else seq 0 4).
Lemma turn_checked : forallb (fun nd => forallb (fun k => forallb (turn_check nd k) (seq 0 (nsides nd))) (targets nd)) [2; 3] = true.
Proof. vm_compute. reflexivity. Qed.
Lemma turn_facts nd k s : nd = 2 \/ nd = 3 -> In k (targets nd) -> s < nsides nd -> turn_check nd k s = true.
Proof.
  intros N K Hs. pose proof turn_checked as C. rewrite forallb_forall in C. specialize (C nd). cbv beta in C.
  assert (I : In nd [2; 3]) by (destruct N as [-> | ->]; cbn; auto). specialize (C I).
  rewrite forallb_forall in C. specialize (C k K). rewrite forallb_forall in C. apply C, in_seq. lia.
Qed.
Lemma all2_forall2 f : forall l l', all2 f l l' = true -> Forall2 (fun x y => f x y = true) l l'.
Proof. induction l; destruct l'; cbn; intros H; try discriminate; constructor; apply andb_true_iff in H as (H1 & H2); auto. Qed.
Lemma forall2_firstn {A B} (R : A -> B -> Prop) : forall l l' j, Forall2 R l l' -> Forall2 R (firstn j l) (firstn j l').
Proof. intros l l' j H. revert j. induction H; intros [|j]; cbn; constructor; auto. Qed.
Lemma forall2_skipn {A B} (R : A -> B -> Prop) : forall l l' j, Forall2 R l l' -> Forall2 R (skipn j l) (skipn j l').
Proof. intros l l' j H. revert j. induction H; intros [|j]; cbn; try constructor; auto. Qed.
Lemma forall2_rev {A B} (R : A -> B -> Prop) : forall l l', Forall2 R l l' -> Forall2 R (rev l) (rev l').
Proof. induction 1; cbn; [constructor|]. apply Forall2_app; auto. Qed.
Lemma forall2_turn (R : nat -> nat -> Prop) l l' j : Forall2 R l l' -> Forall2 R (turn j l) (turn j l').
Proof. intros H. apply forall2_rev in H. apply Forall2_app; [now apply forall2_skipn|now apply forall2_firstn]. Qed.
Lemma turn_in j l x : In x (turn j l) -> In x l.
Proof. unfold turn. rewrite in_app_iff. intros [H|H]; apply in_rev; [rewrite <- (firstn_skipn j (rev l)); apply in_or_app; now right|rewrite <- (firstn_skipn j (rev l)); apply in_or_app; now left]. Qed.
Lemma turn_opposite j l : opposite_circuits l (turn j l).
Proof. exists (firstn j (rev l)), (skipn j (rev l)). split; [symmetry; apply firstn_skipn|reflexivity]. Qed.

Section Sides.
Variables (b : block) (target : geokind) (sh : container -> container) (shc : list (nat * nat) -> list (nat * nat)).
Hypothesis P : forall c, Permutation (sh c) c.
Hypothesis Q : forall l, Permutation (shc l) l.
Hypothesis W : wf_block b.
Hypothesis F : In target (targets (b_ndim b)).
Hypothesis Sp : spaced b target.
Variable msh : mesh R.
Hypothesis Run : subdivide sh shc b target = Ok msh.
Let nd := b_ndim b.
Let cons := proj1 (mesh_consistent b target sh shc P Q W F Sp msh Run).

Lemma next_turned idx s idx' ps qs : valid_index b idx -> valid_index b idx' -> s < nsides nd -> across nd s idx idx' ->
  side_points b target msh idx s ps -> side_points b target msh idx' (opposite nd s) qs -> exists j, qs = turn j ps /\ (nd = 2 -> j = 0).
Proof.
  intros V V' Hs Ac A A'. pose proof (w_nd b W) as N. fold nd in N.
  pose proof (side_facts nd target s N F Hs) as C. unfold side_check in C. rewrite !andb_true_iff in C.
  destruct C as ((((((((((Rg & L) & Ax) & _) & Of) & Op) & Oa) & Oh) & Ma) & Df) & Nd). apply Nat.ltb_lt in Ax, Op. apply Nat.eqb_eq in Oa, Oh, L.
  rewrite forallb_forall in Rg, Of. clear Ma Df Nd.
  pose proof (side_facts nd target _ N F Op) as C. unfold side_check in C. rewrite !andb_true_iff in C.
  destruct C as ((((((((((Rg' & L') & _) & _) & Of') & _) & _) & _) & _) & _) & _). rewrite forallb_forall in Rg', Of'. apply Nat.eqb_eq in L'. rewrite Oa, Oh in Of'.
  apply across_high in Ac. cbv zeta in Ac. destruct Ac as (_ & Eo & Es).
  pose proof (turn_facts nd target s N F Hs) as Tc. unfold turn_check in Tc. apply existsb_exists in Tc as (j & Hj & Tc). apply all2_forall2 in Tc.
  exists j. split; [|intros E; rewrite E in Hj; destruct Hj as [<-|[]]; reflexivity].
  pose proof (forall2_turn _ _ _ j A) as At. unfold side_points in A'. fold nd in A', At.
  assert (I1 : forall m, In m (turn j (side_ids nd target s)) -> In m (side_ids nd target s)) by (intros m; apply turn_in).
  assert (I2 : forall m, In m (side_ids nd target (opposite nd s)) -> In m (side_ids nd target (opposite nd s))) by auto.
  revert I1 I2 Tc At A'. generalize (turn j ps) as ps'. generalize (side_ids nd target (opposite nd s)) at 1 3 4 as l'. generalize (turn j (side_ids nd target s)) as l.
  intros l l' ps' I1 I2 Tc. revert ps' qs A. induction Tc as [|m m' l l' M Tc IH]; intros ps' qs A At A'; inversion At as [|? p ? tp Hp Hps]; subst; inversion A' as [|? q ? tq Hq Hqs]; subst; [reflexivity|].
  f_equal; [|apply (IH (fun x Hx => I1 x (or_intror Hx)) (fun x Hx => I2 x (or_intror Hx)) tp tq A Hps Hqs)].
  assert (Hm : In m (side_ids nd target s)) by (apply I1; now left).
  assert (Hm' : In m' (side_ids nd target (opposite nd s))) by (apply I2; now left).
  assert (R1 : m < kind_nnode target) by (specialize (Rg m Hm); apply andb_true_iff in Rg as (Rg & _); now apply Nat.ltb_lt).
  assert (R2 : m' < kind_nnode target) by (specialize (Rg' m' Hm'); apply andb_true_iff in Rg' as (Rg' & _); now apply Nat.ltb_lt).
  apply (proj2 (mesh_shared b target sh shc P Q W F Sp msh Run idx' m' q idx m p V' V R2 R1 Hq Hp)).
  apply nth_ext with (d := 0) (d' := 0); [unfold lattice; rewrite !map_length, !seq_length, (proj1 V), (proj1 V'); auto|].
  intros a Ha. unfold lattice in Ha. rewrite map_length, seq_length, (proj1 V') in Ha. fold nd in Ha.
  rewrite !(nth_lattice target) by (rewrite ?(proj1 V), ?(proj1 V'); exact Ha).
  specialize (Of m Hm). specialize (Of' m' Hm'). apply Nat.eqb_eq in Of, Of'. unfold matches in M. rewrite forallb_forall in M.
  destruct (Nat.eq_dec a (side_axis nd s)) as [->|Na].
  + rewrite Of, Of'. destruct (high_end nd s) as [[H1 _]|[H1 _]]; rewrite H1 in Es |- *; cbn [Nat.eqb] in Es; [rewrite <- Es|rewrite Es]; cbn [Nat.sub]; lia.
  + rewrite (Eo a Ha Na). specialize (M a). rewrite in_seq in M. specialize (M ltac:(lia)). apply Nat.eqb_neq in Na. rewrite Na in M. cbn [orb] in M. apply Nat.eqb_eq in M. lia.
Qed.

Lemma edge_points c e p q : nd = 2 -> edge_of msh c e p q -> exists idx, valid_index b idx /\ e < 4 /\ c = rank (b_ndiv b) idx /\ side_points b target msh idx e [p; q].
Proof.
  intros D. destruct (kind_dim nd target (w_nd b W) F) as (Kd & Ke & _). specialize (Ke D). unfold side_points, side_ids. fold nd. rewrite D. cbn [Nat.eqb map seq].
  intros (cl & I & Ei & _ & He & Eu & Ev). destruct (cell_at b target sh shc P Q W F Sp msh Run cl I) as (idx & V & Ri & Nc & Kc). rewrite Kc in *.
  exists idx. split; auto. split; [lia|]. split; [congruence|]. repeat constructor; exists cl; auto.
Qed.
Lemma face_points c f ps : nd = 3 -> face_of msh c f ps -> exists idx, valid_index b idx /\ f < 6 /\ c = rank (b_ndiv b) idx /\ side_points b target msh idx f ps.
Proof.
  intros D. destruct (kind_dim nd target (w_nd b W) F) as (Kd & _ & Kf). specialize (Kf D) as (Kf & Kc). unfold side_points, side_ids. fold nd. rewrite D. cbn [Nat.eqb].
  intros (cl & I & Ei & _ & He & E). destruct (cell_at b target sh shc P Q W F Sp msh Run cl I) as (idx & V & Ri & Nc & Kk). rewrite Kk, Kc in *.
  exists idx. split; auto. split; [lia|]. split; [congruence|].
  clear - E Nc. revert ps E. induction (seq 0 4) as [|i l IH]; intros [|p ps] E; try discriminate; [constructor|]. cbn [map] in *. injection E as E1 E2.
  constructor; [exists cl; auto|apply IH, E2].
Qed.

Lemma ends_apart idx e p q : nd = 2 -> valid_index b idx -> e < 4 -> side_points b target msh idx e [p; q] -> p <> q.
Proof.
  intros D V He A E. subst q. assert (Hs : e < nsides nd) by (rewrite D; exact He).
  pose proof (side_facts nd target e (w_nd b W) F Hs) as C. unfold side_check in C. rewrite !andb_true_iff in C.
  destruct C as ((((((((((Rg & L) & Ax) & _) & Of) & Op) & Oa) & Oh) & Ma) & Df) & Nd). rewrite forallb_forall in Df, Rg.
  destruct (list_eq_dec Nat.eq_dec (nodup Nat.eq_dec (side_ids nd target e)) (side_ids nd target e)) as [Nq|]; [|discriminate].
  assert (Nd' : NoDup (side_ids nd target e)) by (rewrite <- Nq; apply NoDup_nodup). clear Nd Nq Of Ma Op Oa Oh Ax L.
  unfold side_points in A. fold nd in A. destruct (side_ids nd target e) as [|m [|m' [|? ?]]]; inversion A as [|? ? ? ? Hm A1]; subst; inversion A1 as [|? ? ? ? Hm' A2]; subst; [|inversion A2].
  pose proof (Rg m (or_introl eq_refl)) as R1. pose proof (Rg m' (or_intror (or_introl eq_refl))) as R2.
  apply andb_true_iff in R1 as (R1 & _), R2 as (R2 & _). apply Nat.ltb_lt in R1, R2.
  pose proof (proj1 (mesh_shared b target sh shc P Q W F Sp msh Run idx m p idx m' p V V R1 R2 Hm Hm') eq_refl) as E.
  specialize (Df m (or_introl eq_refl)). rewrite forallb_forall in Df. specialize (Df m' (or_intror (or_introl eq_refl))).
  apply orb_true_iff in Df as [Df|Df].
  - apply Nat.eqb_eq in Df. subst m'. inversion Nd' as [|? ? X _]; subst. apply X. now left.
  - apply existsb_exists in Df as (a & Ha & Df). apply in_seq in Ha. apply negb_true_iff, Nat.eqb_neq in Df. apply Df.
    assert (X : nth a (lattice target idx m) 0 = nth a (lattice target idx m') 0) by congruence.
    rewrite !(nth_lattice target) in X by (rewrite (proj1 V); fold nd; lia). lia.
Qed.

Lemma block_directed : nd = 2 -> directed msh.
Proof.
  intros D c e c' e' p q H H'. assert (N2 : nsides nd = 4) by (rewrite D; reflexivity). destruct (edge_points c e p q D H) as (idx & V & He & -> & A). destruct (edge_points c' e' p q D H') as (idx' & V' & He' & -> & A').
  assert (X : has_edge msh p q (rank (b_ndiv b) idx, e)) by (exists p, q; split; [exact H|left; auto]).
  assert (X' : has_edge msh p q (rank (b_ndiv b) idx', e')) by (exists p, q; split; [exact H'|left; auto]).
  apply (edge_shared b target sh shc P Q W F Sp msh Run p q idx e D V X) in X'. destruct X' as [(E1 & E2)|(i2 & V2 & Ac & E1 & E2)]; [congruence|].
  assert (i2 = idx') as -> by (symmetry; eapply rank_inj; eauto). exfalso. subst e'. rewrite <- D in Ac, A'.
  destruct (next_turned idx e idx' [p; q] [p; q] V V' ltac:(lia) Ac A A') as (j & E & J). rewrite (J D) in E. cbn in E. injection E as E1' E2'.
  exact (ends_apart idx e p q D V He A E1').
Qed.
Lemma block_directed_faces : nd = 3 -> directed_faces msh.
Proof.
  intros D c f c' f' ps qs H H' Pm Ne. assert (N3 : nsides nd = 6) by (rewrite D; reflexivity). destruct (face_points c f ps D H) as (idx & V & Hf & -> & A). destruct (face_points c' f' qs D H') as (idx' & V' & Hf' & -> & A').
  assert (X : has_face msh ps (rank (b_ndiv b) idx, f)) by (exists ps; auto).
  assert (X' : has_face msh ps (rank (b_ndiv b) idx', f')) by (exists qs; auto).
  apply (face_shared b target sh shc P Q W F Sp msh Run ps idx f D V X) in X'. destruct X' as [(E1 & E2)|(i2 & V2 & Ac & E1 & E2)]; [exfalso; apply Ne; congruence|].
  assert (i2 = idx') as -> by (symmetry; eapply rank_inj; eauto). subst f'. rewrite <- D in Ac, A'.
  destruct (next_turned idx f idx' ps qs V V' ltac:(lia) Ac A A') as (j & -> & _). apply turn_opposite.
Qed.
End Sides.
