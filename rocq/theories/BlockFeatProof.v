(* The sides of the cells of a block: which are shared. *)
From Coq Require Import String Reals QArith List Lia Lra Bool Arith ZArith Permutation.
From Verif Require Import Base BaseFacts TopoMaps Kind MeshModel GraphModel MeshQuerySpec TopoModel TopoSpec GridModel GeomModel ShapesModel ShapesSpec PadModel PadSpec
  BlockModel BlockSpec BlockProof BlockProof2 BlockProof3 BlockProof6 BlockProof8 BlockProof9 BlockFeatSpec.
Import ListNotations.
Local Open Scope list_scope.
Local Open Scope nat_scope.

Lemma Forall2_length_eq {A B} (R : A -> B -> Prop) l l' : Forall2 R l l' -> List.length l = List.length l'.
Proof. induction 1; cbn; auto. Qed.
Lemma Forall2_in_left {A B} (R : A -> B -> Prop) l l' y : Forall2 R l l' -> In y l' -> exists x, In x l /\ R x y.
Proof. induction 1 as [|a c l l' H F IH]; intros I; [destruct I|]. destruct I as [<-|I]; [exists a; split; [now left|exact H]|]. destruct (IH I) as (x & X & Y). exists x. split; [now right|exact Y]. Qed.
Lemma Forall2_in_right {A B} (R : A -> B -> Prop) l l' x : Forall2 R l l' -> In x l -> exists y, In y l' /\ R x y.
Proof. induction 1 as [|a c l l' H F IH]; intros I; [destruct I|]. destruct I as [<-|I]; [exists c; split; [now left|exact H]|]. destruct (IH I) as (y & X & Y). exists y. split; [now right|exact Y]. Qed.

(* the corner nodes of side s of a cell *)
Definition side_ids (nd : nat) (k : geokind) (s : nat) : list nat :=
  if nd =? 2 then map (edge_node_id k s) (seq 0 2) else map (face_node_id k s) (seq 0 4).
Definition nsum (l : list nat) : nat := fold_right Nat.add 0 l.
(* the end of a side *)
Definition high (nd s : nat) : nat := if nd =? 2 then match s with 1 | 2 => 1 | _ => 0 end else if Nat.even s then 0 else 1.
Lemma high_end nd s : (high nd s = 0 /\ side_end nd s = (-1)%R) \/ (high nd s = 1 /\ side_end nd s = 1%R).
Proof. unfold high, side_end. destruct (nd =? 2); [destruct s as [|[|[|s]]]; auto|destruct (Nat.even s); auto]. Qed.
Lemma ends_differ : (-1)%R <> 1%R. Proof. lra. Qed.
Lemma rim_high b idx s : at_rim b idx s <-> let a := side_axis (b_ndim b) s in
  if high (b_ndim b) s =? 0 then nth a idx 0 = 0 else S (nth a idx 0) = ndivs b a.
Proof.
  unfold at_rim. pose proof ends_differ. destruct (high_end (b_ndim b) s) as [[-> E]|[-> E]]; rewrite E; cbn [Nat.eqb]; split; try tauto;
    intros [[D X]|[D X]]; auto; exfalso; lra.
Qed.
Lemma across_high nd s idx idx' : across nd s idx idx' <-> let a := side_axis nd s in
  List.length idx' = nd /\ (forall c, c < nd -> c <> a -> nth c idx' 0 = nth c idx 0) /\
  (if high nd s =? 0 then S (nth a idx' 0) = nth a idx 0 else nth a idx' 0 = S (nth a idx 0)).
Proof.
  unfold across. pose proof ends_differ. destruct (high_end nd s) as [[-> E]|[-> E]]; rewrite E; cbn [Nat.eqb]; split; intros (A & B & C); (split; [exact A|split; [exact B|]]);
    try tauto; destruct C as [[D X]|[D X]]; auto; exfalso; lra.
Qed.
Definition half (nd : nat) : nat := if nd =? 2 then 1 else 2.

(* facts about the corner nodes, by evaluation *)
Definition side_check (nd : nat) (k : geokind) (s : nat) : bool :=
  forallb (fun m => (m <? kind_nnode k) && (m <? corners nd)) (side_ids nd k s) &&
  (List.length (side_ids nd k s) =? 2 * half nd) && (side_axis nd s <? nd) &&
  forallb (fun a => nsum (map (fun m => offset k m a) (side_ids nd k s)) =?
    per k * (if a =? side_axis nd s then 2 * half nd * high nd s else half nd)) (seq 0 nd) &&
  forallb (fun m => offset k m (side_axis nd s) =? per k * high nd s) (side_ids nd k s) &&
  (opposite nd s <? nsides nd) && (side_axis nd (opposite nd s) =? side_axis nd s) && (high nd (opposite nd s) =? 1 - high nd s) &&
  forallb (fun m => existsb (fun m' => forallb (fun a => (a =? side_axis nd s) || (offset k m a =? offset k m' a)) (seq 0 nd)) (side_ids nd k (opposite nd s))) (side_ids nd k s) &&
  forallb (fun m => forallb (fun m' => (m =? m') || existsb (fun a => negb (offset k m a =? offset k m' a)) (seq 0 nd)) (side_ids nd k s)) (side_ids nd k s) &&
  (if list_eq_dec Nat.eq_dec (nodup Nat.eq_dec (side_ids nd k s)) (side_ids nd k s) then true else false).
Lemma side_checked : forallb (fun nd => forallb (fun k => forallb (side_check nd k) (seq 0 (nsides nd))) (targets nd)) [2; 3] = true.
Proof. vm_compute. reflexivity. Qed.
Lemma side_facts nd k s : nd = 2 \/ nd = 3 -> In k (targets nd) -> s < nsides nd -> side_check nd k s = true.
Proof.
  intros N K Hs. pose proof side_checked as C. rewrite forallb_forall in C. specialize (C nd). cbv beta in C.
  assert (I : In nd [2; 3]) by (destruct N as [-> | ->]; cbn; auto). specialize (C I).
  rewrite forallb_forall in C. specialize (C k K). rewrite forallb_forall in C. apply C, in_seq. lia.
Qed.
(* sides with the same axis and end are the same *)
Lemma side_unique nd s s' : nd = 2 \/ nd = 3 -> s < nsides nd -> s' < nsides nd -> side_axis nd s = side_axis nd s' -> high nd s = high nd s' -> s = s'.
Proof.
  intros N H H' A E.
  assert (C : forallb (fun nd => forallb (fun s => forallb (fun s' => (s =? s') || negb ((side_axis nd s =? side_axis nd s') && (high nd s =? high nd s'))) (seq 0 (nsides nd))) (seq 0 (nsides nd))) [2; 3] = true) by (vm_compute; reflexivity).
  rewrite forallb_forall in C. assert (I : In nd [2; 3]) by (destruct N as [-> | ->]; cbn; auto). specialize (C nd I).
  rewrite forallb_forall in C. specialize (C s). rewrite in_seq in C. specialize (C ltac:(lia)).
  rewrite forallb_forall in C. specialize (C s'). rewrite in_seq in C. specialize (C ltac:(lia)).
  rewrite A, E, !Nat.eqb_refl in C. cbn [andb negb] in C. rewrite orb_false_r in C. now apply Nat.eqb_eq.
Qed.

Lemma nsum_perm l l' : Permutation l l' -> nsum l = nsum l'.
Proof. unfold nsum. intros P. induction P; cbn [fold_right]; lia. Qed.
Lemma perm_transfer {A B} (R : A -> B -> Prop) ps qs xs ys : (forall p x y, R p x -> R p y -> x = y) ->
  Permutation ps qs -> Forall2 R ps xs -> Forall2 R qs ys -> Permutation xs ys.
Proof.
  intros Fn P. revert xs ys. induction P as [|p l l' P IH|p q l|l l' l'' P1 IH1 P2 IH2]; intros xs ys H1 H2.
  - inversion H1; subst. inversion H2; subst. constructor.
  - inversion H1 as [|? x ? xs' Hx H1']; subst. inversion H2 as [|? y ? ys' Hy H2']; subst. rewrite (Fn p x y Hx Hy). constructor. auto.
  - inversion H1 as [|? x1 ? xs' Hx1 H1']; subst. inversion H1' as [|? x2 ? xs'' Hx2 H1'']; subst.
    inversion H2 as [|? y1 ? ys' Hy1 H2']; subst. inversion H2' as [|? y2 ? ys'' Hy2 H2'']; subst.
    rewrite (Fn _ _ _ Hx1 Hy2), (Fn _ _ _ Hx2 Hy1).
    assert (E : xs'' = ys''). { clear - Fn H1'' H2''. revert ys'' H2''. induction H1'' as [|p0 x0 l0 l1 Hp0 Hl0 IH0]; intros ys Hys; inversion Hys; subst; auto. f_equal; eauto. }
    rewrite E. apply perm_swap.
  - assert (Ez : exists zs, Forall2 R l' zs).
    { clear - P1 H1. assert (G : forall p, In p l' -> exists x, R p x).
      { intros p Hp. apply (Permutation_in _ (Permutation_sym P1)) in Hp. clear P1. induction H1; [destruct Hp|]. destruct Hp as [<-|Hp]; eauto. }
      clear P1 H1. induction l' as [|p l' IH]; [exists []; constructor|]. destruct (G p) as (x & Hx); [now left|].
      destruct IH as (zs & Hz); [intros; apply G; now right|]. exists (x :: zs). constructor; auto. }
    destruct Ez as (zs & Z). apply (perm_trans (IH1 xs zs H1 Z) (IH2 zs ys Z H2)).
Qed.

Section Sides.
Variables (b : block) (target : geokind) (sh : container -> container) (shc : list (nat * nat) -> list (nat * nat)).
Hypothesis P : forall c, Permutation (sh c) c.
Hypothesis Q : forall l, Permutation (shc l) l.
Hypothesis W : wf_block b.
Hypothesis F : In target (targets (b_ndim b)).
Hypothesis Sp : spaced b target.
Variable msh : mesh R.
Hypothesis Run : subdivide sh shc b target = Ok msh.
Let nd := b_ndim b.

Lemma rank_inj idx idx' : valid_index b idx -> valid_index b idx' -> rank (b_ndiv b) idx = rank (b_ndiv b) idx' -> idx = idx'.
Proof. intros V V' E. pose proof (indices_rank b W idx V) as A. pose proof (indices_rank b W idx' V') as B. rewrite E in A. congruence. Qed.

(* the point p is the node x of the lattice *)
Definition placed (p : nat) (x : list nat) : Prop :=
  exists idx m, valid_index b idx /\ m < kind_nnode target /\ point_at b msh idx m p /\ x = lattice target idx m.
Lemma placed_fun p x y : placed p x -> placed p y -> x = y.
Proof.
  intros (i & m & V & Hm & A & ->) (i' & m' & V' & Hm' & A' & ->).
  exact (proj1 (mesh_shared b target sh shc P Q W F Sp msh Run i m p i' m' p V V' Hm Hm' A A') eq_refl).
Qed.
Lemma placed_inj p q x : placed p x -> placed q x -> p = q.
Proof.
  intros (i & m & V & Hm & A & ->) (i' & m' & V' & Hm' & A' & E).
  exact (proj2 (mesh_shared b target sh shc P Q W F Sp msh Run i m p i' m' q V V' Hm Hm' A A') E).
Qed.

(* the points of side s of the cell idx *)
Definition side_points (idx : list nat) (s : nat) (ps : list nat) : Prop := Forall2 (point_at b msh idx) (side_ids nd target s) ps.
Lemma side_points_ex idx s : valid_index b idx -> s < nsides nd -> exists ps, side_points idx s ps.
Proof.
  intros V Hs. pose proof (side_facts nd target s (w_nd b W) F Hs) as C. unfold side_check in C. rewrite !andb_true_iff in C.
  destruct C as ((((((((((C & _) & _) & _) & _) & _) & _) & _) & _) & _) & _). rewrite forallb_forall in C. unfold side_points.
  induction (side_ids nd target s) as [|m l IH]; [exists []; constructor|].
  destruct (mesh_point_at b target sh shc P Q W F Sp msh Run idx m V) as (p & A & _).
  { specialize (C m (or_introl eq_refl)). apply andb_true_iff in C as (C & _). now apply Nat.ltb_lt. }
  destruct IH as (ps & B); [intros; apply C; now right|]. exists (p :: ps). constructor; auto.
Qed.
Lemma side_placed idx s ps : valid_index b idx -> s < nsides nd -> side_points idx s ps -> Forall2 placed ps (map (lattice target idx) (side_ids nd target s)).
Proof.
  intros V Hs H. pose proof (side_facts nd target s (w_nd b W) F Hs) as C. unfold side_check in C. rewrite !andb_true_iff in C.
  destruct C as ((((((((((C & _) & _) & _) & _) & _) & _) & _) & _) & _) & _). rewrite forallb_forall in C. unfold side_points in H.
  induction H as [|m p l ps A H IH]; [constructor|]. cbn [map]. constructor; [|apply IH; intros; apply C; now right].
  exists idx, m. split; auto. split; auto. specialize (C m (or_introl eq_refl)). apply andb_true_iff in C as (C & _). now apply Nat.ltb_lt.
Qed.
Lemma side_sum idx s a : valid_index b idx -> s < nsides nd -> a < nd ->
  nsum (map (fun x => nth a x 0) (map (lattice target idx) (side_ids nd target s))) =
  per target * (2 * half nd * nth a idx 0 + if a =? side_axis nd s then 2 * half nd * high nd s else half nd).
Proof.
  intros V Hs Ha. pose proof (side_facts nd target s (w_nd b W) F Hs) as C. unfold side_check in C. rewrite !andb_true_iff in C.
  destruct C as ((((((((((_ & L) & _) & C) & _) & _) & _) & _) & _) & _) & _). rewrite forallb_forall in C. specialize (C a). rewrite in_seq in C.
  specialize (C ltac:(lia)). apply Nat.eqb_eq in C. apply Nat.eqb_eq in L. rewrite Nat.mul_add_distr_l, <- C. rewrite <- L.
  clear C L. induction (side_ids nd target s) as [|m l IH]; cbn [map nsum fold_right List.length]; [lia|].
  change (fold_right Nat.add 0) with nsum. rewrite IH. rewrite (nth_lattice target idx m a) by (rewrite (proj1 V); exact Ha). lia.
Qed.

(* equal points: the same side, or the opposite side of the next cell *)
Lemma same_side idx s idx' s' ps qs : valid_index b idx -> valid_index b idx' -> s < nsides nd -> s' < nsides nd ->
  side_points idx s ps -> side_points idx' s' qs -> Permutation ps qs ->
  (idx' = idx /\ s' = s) \/ (across nd s idx idx' /\ s' = opposite nd s).
Proof.
  intros V V' Hs Hs' A A' Pq.
  pose proof (perm_transfer placed ps qs _ _ placed_fun Pq (side_placed idx s ps V Hs A) (side_placed idx' s' qs V' Hs' A')) as Px.
  assert (E : forall a, a < nd -> 2 * half nd * nth a idx 0 + (if a =? side_axis nd s then 2 * half nd * high nd s else half nd) =
                                  2 * half nd * nth a idx' 0 + (if a =? side_axis nd s' then 2 * half nd * high nd s' else half nd)).
  { intros a Ha. pose proof (nsum_perm _ _ (Permutation_map (fun x => nth a x 0) Px)) as X. rewrite !side_sum in X by auto.
    apply Nat.mul_cancel_l in X; auto. pose proof (per_pos target). lia. }
  pose proof (w_nd b W) as N. fold nd in N.
  pose proof (side_facts nd target s N F Hs) as C. unfold side_check in C. rewrite !andb_true_iff in C.
  destruct C as ((((((((((_ & _) & Ax) & _) & _) & Op) & Oa) & Oh) & _) & _) & _). apply Nat.ltb_lt in Ax, Op. apply Nat.eqb_eq in Oa, Oh.
  pose proof (side_facts nd target s' N F Hs') as C. unfold side_check in C. rewrite !andb_true_iff in C.
  destruct C as ((((((((((_ & _) & Ax') & _) & _) & _) & _) & _) & _) & _) & _). apply Nat.ltb_lt in Ax'.
  assert (Hh : half nd = 1 \/ half nd = 2) by (unfold half; destruct (nd =? 2); auto).
  destruct (Nat.eq_dec (side_axis nd s) (side_axis nd s')) as [Eax|Nax].
  2:{ exfalso. specialize (E _ Ax). rewrite Nat.eqb_refl in E. apply Nat.eqb_neq in Nax. rewrite Nax in E. destruct Hh as [Hh|Hh]; rewrite Hh in E; lia. }
  assert (Eo : forall a, a < nd -> a <> side_axis nd s -> nth a idx' 0 = nth a idx 0).
  { intros a Ha Na. specialize (E a Ha). rewrite <- Eax in E. apply Nat.eqb_neq in Na. rewrite Na in E. destruct Hh as [Hh|Hh]; rewrite Hh in E; lia. }
  pose proof (E _ Ax) as Es. rewrite <- Eax, Nat.eqb_refl in Es.
  assert (Es' : nth (side_axis nd s) idx 0 + high nd s = nth (side_axis nd s) idx' 0 + high nd s') by (destruct Hh as [Hh|Hh]; rewrite Hh in Es; lia).
  destruct (high_end nd s) as [[H1 _]|[H1 _]], (high_end nd s') as [[H2 _]|[H2 _]]; rewrite H1, H2 in Es'.
  1,4: left; assert (Ss : s' = s) by (apply (side_unique nd s' s); auto; congruence); (split; [|exact Ss]);
    (apply nth_ext with (d := 0) (d' := 0); [rewrite (proj1 V), (proj1 V'); auto|]); intros a Ha; rewrite (proj1 V') in Ha;
    (destruct (Nat.eq_dec a (side_axis nd s)) as [->|Na]; [lia|apply Eo; auto]).
  all: right; (split; [|apply (side_unique nd s' (opposite nd s)); auto; [congruence|rewrite Oh, H1, H2; reflexivity]]);
    apply across_high; rewrite H1; cbn [Nat.eqb]; (split; [apply (proj1 V')|]); (split; [exact Eo|]); lia.
Qed.

Lemma next_side idx s idx' ps qs : valid_index b idx -> valid_index b idx' -> s < nsides nd -> across nd s idx idx' ->
  side_points idx s ps -> side_points idx' (opposite nd s) qs -> Permutation ps qs.
Proof.
  intros V V' Hs Ac A A'. pose proof (w_nd b W) as N. fold nd in N.
  pose proof (side_facts nd target s N F Hs) as C. unfold side_check in C. rewrite !andb_true_iff in C.
  destruct C as ((((((((((Rg & L) & Ax) & _) & Of) & Op) & Oa) & Oh) & Ma) & Df) & Nd). apply Nat.ltb_lt in Ax, Op. apply Nat.eqb_eq in Oa, Oh, L.
  rewrite forallb_forall in Rg, Of, Ma, Df.
  destruct (list_eq_dec Nat.eq_dec (nodup Nat.eq_dec (side_ids nd target s)) (side_ids nd target s)) as [Nq|]; [|discriminate].
  assert (Nd' : NoDup (side_ids nd target s)) by (rewrite <- Nq; apply NoDup_nodup). clear Nd Nq.
  pose proof (side_facts nd target _ N F Op) as C. unfold side_check in C. rewrite !andb_true_iff in C.
  destruct C as ((((((((((Rg' & L') & _) & _) & Of') & _) & _) & _) & _) & _) & _). rewrite forallb_forall in Rg', Of'. apply Nat.eqb_eq in L'. rewrite Oa, Oh in Of'.
  pose proof (side_placed idx s ps V Hs A) as Pl. pose proof (side_placed idx' _ qs V' Op A') as Pl'.
  apply across_high in Ac. cbv zeta in Ac. destruct Ac as (_ & Eo & Es).
  assert (Lp : List.length ps = 2 * half nd) by (rewrite <- L; symmetry; eapply Forall2_length_eq; exact A).
  assert (Lq : List.length qs = 2 * half nd) by (rewrite <- L'; symmetry; eapply Forall2_length_eq; exact A').
  apply NoDup_Permutation_bis.
  - (* different points *)
    assert (Nl : NoDup (map (lattice target idx) (side_ids nd target s))).
    { clear - Nd' Df V N nd. assert (G : forall m m', In m (side_ids nd target s) -> In m' (side_ids nd target s) -> lattice target idx m = lattice target idx m' -> m = m').
      { intros m m' Hm Hm' E. specialize (Df m Hm). rewrite forallb_forall in Df. specialize (Df m' Hm'). apply orb_true_iff in Df as [Df|Df]; [now apply Nat.eqb_eq|].
        exfalso. apply existsb_exists in Df as (a & Ha & Df). apply in_seq in Ha. apply negb_true_iff, Nat.eqb_neq in Df. apply Df.
        assert (X : nth a (lattice target idx m) 0 = nth a (lattice target idx m') 0) by congruence.
        rewrite !(nth_lattice target) in X by (rewrite (proj1 V); fold nd; lia). lia. }
      clear Df. induction (side_ids nd target s) as [|m l IH]; [constructor|]. inversion Nd' as [|? ? Ni Nl]; subst. cbn [map]. constructor.
      - intros I. apply in_map_iff in I as (m' & E & I). apply Ni. rewrite (G m m'); auto; [now left|now right].
      - apply IH; auto. intros; apply G; auto; now right. }
    clear - Nl Pl P Q W F Sp Run nd. revert Nl Pl. generalize (map (lattice target idx) (side_ids nd target s)) as xs. induction ps as [|p ps IH]; intros xs Nl Pl; [constructor|].
    inversion Pl as [|? x ? xs' Hx Hxs]; subst. inversion Nl as [|? ? Ni Nl']; subst. constructor; [|eapply IH; eauto].
    intros I. apply Ni. clear - I Hx Hxs P Q W F Sp Run. induction Hxs as [|q y l ys Hy Hys IH]; [destruct I|]. destruct I as [->|I]; [left; eapply placed_fun; eauto|right; auto].
  - lia.
  - intros p Hp. destruct (Forall2_in_left _ _ _ p A Hp) as (m & Hm & Am).
    specialize (Ma m Hm). apply existsb_exists in Ma as (m' & Hm' & Ma). rewrite forallb_forall in Ma.
    destruct (Forall2_in_right _ _ _ m' A' Hm') as (q & Hq & Aq).
    replace p with q; auto.
    assert (R1 : m < kind_nnode target) by (specialize (Rg m Hm); apply andb_true_iff in Rg as (Rg & _); now apply Nat.ltb_lt).
    assert (R2 : m' < kind_nnode target) by (specialize (Rg' m' Hm'); apply andb_true_iff in Rg' as (Rg' & _); now apply Nat.ltb_lt).
    apply (proj2 (mesh_shared b target sh shc P Q W F Sp msh Run idx' m' q idx m p V' V R2 R1 Aq Am)).
    apply nth_ext with (d := 0) (d' := 0); [unfold lattice; rewrite !map_length, !seq_length, (proj1 V), (proj1 V'); auto|].
    intros a Ha. unfold lattice in Ha. rewrite map_length, seq_length, (proj1 V') in Ha. fold nd in Ha.
    rewrite !(nth_lattice target) by (rewrite ?(proj1 V), ?(proj1 V'); exact Ha).
    specialize (Of m Hm). specialize (Of' m' Hm'). apply Nat.eqb_eq in Of, Of'.
    destruct (Nat.eq_dec a (side_axis nd s)) as [->|Na].
    + rewrite Of, Of'. destruct (high_end nd s) as [[H1 _]|[H1 _]]; rewrite H1 in Es |- *; cbn [Nat.eqb] in Es; [rewrite <- Es|rewrite Es]; cbn [Nat.sub]; lia.
    + rewrite (Eo a Ha Na). specialize (Ma a). rewrite in_seq in Ma. specialize (Ma ltac:(lia)). apply Nat.eqb_neq in Na. rewrite Na in Ma. cbn [orb] in Ma. apply Nat.eqb_eq in Ma. lia.
Qed.

(* the neighbour exists unless the cell is at the rim *)
Lemma neighbour idx s : valid_index b idx -> s < nsides nd -> ~ at_rim b idx s -> exists idx', valid_index b idx' /\ across nd s idx idx'.
Proof.
  intros V Hs Nr. pose proof (side_facts nd target s (w_nd b W) F Hs) as C. unfold side_check in C. rewrite !andb_true_iff in C.
  destruct C as ((((((((((_ & _) & Ax) & _) & _) & _) & _) & _) & _) & _) & _). apply Nat.ltb_lt in Ax.
  rewrite rim_high in Nr. cbv zeta in Nr. fold nd in Nr. set (a := side_axis nd s) in *. set (i := nth a idx 0) in *.
  assert (Hi : i < ndivs b a) by (apply (proj2 V); exact Ax).
  exists (upd idx a (if high nd s =? 0 then i - 1 else S i)).
  assert (Nt : forall c, c < nd -> nth c (upd idx a (if high nd s =? 0 then i - 1 else S i)) 0 = if a =? c then (if high nd s =? 0 then i - 1 else S i) else nth c idx 0).
  { intros c Hc. rewrite nth_upd by (rewrite (proj1 V); fold nd; lia). reflexivity. }
  split.
  - split; [rewrite upd_length; apply V|]. intros c Hc. rewrite Nt by exact Hc. destruct (Nat.eqb_spec a c) as [<-|]; [|apply V; exact Hc].
    destruct (high nd s =? 0); lia.
  - apply across_high. cbv zeta. fold a. split; [rewrite upd_length; apply V|]. split.
    + intros c Hc Nc. rewrite Nt by exact Hc. destruct (Nat.eqb_spec a c); [congruence|reflexivity].
    + rewrite Nt by exact Ax. rewrite Nat.eqb_refl. fold i. destruct (high nd s =? 0); lia.
Qed.
Lemma rim_alone idx s idx' : valid_index b idx' -> s < nsides nd -> at_rim b idx s -> ~ across nd s idx idx'.
Proof.
  intros V' Hs Rm Ac. pose proof (side_facts nd target s (w_nd b W) F Hs) as C. unfold side_check in C. rewrite !andb_true_iff in C.
  destruct C as ((((((((((_ & _) & Ax) & _) & _) & _) & _) & _) & _) & _) & _). apply Nat.ltb_lt in Ax.
  rewrite rim_high in Rm. cbv zeta in Rm. fold nd in Rm. apply across_high in Ac. cbv zeta in Ac. destruct Ac as (_ & _ & Es).
  pose proof (proj2 V' _ Ax). destruct (high nd s =? 0); lia.
Qed.
Lemma across_unique s i j k : s < nsides nd -> across nd s i j -> across nd s i k -> j = k.
Proof.
  intros Hs A B. apply across_high in A, B. cbv zeta in A, B. destruct A as (A1 & A2 & A3), B as (B1 & B2 & B3).
  apply nth_ext with (d := 0) (d' := 0); [lia|]. intros c Hc. rewrite A1 in Hc.
  destruct (Nat.eq_dec c (side_axis nd s)) as [->|N]; [destruct (high nd s =? 0); lia|]. rewrite A2, B2; auto.
Qed.
End Sides.
