(* The edges (faces) of the cells of a block, in the terms of the topology of the mesh; their markers. *)
From Coq Require Import String Reals QArith List Lia Lra Bool Arith ZArith Permutation.
From Verif Require Import Base BaseFacts TopoMaps Kind MeshModel GraphModel MeshQuerySpec TopoModel TopoSpec GridModel GeomModel ShapesModel ShapesSpec PadModel PadSpec
  BlockModel BlockSpec BlockProof BlockProof2 BlockProof3 BlockProof4 BlockProof5 BlockProof6 BlockProof7 BlockProof8 BlockProof9 BlockFeatSpec BlockFeatProof.
Import ListNotations.
Local Open Scope list_scope.
Local Open Scope nat_scope.

Lemma kind_dim nd k : nd = 2 \/ nd = 3 -> In k (targets nd) -> kind_ndim k = nd /\ (nd = 2 -> kind_nedge k = 4) /\ (nd = 3 -> kind_nface k = 6 /\ face_ncorner k = 4).
Proof.
  intros [-> | ->] H; simpl in H; repeat (destruct H as [<- |H]; [repeat split; try reflexivity; discriminate|]); destruct H.
Qed.

Lemma same_pair_perm p q u v : same_pair p q u v <-> Permutation [p; q] [u; v].
Proof.
  split; [intros [[-> ->]|[-> ->]]; [apply Permutation_refl|apply perm_swap]|].
  intros X. apply Permutation_length_2_inv in X as [X|X]; injection X as -> ->; [left|right]; auto.
Qed.
Lemma minmax_perm p q : Permutation [p; q] [Nat.min p q; Nat.max p q].
Proof. destruct (Nat.le_ge_cases p q); [rewrite Nat.min_l, Nat.max_r by lia; apply Permutation_refl|rewrite Nat.min_r, Nat.max_l by lia; apply perm_swap]. Qed.

Section Sides.
Variables (b : block) (target : geokind) (sh : container -> container) (shc : list (nat * nat) -> list (nat * nat)).
Hypothesis P : forall c, Permutation (sh c) c.
Hypothesis Q : forall l, Permutation (shc l) l.
Hypothesis W : wf_block b.
Hypothesis F : In target (targets (b_ndim b)).
Hypothesis Sp : spaced b target.
Variable msh : mesh R.
Hypothesis Run : subdivide sh shc b target = Ok msh.
Let nd := b_ndim b.
Let cons := proj1 (mesh_consistent b target sh shc P Q W F Sp msh Run).

Lemma cell_at c : In c (cells msh) -> exists idx, valid_index b idx /\ c_id c = rank (b_ndiv b) idx /\ nth_error (cells msh) (rank (b_ndiv b) idx) = Some c /\ c_kind c = target.
Proof.
  intros I. apply In_nth_error in I as (i & E). assert (L : i < List.length (cells msh)) by (apply nth_error_Some; congruence).
  destruct (mesh_cell_index b target sh shc P Q W F Sp msh Run i L) as (idx & V & Ri). exists idx. split; auto. rewrite Ri.
  split; [apply (proj2 cons i c E)|]. split; auto. destruct (mesh_cell b target sh shc P Q W F Sp msh Run idx V) as (c' & E' & K & _).
  rewrite Ri, E in E'. congruence.
Qed.

(* has_edge and has_face are statements about side_points *)
Lemma edge_side p q c e : nd = 2 -> (has_edge msh p q (c, e) <->
  exists idx ps, valid_index b idx /\ e < 4 /\ c = rank (b_ndiv b) idx /\ side_points b target msh idx e ps /\ Permutation [p; q] ps).
Proof.
  intros D. destruct (kind_dim nd target (w_nd b W) F) as (Kd & Ke & _). specialize (Ke D). unfold side_points, side_ids. fold nd. rewrite D. cbn [Nat.eqb map seq]. split.
  - intros (u & v & (cl & I & Ei & _ & He & Eu & Ev) & Sa). cbn [fst snd] in *. destruct (cell_at cl I) as (idx & V & Ri & Nc & Kc). rewrite Kc in *.
    exists idx, [u; v]. split; auto. split; [lia|]. split; [congruence|]. split.
    + repeat constructor; exists cl; auto.
    + destruct Sa as [[-> ->]|[-> ->]]; [apply Permutation_refl|apply perm_swap].
  - intros (idx & ps & V & He & -> & A & Pm). inversion A as [|? u ? ps1 Hu A1]; subst. inversion A1 as [|? v ? ps2 Hv A2]; subst. inversion A2; subst.
    destruct Hu as (cl & N1 & E1), Hv as (cl' & N2 & E2). replace cl' with cl in * by congruence.
    destruct (mesh_cell b target sh shc P Q W F Sp msh Run idx V) as (c' & E' & K & _). replace c' with cl in * by congruence.
    exists u, v. split.
    + exists cl. cbn [fst snd]. rewrite K. split; [eapply nth_error_In; eauto|]. split; [apply (proj2 cons _ cl N1)|]. split; [lia|]. split; [lia|auto].
    + apply Permutation_length_2_inv in Pm as [X|X]; injection X as -> ->; [left|right]; auto.
Qed.
Lemma face_side k c f : nd = 3 -> (has_face msh k (c, f) <->
  exists idx ps, valid_index b idx /\ f < 6 /\ c = rank (b_ndiv b) idx /\ side_points b target msh idx f ps /\ Permutation k ps).
Proof.
  intros D. destruct (kind_dim nd target (w_nd b W) F) as (Kd & _ & Kf). specialize (Kf D) as (Kf & Kc). unfold side_points, side_ids. fold nd. rewrite D. cbn [Nat.eqb]. split.
  - intros (ps & (cl & I & Ei & _ & He & E) & Pm). cbn [fst snd] in *. destruct (cell_at cl I) as (idx & V & Ri & Nc & Kk). rewrite Kk, Kc in *.
    exists idx, ps. split; auto. split; [lia|]. split; [congruence|]. split; auto.
    clear - E Nc. revert ps E. induction (seq 0 4) as [|i l IH]; intros [|p ps] E; try discriminate; [constructor|]. cbn [map] in *. injection E as E1 E2.
    constructor; [exists cl; auto|apply IH, E2].
  - intros (idx & ps & V & He & -> & A & Pm). destruct (mesh_cell b target sh shc P Q W F Sp msh Run idx V) as (cl & N1 & K & _).
    exists ps. split; auto. exists cl. cbn [fst snd]. rewrite K, Kc. split; [eapply nth_error_In; eauto|]. split; [apply (proj2 cons _ cl N1)|]. split; [lia|]. split; [lia|].
    clear - A N1. revert ps A. induction (seq 0 4) as [|i l IH]; intros ps A; inversion A as [|? p ? ps1 Hp A1]; subst; [reflexivity|]. cbn [map].
    destruct Hp as (c' & N2 & E2). replace c' with cl in * by congruence. rewrite E2. f_equal. apply IH, A1.
Qed.

(* the sides with the same points *)
Lemma sharing idx s ps : valid_index b idx -> s < nsides nd -> side_points b target msh idx s ps -> forall idx' s',
  (valid_index b idx' /\ s' < nsides nd /\ (exists qs, side_points b target msh idx' s' qs /\ Permutation ps qs)) <->
  (idx' = idx /\ s' = s) \/ (valid_index b idx' /\ across nd s idx idx' /\ s' = opposite nd s).
Proof.
  intros V Hs A idx' s'. split.
  - intros (V' & Hs' & qs & B & Pm). destruct (same_side b target sh shc P Q W F Sp msh Run idx s idx' s' ps qs V V' Hs Hs' A B Pm) as [X|X]; auto.
  - intros [[-> ->]|(V' & Ac & ->)]; [eauto 6|].
    assert (Op : opposite nd s < nsides nd).
    { pose proof (side_facts nd target s (w_nd b W) F Hs) as C. unfold side_check in C. rewrite !andb_true_iff in C.
      destruct C as ((((((((((_ & _) & _) & _) & _) & Op) & _) & _) & _) & _) & _). now apply Nat.ltb_lt. }
    destruct (side_points_ex b target sh shc P Q W F Sp msh Run idx' _ V' Op) as (qs & B).
    split; auto. split; auto. exists qs. split; auto. exact (next_side b target sh shc P Q W F Sp msh Run idx s idx' ps qs V V' Hs Ac A B).
Qed.
Lemma points_unique idx s ps qs : side_points b target msh idx s ps -> side_points b target msh idx s qs -> ps = qs.
Proof.
  unfold side_points. intros A. revert qs. induction A as [|m p l ps Hp A IH]; intros qs B; inversion B as [|? q ? qs' Hq B']; subst; auto.
  f_equal; auto. destruct Hp as (c & N1 & E1), Hq as (c' & N2 & E2). congruence.
Qed.
Lemma edge_shared p q idx e : nd = 2 -> valid_index b idx -> has_edge msh p q (rank (b_ndiv b) idx, e) -> forall c e',
  has_edge msh p q (c, e') <-> (c = rank (b_ndiv b) idx /\ e' = e) \/
    exists idx', valid_index b idx' /\ across 2 e idx idx' /\ c = rank (b_ndiv b) idx' /\ e' = opposite 2 e.
Proof.
  intros D V H c e'. apply (edge_side p q _ e D) in H as (idx0 & ps & V0 & He & Er & A & Pm). apply (rank_inj b W idx idx0 V V0) in Er. subst idx0.
  assert (Ns : nsides nd = 4) by (rewrite D; reflexivity). pose proof (sharing idx e ps V ltac:(lia) A) as Sg.
  rewrite (edge_side p q c e' D). split.
  - intros (idx' & qs & V' & He' & -> & B & Pm').
    destruct (proj1 (Sg idx' e')) as [[-> ->]|(_ & Ac & ->)]; [split; auto; split; [lia|]; exists qs; split; auto; transitivity [p; q]; auto; apply Permutation_sym; auto|auto|].
    right. exists idx'. rewrite D in Ac. rewrite D. auto.
  - intros [[-> ->]|(idx' & V' & Ac & -> & ->)]; [exists idx, ps; auto|]. rewrite <- D in Ac.
    destruct (proj2 (Sg idx' (opposite nd e))) as (_ & Ho & qs & B & Pq); [right; auto|].
    exists idx', qs. rewrite D in Ho, B. split; auto. split; [exact Ho|]. split; auto. split; [exact B|]. transitivity ps; auto.
Qed.
Lemma face_shared k idx f : nd = 3 -> valid_index b idx -> has_face msh k (rank (b_ndiv b) idx, f) -> forall c f',
  has_face msh k (c, f') <-> (c = rank (b_ndiv b) idx /\ f' = f) \/
    exists idx', valid_index b idx' /\ across 3 f idx idx' /\ c = rank (b_ndiv b) idx' /\ f' = opposite 3 f.
Proof.
  intros D V H c e'. apply (face_side k _ f D) in H as (idx0 & ps & V0 & He & Er & A & Pm). apply (rank_inj b W idx idx0 V V0) in Er. subst idx0.
  assert (Ns : nsides nd = 6) by (rewrite D; reflexivity). pose proof (sharing idx f ps V ltac:(lia) A) as Sg.
  rewrite (face_side k c e' D). split.
  - intros (idx' & qs & V' & He' & -> & B & Pm').
    destruct (proj1 (Sg idx' e')) as [[-> ->]|(_ & Ac & ->)]; [split; auto; split; [lia|]; exists qs; split; auto; transitivity k; auto; apply Permutation_sym; auto|auto|].
    right. exists idx'. rewrite D in Ac. rewrite D. auto.
  - intros [[-> ->]|(idx' & V' & Ac & -> & ->)]; [exists idx, ps; auto|]. rewrite <- D in Ac.
    destruct (proj2 (Sg idx' (opposite nd f))) as (_ & Ho & qs & B & Pq); [right; auto|].
    exists idx', qs. rewrite D in Ho, B. split; auto. split; [exact Ho|]. split; auto. split; [exact B|]. transitivity ps; auto.
Qed.
Lemma rim_iff idx s : valid_index b idx -> s < nsides nd -> (at_rim b idx s <-> ~ exists idx', valid_index b idx' /\ across nd s idx idx').
Proof.
  intros V Hs. split.
  - intros Rm (idx' & V' & Ac). exact (rim_alone b target W F idx s idx' V' Hs Rm Ac).
  - intros N. destruct (Bool.bool_dec (if high nd s =? 0 then nth (side_axis nd s) idx 0 =? 0 else S (nth (side_axis nd s) idx 0) =? ndivs b (side_axis nd s)) true) as [E|E].
    + apply rim_high. cbv zeta. fold nd. destruct (high nd s =? 0); now apply Nat.eqb_eq.
    + exfalso. apply N. apply (neighbour b target W F idx s V Hs). intros Rm. apply rim_high in Rm. cbv zeta in Rm. fold nd in Rm. apply E.
      destruct (high nd s =? 0); now apply Nat.eqb_eq.
Qed.
Lemma not_itself idx s : s < nsides nd -> ~ across nd s idx idx.
Proof. intros Hs Ac. apply across_high in Ac. cbv zeta in Ac. destruct Ac as (_ & _ & E). destruct (high nd s =? 0); lia. Qed.

(* exactly one cell *)
Lemma edge_alone p q idx e : nd = 2 -> valid_index b idx -> has_edge msh p q (rank (b_ndiv b) idx, e) ->
  ((exists! ce, has_edge msh p q ce) <-> at_rim b idx e).
Proof.
  intros D V H. pose proof (edge_shared p q idx e D V H) as Sh. assert (He : e < 4) by (apply (edge_side p q _ e D) in H as (? & ? & ? & ? & _); auto).
  assert (Ns : nsides nd = 4) by (rewrite D; reflexivity). rewrite (rim_iff idx e V ltac:(lia)). rewrite D. split.
  - intros (ce & _ & U) (idx' & V' & Ac). pose proof (U _ H) as E1. pose proof (U (rank (b_ndiv b) idx', opposite 2 e)) as E2. rewrite E2 in E1.
    + injection E1 as E1 _. apply (rank_inj b W idx' idx V' V) in E1. subst idx'. apply (not_itself idx e); [lia|]. rewrite D. exact Ac.
    + apply Sh. right. exists idx'. auto.
  - intros N. exists (rank (b_ndiv b) idx, e). split; auto. intros [c e'] H'. apply Sh in H' as [[-> ->]|(idx' & V' & Ac & _)]; auto. exfalso. apply N. eauto.
Qed.
Lemma face_alone k idx f : nd = 3 -> valid_index b idx -> has_face msh k (rank (b_ndiv b) idx, f) ->
  ((exists! cf, has_face msh k cf) <-> at_rim b idx f).
Proof.
  intros D V H. pose proof (face_shared k idx f D V H) as Sh. assert (He : f < 6) by (apply (face_side k _ f D) in H as (? & ? & ? & ? & _); auto).
  assert (Ns : nsides nd = 6) by (rewrite D; reflexivity). rewrite (rim_iff idx f V ltac:(lia)). rewrite D. split.
  - intros (ce & _ & U) (idx' & V' & Ac). pose proof (U _ H) as E1. pose proof (U (rank (b_ndiv b) idx', opposite 3 f)) as E2. rewrite E2 in E1.
    + injection E1 as E1 _. apply (rank_inj b W idx' idx V' V) in E1. subst idx'. apply (not_itself idx f); [lia|]. rewrite D. exact Ac.
    + apply Sh. right. exists idx'. auto.
  - intros N. exists (rank (b_ndiv b) idx, f). split; auto. intros [c e'] H'. apply Sh in H' as [[-> ->]|(idx' & V' & Ac & _)]; auto. exfalso. apply N. eauto.
Qed.

(* markers *)
Lemma rim_touch idx s : valid_index b idx -> s < nsides nd -> (touch_side nd (touch_of b idx) s = true <-> at_rim b idx s).
Proof.
  intros V Hs. unfold nd at 1. rewrite (touch_side_iff b idx s W Hs). rewrite rim_high. cbv zeta. fold nd.
  assert (E : side_high nd s = negb (high nd s =? 0)).
  { clear - Hs W nd. pose proof (w_nd b W) as N. fold nd in N. destruct N as [D|D]; rewrite D in *; cbn in Hs; [do 4 (destruct s as [|s]; [reflexivity|]); lia|do 6 (destruct s as [|s]; [reflexivity|]); lia]. }
  rewrite E. assert (Ax : side_axis nd s < nd).
  { pose proof (side_facts nd target s (w_nd b W) F Hs) as C. unfold side_check in C. rewrite !andb_true_iff in C.
    destruct C as ((((((((((_ & _) & Ax) & _) & _) & _) & _) & _) & _) & _) & _). now apply Nat.ltb_lt. }
  pose proof (w_pos b W _ Ax). destruct (high nd s =? 0); cbn [negb]; lia.
Qed.
Lemma marked_edge mk u v : nd = 2 -> (In (mk, u, v) (marked_edges msh) <->
  exists idx e p q, valid_index b idx /\ e < 4 /\ at_rim b idx e /\ mget Nat.eqb (b_em b) e = Some mk /\ side_points b target msh idx e [p; q] /\ u = Nat.min p q /\ v = Nat.max p q).
Proof.
  intros D. destruct (kind_dim nd target (w_nd b W) F) as (_ & Ke & _). specialize (Ke D).
  assert (Ne : n_edges b = 4) by (unfold n_edges; fold nd; rewrite D; reflexivity). assert (Ns : nsides nd = 4) by (rewrite D; reflexivity).
  assert (On : forall idx e, e < 4 -> valid_index b idx -> (edge_on b (touch_of b idx) e = true <-> at_rim b idx e)).
  { intros idx e He V. rewrite <- (rim_touch idx e V ltac:(lia)), edge_on_sides by lia. unfold edge_sides. fold nd. rewrite D. cbn. now rewrite andb_true_r. }
  rewrite (mesh_edge_marks b target W F Sp sh shc P Q msh Run mk u v). unfold side_points, side_ids. fold nd. rewrite D. cbn [Nat.eqb map seq]. split.
  - intros (e & idx & e' & p & q & M & V & He' & Pp & Pq & O1 & O2 & U1 & U2). pose proof (em_lt b W e mk M) as He.
    rewrite <- D in O1, O2. destruct (proj1 (edge_where b target W F Sp idx e e' V He He') (conj O1 O2)) as [<- On1].
    exists idx, e, p, q. split; auto. split; [lia|]. split; [apply On; auto; lia|]. split; auto.
  - intros (idx & e & p & q & V & He & Rm & M & A & U1 & U2). inversion A as [|? ? ? ? Hp A1]; subst. inversion A1 as [|? ? ? ? Hq _]; subst.
    destruct (proj2 (edge_where b target W F Sp idx e e V ltac:(lia) ltac:(lia)) (conj eq_refl (proj2 (On idx e He V) Rm))) as [O1 O2]. fold nd in O1, O2. rewrite D in O1, O2.
    exists e, idx, e, p, q. split; auto. split; auto. split; [lia|]. auto 10.
Qed.
Lemma marked_face x : nd = 3 -> (In x (marked_faces msh) <->
  exists idx f ps a1 a2 a3 a4 mk, valid_index b idx /\ f < 6 /\ at_rim b idx f /\ mget Nat.eqb (b_fm b) f = Some mk /\ side_points b target msh idx f ps /\
    Permutation ps [a1; a2; a3; a4] /\ a1 <= a2 <= a3 /\ a3 <= a4 /\ x = (mk, a1, a2, a3, Some a4)).
Proof.
  intros D. assert (Ns : nsides nd = 6) by (rewrite D; reflexivity).
  assert (On : forall idx e, e < 6 -> valid_index b idx -> (face_on (touch_of b idx) e = true <-> at_rim b idx e)).
  { intros idx e He V. rewrite <- (rim_touch idx e V ltac:(lia)), face_on_side by lia. rewrite D. tauto. }
  rewrite (mesh_face_marks b target W F Sp sh shc P Q msh Run x). unfold side_points, side_ids. fold nd. rewrite D. cbn [Nat.eqb map seq]. split.
  - intros (f & idx & f' & p1 & p2 & p3 & p4 & a1 & a2 & a3 & a4 & mk & M & V & Hf' & H1 & H2 & H3 & H4 & O & Pm & L1 & L2 & E).
    destruct (fm_lt b W f mk M) as [Hf _]. destruct (proj1 (face_where b target W F Sp idx f f' D V Hf Hf') O) as [<- On1].
    exists idx, f, [p1; p2; p3; p4], a1, a2, a3, a4, mk. split; auto. split; auto. split; [apply On; auto|]. split; auto 10.
  - intros (idx & f & ps & a1 & a2 & a3 & a4 & mk & V & Hf & Rm & M & A & Pm & L1 & L2 & E).
    inversion A as [|? p1 ? ? H1 A1]; subst. inversion A1 as [|? p2 ? ? H2 A2]; subst. inversion A2 as [|? p3 ? ? H3 A3]; subst. inversion A3 as [|? p4 ? ? H4 A4]; subst. inversion A4; subst.
    exists f, idx, f, p1, p2, p3, p4, a1, a2, a3, a4, mk. split; auto. split; auto. split; auto. split; auto. split; auto. split; auto. split; auto. split; auto 10.
    apply (proj2 (face_where b target W F Sp idx f f D V Hf Hf)). split; auto. apply On; auto.
Qed.

Definition expected (l : list (nat * Z)) (idx : list nat) (s : nat) (mk : Z) : Prop :=
  (at_rim b idx s /\ mk = side_marker l s) \/ (~ at_rim b idx s /\ mk = 0%Z).
Lemma rim_dec idx s : at_rim b idx s \/ ~ at_rim b idx s.
Proof.
  destruct (Bool.bool_dec (if high nd s =? 0 then nth (side_axis nd s) idx 0 =? 0 else S (nth (side_axis nd s) idx 0) =? ndivs b (side_axis nd s)) true) as [E|E].
  - left. apply rim_high. cbv zeta. fold nd. destruct (high nd s =? 0); now apply Nat.eqb_eq.
  - right. intros Rm. apply rim_high in Rm. cbv zeta in Rm. fold nd in Rm. apply E. destruct (high nd s =? 0); now apply Nat.eqb_eq.
Qed.
(* a marked edge with the points of side s is the one of that side *)
Lemma edge_mark_of p q idx e mk u v : nd = 2 -> valid_index b idx -> has_edge msh p q (rank (b_ndiv b) idx, e) -> In (mk, u, v) (marked_edges msh) ->
  same_pair p q u v -> at_rim b idx e /\ mget Nat.eqb (b_em b) e = Some mk.
Proof.
  intros D V H I Sa. apply (edge_side p q _ e D) in H as (idx0 & ps & V0 & He & Er & A & Pm). apply (rank_inj b W idx idx0 V V0) in Er. subst idx0.
  apply (marked_edge mk u v D) in I as (idx' & e' & p' & q' & V' & He' & Rm & M & A' & -> & ->).
  assert (Ns : nsides nd = 4) by (rewrite D; reflexivity).
  assert (Pq : Permutation [p'; q'] ps).
  { transitivity [p; q]; auto. transitivity [Nat.min p' q'; Nat.max p' q']; [apply minmax_perm|]. apply Permutation_sym. apply same_pair_perm. exact Sa. }
  destruct (same_side b target sh shc P Q W F Sp msh Run idx' e' idx e [p'; q'] ps V' V ltac:(fold nd; lia) ltac:(fold nd; lia) A' A Pq) as [[-> ->]|[Ac _]]; auto.
  exfalso. exact (rim_alone b target W F idx' e' idx V ltac:(fold nd; lia) Rm Ac).
Qed.
Lemma edge_marker_is p q idx e mk : nd = 2 -> valid_index b idx -> has_edge msh p q (rank (b_ndiv b) idx, e) -> edge_marker msh p q mk -> expected (b_em b) idx e mk.
Proof.
  intros D V H [(l1 & l2 & u & v & E & Sa & _)|[-> N]].
  - destruct (edge_mark_of p q idx e mk u v D V H) as [Rm M]; auto; [rewrite E; apply in_or_app; right; now left|]. left. split; auto. unfold side_marker. now rewrite M.
  - destruct (rim_dec idx e) as [Rm|Rm]; [left|right; auto]. split; auto. unfold side_marker. destruct (mget Nat.eqb (b_em b) e) as [mk|] eqn:M; auto. exfalso.
    apply (edge_side p q _ e D) in H as (idx0 & ps & V0 & He & Er & A & Pm). apply (rank_inj b W idx idx0 V V0) in Er. subst idx0.
    destruct ps as [|p' [|q' [|]]]; try (apply Permutation_length in Pm; discriminate).
    apply (N mk (Nat.min p' q') (Nat.max p' q')); [apply (marked_edge mk _ _ D); exists idx, e, p', q'; auto 10|].
    apply same_pair_perm. transitivity [p'; q']; auto. apply minmax_perm.
Qed.
Lemma face_mark_of k idx f x : nd = 3 -> valid_index b idx -> has_face msh k (rank (b_ndiv b) idx, f) -> In x (marked_faces msh) ->
  Permutation k (marked_face_points x) -> at_rim b idx f /\ mget Nat.eqb (b_fm b) f = Some (fst (fst (fst (fst x)))).
Proof.
  intros D V H I Sa. apply (face_side k _ f D) in H as (idx0 & ps & V0 & He & Er & A & Pm). apply (rank_inj b W idx idx0 V V0) in Er. subst idx0.
  apply (marked_face x D) in I as (idx' & f' & ps' & a1 & a2 & a3 & a4 & mk & V' & He' & Rm & M & A' & Pm' & _ & _ & ->). cbn [fst marked_face_points app] in *.
  assert (Ns : nsides nd = 6) by (rewrite D; reflexivity).
  assert (Pq : Permutation ps' ps) by (transitivity [a1; a2; a3; a4]; auto; transitivity k; auto; apply Permutation_sym; auto).
  destruct (same_side b target sh shc P Q W F Sp msh Run idx' f' idx f ps' ps V' V ltac:(fold nd; lia) ltac:(fold nd; lia) A' A Pq) as [[-> ->]|[Ac _]]; auto.
  exfalso. exact (rim_alone b target W F idx' f' idx V ltac:(fold nd; lia) Rm Ac).
Qed.
Lemma face_marker_is k idx f mk : nd = 3 -> valid_index b idx -> has_face msh k (rank (b_ndiv b) idx, f) -> face_marker msh k mk -> expected (b_fm b) idx f mk.
Proof.
  intros D V H [(l1 & l2 & x & E & Em & Sa & _)|[-> N]].
  - destruct (face_mark_of k idx f x D V H) as [Rm M]; auto; [rewrite E; apply in_or_app; right; now left|]. left. split; auto. unfold side_marker. rewrite M. auto.
  - destruct (rim_dec idx f) as [Rm|Rm]; [left|right; auto]. split; auto. unfold side_marker. destruct (mget Nat.eqb (b_fm b) f) as [mk|] eqn:M; auto. exfalso.
    apply (face_side k _ f D) in H as (idx0 & ps & V0 & He & Er & A & Pm). apply (rank_inj b W idx idx0 V V0) in Er. subst idx0.
    assert (L4 : List.length ps = 4). { unfold side_points in A. rewrite <- (Forall2_length_eq _ _ _ A). unfold side_ids. fold nd. rewrite D. reflexivity. }
    destruct ps as [|p1 [|p2 [|p3 [|p4 [|]]]]]; try discriminate.
    destruct (sort4_four p1 p2 p3 p4) as (a1 & a2 & a3 & a4 & Es).
    assert (Pa : Permutation [p1; p2; p3; p4] [a1; a2; a3; a4]) by (rewrite <- Es; symmetry; apply isort_perm).
    pose proof (JoinProof2.sort4_is_sorted [p1; p2; p3; p4]) as S4. rewrite Es in S4. inversion S4 as [|? ? S3 F1]; subst. inversion S3 as [|? ? S2 F2]; subst. inversion S2 as [|? ? S1 F3]; subst.
    inversion F1; subst. inversion F2; subst. inversion F3; subst.
    apply (N (mk, a1, a2, a3, Some a4)); [|cbn; transitivity [p1; p2; p3; p4]; auto].
    apply (marked_face _ D). exists idx, f, [p1; p2; p3; p4], a1, a2, a3, a4, mk. repeat (split; [solve [auto]|]); auto.
Qed.
End Sides.
