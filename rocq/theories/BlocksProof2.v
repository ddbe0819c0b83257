(* Collections of blocks: the mesh of one region. *)
From Coq Require Import String Reals List Lia Lra Bool Arith ZArith Permutation.
From Verif Require Import Base BaseFacts Kind MeshModel MeshQuerySpec TopoModel TopoSpec GeomModel GeomSpec GeomProof GridModel GridSpec GridProof SearchModel SearchProof
  JoinModel JoinSpec JoinProof JoinProof2 ShapesModel ShapesSpec PadModel PadSpec BlockModel BlockSpec BlockProof BlockProof2 BlockProof3 BlockProof4 BlockProof8 BlockProof9 BlockProof10 PropBlock StructModel StructSpec StructProof StructProof3 StructProof4 RingSpec RingProof RingProof2 PosSpec PosFacts PosProof PosProof2 PropPos BlocksSpec BlocksProof.
Import ListNotations.
Local Open Scope list_scope.
Local Open Scope R_scope.

(* the block describes the region *)
Record of_region (zdet : R) (nd : nat) (em fm : nat -> Z -> Prop) (g : region) (b : block) : Prop := {
  o_made : made zdet b;
  o_ndim : b_ndim b = nd;
  o_ring : b_ring b = false;
  o_marker : b_marker b = g_marker g;
  o_weights : List.length (g_weights g) = nd;
  o_sums : forall w, In w (g_weights g) -> 1 <= sum w;
  o_ndiv : b_ndiv b = divs g;
  o_widths : forall a, (a < nd)%nat -> weighted (nth a (g_weights g) []) (widths b a);
  o_corners : List.length (g_nodes g) = corners nd \/ List.length (g_nodes g) = kind_nnode (bkind nd);
  o_nodes : holds_nodes nd (g_nodes g) (b_pad b);
  o_sides : forall s, (s < nsides nd)%nat /\ constrained b s <-> exists c, In (s, c) (g_sides g);
  o_apart : apart b;
  o_moved : forall s c, In (s, c) (g_sides g) -> (forall x y, projects b s x y /\ meets b s y <-> moved c x y) /\ forall x, near b s x <-> too_near c x;
  o_edges : forall e mk, mget Nat.eqb (b_em b) e = Some mk <-> em e mk;
  o_faces : forall f mk, mget Nat.eqb (b_fm b) f = Some mk <-> fm f mk }.

(* the mesh is that of the region *)
Record region_mesh (nd : nat) (target : geokind) (em fm : nat -> Z -> Prop) (g : region) (m : mesh R) : Prop := {
  r_consistent : consistent m;
  r_complete : coords_complete m;
  r_ndim : ndim m = nd;
  r_ncells : List.length (cells m) = ncells g;
  r_cells : forall idx, in_region g idx -> exists c, nth_error (cells m) (rank (divs g) idx) = Some c /\ c_kind c = target /\ c_marker c = g_marker g /\
    List.length (c_points c) = kind_nnode target /\
    forall k p, nth_error (c_points c) k = Some p -> exists y, coords_of m p y /\ List.length y = nd /\ region_at nd g target idx k y;
  r_rank : forall i, (i < ncells g)%nat -> exists idx, in_region g idx /\ rank (divs g) idx = i;
  r_used : forall p, (p < List.length (points m))%nat -> exists c, In c (cells m) /\ In p (c_points c);
  r_edges : forall mk u v, In (mk, u, v) (marked_edges m) <-> exists e idx c e' p q, em e mk /\ in_region g idx /\ nth_error (cells m) (rank (divs g) idx) = Some c /\
    (e' < kind_nedge target)%nat /\ nth_error (c_points c) (edge_node_id target e' 0) = Some p /\ nth_error (c_points c) (edge_node_id target e' 1) = Some q /\
    on_block_edge nd e (region_ksi g target idx (edge_node_id target e' 0)) /\ on_block_edge nd e (region_ksi g target idx (edge_node_id target e' 1)) /\
    u = Nat.min p q /\ v = Nat.max p q;
  r_faces : forall x, In x (marked_faces m) <-> exists f idx c f' ps a1 a2 a3 a4 mk, fm f mk /\ in_region g idx /\ nth_error (cells m) (rank (divs g) idx) = Some c /\ (f' < 6)%nat /\
    Forall2 (fun j p => nth_error (c_points c) (face_node_id target f' j) = Some p) (seq 0 4) ps /\
    (forall j, (j < 4)%nat -> on_block_face f (region_ksi g target idx (face_node_id target f' j))) /\
    Permutation ps [a1; a2; a3; a4] /\ (a1 <= a2 <= a3)%nat /\ (a3 <= a4)%nat /\ x = (mk, a1, a2, a3, Some a4) }.

Lemma nth_divs g a : (a < List.length (g_weights g))%nat -> nth a (divs g) 1%nat = List.length (nth a (g_weights g) []).
Proof. intros L. unfold divs. rewrite nth_indep with (d' := List.length (@nil R)) by (rewrite map_length; exact L). apply map_nth. Qed.

(* the description of the nodes with other names *)
Lemma node_at_ext nd f f' (con con' : nat -> Prop) (mv mv' : nat -> list R -> list R -> Prop) k (x x' : nat -> list R) n y :
  (nd = 2 \/ nd = 3)%nat -> In k (targets nd) -> (forall s, con s <-> con' s) ->
  (forall m, (m < kind_nnode k)%nat -> x m = x' m /\ f (x m) = f' (x m)) ->
  (forall s m z, (m < kind_nnode k)%nat -> con s -> at_side nd s (x m) -> (mv s (f (x m)) z <-> mv' s (f (x m)) z)) ->
  (n < kind_nnode k)%nat -> node_at nd f con mv k x n y -> node_at nd f' con' mv' k x' n y.
Proof.
  intros Hnd Hk Hc Hx Hm Hn.
  assert (Fr : forall m, (m < kind_nnode k)%nat -> (free nd con (x m) <-> free nd con' (x' m))).
  { intros m L. destruct (Hx m L) as [<- _]. split; intros H s C; apply H; apply Hc; exact C. }
  assert (Se : forall m z, (m < kind_nnode k)%nat -> (settled nd f con mv (x m) z <-> settled nd f' con' mv' (x' m) z)).
  { intros m z L. unfold settled. rewrite (Fr m L). destruct (Hx m L) as [Ex Ef]. rewrite <- Ex, <- Ef. split; (intros [(s & C & A & M)|X]; [left; exists s|right; exact X]).
    - split; [apply Hc; exact C|]. split; [exact A|]. apply (Hm s m z L C A). exact M.
    - apply Hc in C. split; [exact C|]. split; [exact A|]. apply (Hm s m z L C A). exact M. }
  assert (Pu : forall m0 m1, (m0 < kind_nnode k)%nat -> (m1 < kind_nnode k)%nat -> (pulled nd f con mv (x m0) (x m1) <-> pulled nd f' con' mv' (x' m0) (x' m1))).
  { intros m0 m1 L0 L1. destruct (Hx m0 L0) as [<- E0]. destruct (Hx m1 L1) as [<- E1]. split; intros (s & z & C & Z & A & B & M); exists s, z.
    - split; [apply Hc; exact C|]. split; [exact Z|]. split; [exact A|]. split; [exact B|]. destruct Z as [-> | ->]; [rewrite <- E0|rewrite <- E1]; intros M'; apply M; [apply (Hm s m0)|apply (Hm s m1)]; auto.
    - apply Hc in C. split; [exact C|]. split; [exact Z|]. split; [exact A|]. split; [exact B|]. destruct Z as [-> | ->]; [rewrite <- E0 in M|rewrite <- E1 in M]; intros M'; apply M; [apply (Hm s m0)|apply (Hm s m1)]; auto. }
  assert (Fa : forall m z, (m < kind_nnode k)%nat -> frame_at nd f con mv k x m z -> frame_at nd f' con' mv' k x' m z).
  { intros m z L [A B]. split; [intros Hc'; apply Se; auto|]. intros e j He Hj Ej. specialize (B e j He Hj Ej).
    destruct (edge_facts nd k Hnd Hk e He) as (E1 & _). pose proof (E1 j ltac:(lia)) as Lj. pose proof (E1 0%nat ltac:(lia)) as L0. pose proof (E1 1%nat ltac:(lia)) as L1.
    destruct B as (B1 & B2 & B3). split; [|split].
    - intros Nf. apply Se; auto. apply B1. rewrite Fr by auto. exact Nf.
    - intros Ff P. apply Fr in Ff; auto. apply Pu in P; auto. destruct (B2 Ff P) as (t & y0 & y1 & T & S0 & S1 & Bt). exists t, y0, y1. split; [exact T|]. split; [apply Se; auto|]. split; [apply Se; auto|exact Bt].
    - intros Ff P. apply Fr in Ff; auto. rewrite Pu in B3 by auto. rewrite (B3 Ff P). destruct (Hx _ Lj) as [<- ->]. reflexivity. }
  intros [A B]. split; [apply Fa; auto|]. intros i Hi Ei. destruct (B i Hi Ei) as [B1 B2]. split.
  - intros (s & Cs). destruct B1 as (L & ys & Y & Z); [exists s; apply Hc; exact Cs|]. split; [exact L|]. exists ys. split; [|exact Z]. intros q Hq. apply Fa; [|apply Y; exact Hq].
    destruct (interior_serendipity nd k i Hnd Hk Hi) as (ser & Es & Ef). destruct (serendipity_facts nd k Hnd Hk ser Es) as (S1 & _). rewrite Ef in Hq. lia.
  - intros No. destruct (Hx n Hn) as [<- <-]. apply B2. intros s Cs. apply (No s). apply Hc. exact Cs.
Qed.

Section One.
Variables (zdet : R) (sh : container -> container) (shc : list (nat * nat) -> list (nat * nat)).
Hypothesis Hz : 0 <= zdet.
Hypothesis P1 : forall c, Permutation (sh c) c.
Hypothesis P2 : forall l, Permutation (shc l) l.
Variables (nd : nat) (em fm : nat -> Z -> Prop) (g : region) (b : block) (target : geokind).
Hypothesis O : of_region zdet nd em fm g b.
Hypothesis Fine : forall w, In w (g_weights g) -> not_fine (tolR nd) target w.

Let W : wf_block b := made_wf _ _ Hz (o_made _ _ _ _ _ _ O).

Lemma nd_cases : (nd = 2 \/ nd = 3)%nat. Proof. pose proof (w_nd b W) as N. rewrite (o_ndim _ _ _ _ _ _ O) in N. exact N. Qed.
Lemma index_iff idx : in_region g idx <-> valid_index b idx.
Proof.
  unfold in_region, valid_index. pose proof (o_ndim _ _ _ _ _ _ O) as N. pose proof (o_ndiv _ _ _ _ _ _ O) as D. pose proof (o_weights _ _ _ _ _ _ O) as L.
  unfold ndivs. rewrite N, D. rewrite Forall2_nth. unfold divs at 1. rewrite map_length, L. split; intros (A & B); (split; [exact A|]).
  - intros a Ha. destruct (nth_error idx a) as [x|] eqn:X; [|apply nth_error_None in X; lia]. destruct (nth_error (divs g) a) as [y|] eqn:Y; [|apply nth_error_None in Y; unfold divs in Y; rewrite map_length in Y; lia].
    rewrite (nth_error_nth _ _ 0%nat X), (nth_error_nth _ _ 1%nat Y). exact (B a x y X Y).
  - intros a x y X Y. assert (Ha : (a < nd)%nat) by (rewrite <- A; apply nth_error_Some; congruence). specialize (B a Ha). rewrite (nth_error_nth _ _ 0%nat X), (nth_error_nth _ _ 1%nat Y) in B. exact B.
Qed.
Lemma ksi_eq idx m : in_region g idx -> region_ksi g target idx m = node_ksi b target idx m.
Proof.
  intros I. apply index_iff in I. destruct I as (L & I). unfold region_ksi, node_ksi. rewrite (o_weights _ _ _ _ _ _ O). pose proof (o_ndim _ _ _ _ _ _ O) as N. rewrite N in *.
  apply map_ext_in. intros a Ha. apply in_seq in Ha. specialize (I a ltac:(lia)). cbv zeta.
  assert (Hw : In (nth a (g_weights g) []) (g_weights g)) by (apply nth_In; rewrite (o_weights _ _ _ _ _ _ O); lia). pose proof (o_sums _ _ _ _ _ _ O _ Hw) as Hs.
  assert (Hi : (nth a idx 0 < List.length (nth a (g_weights g) []))%nat) by (unfold ndivs in I; rewrite (o_ndiv _ _ _ _ _ _ O), nth_divs in I by (rewrite (o_weights _ _ _ _ _ _ O); lia); exact I).
  assert (Hs' : sum (nth a (g_weights g) []) <> 0) by lra. rewrite <- (cut_node (-1) 1 _ (widths b a) _ _ Hs' (o_widths _ _ _ _ _ _ O a ltac:(lia)) Hi). unfold stretch. lra.
Qed.
Lemma fine_spaced : spaced b target.
Proof.
  intros a d Ha Hd. pose proof (o_ndim _ _ _ _ _ _ O) as N. rewrite N in Ha. assert (Hw : In (nth a (g_weights g) []) (g_weights g)) by (apply nth_In; rewrite (o_weights _ _ _ _ _ _ O); exact Ha).
  destruct (o_widths _ _ _ _ _ _ O a Ha) as (L & E). destruct (In_nth _ _ 0 Hd) as (i & Hi & <-). rewrite E by lia. unfold tol. rewrite N. fold (tolR nd).
  replace (2 * nth i (nth a (g_weights g) []) 0 / sum (nth a (g_weights g) [])) with (2 * (nth i (nth a (g_weights g) []) 0 / sum (nth a (g_weights g) []))).
  - apply (Fine _ Hw). apply nth_In. lia.
  - pose proof (o_sums _ _ _ _ _ _ O _ Hw). field. lra.
Qed.
Lemma map_eq ksi : List.length ksi = nd -> block_map b ksi = region_map nd g ksi.
Proof.
  intros L. unfold block_map, region_map. rewrite (o_ring _ _ _ _ _ _ O), (o_ndim _ _ _ _ _ _ O). apply map_ext_in. intros i Hi. apply in_seq in Hi.
  pose proof (o_nodes _ _ _ _ _ _ O) as HN. pose proof (o_corners _ _ _ _ _ _ O) as HC. pose proof (w_kind b W) as K. rewrite (o_ndim _ _ _ _ _ _ O) in K. unfold spread.
  destruct HC as [HC|HC]; rewrite HC.
  - rewrite Nat.eqb_refl. destruct nd_cases as [E|E]; rewrite E in *; cbn [Nat.eqb] in K; cbn in HC.
    + destruct ksi as [|r [|s [|]]]; try discriminate L. apply blend_2; auto; lia.
    + destruct ksi as [|r [|s [|t [|]]]]; try discriminate L. apply blend_3; auto; lia.
  - assert (NE : (kind_nnode (bkind nd) =? corners nd)%nat = false) by (destruct nd_cases as [-> | ->]; reflexivity). rewrite NE.
    assert (K' : p_kind (b_pad b) = bkind nd) by exact K. unfold pos. rewrite K'. unfold sum_n. f_equal. apply map_ext_in. intros n Hn. apply in_seq in Hn. f_equal. apply HN; lia.
Qed.

Variable m : mesh R.
Hypothesis Ft : fits b target.
Hypothesis Run : subdivide sh shc b target = Ok m.
Lemma sub_region : subdivided zdet sh shc b target m.
Proof. split; [exact Hz|]. split; [exact P1|]. split; [exact P2|]. split; [exact (o_made _ _ _ _ _ _ O)|]. split; [exact Ft|]. split; [exact fine_spaced|exact Run]. Qed.
Lemma point_at_iff idx k p c : nth_error (cells m) (rank (divs g) idx) = Some c -> (point_at b m idx k p <-> nth_error (c_points c) k = Some p).
Proof. intros E. unfold point_at. rewrite (o_ndiv _ _ _ _ _ _ O). split; [intros (c' & E' & X); congruence|intros X; exists c; auto]. Qed.

Lemma no_sides : g_sides g = [] -> has_constraints b = false.
Proof.
  intros E. destruct (has_constraints b) eqn:H; [|reflexivity]. exfalso. apply (has_constraints_iff b W) in H as (s & H). rewrite (o_ndim _ _ _ _ _ _ O) in H.
  apply (o_sides _ _ _ _ _ _ O) in H as (c & H). rewrite E in H. destruct H.
Qed.
Lemma at_region idx k y : in_region g idx -> (k < kind_nnode target)%nat -> final_at b target idx k y ->
  node_at nd (region_map nd g) (fun s => exists c, In (s, c) (g_sides g)) (fun s x y => exists c, In (s, c) (g_sides g) /\ moved c x y) target (region_ksi g target idx) k y.
Proof.
  intros I Hk. pose proof sub_region as S. pose proof (o_ndim _ _ _ _ _ _ O) as N. pose proof I as I'. apply index_iff in I'. unfold final_at. rewrite N.
  pose proof (proj1 (fits_in _ _ (w_nd _ W)) Ft) as F. pose proof F as F'. rewrite N in F'.
  apply node_at_ext; [exact nd_cases|exact F'| | | |exact Hk].
  - intros s. unfold con_of. rewrite N. apply (o_sides _ _ _ _ _ _ O).
  - intros n Hn. rewrite ksi_eq by exact I. split; [reflexivity|]. apply map_eq. unfold node_ksi. rewrite map_length, seq_length. exact N.
  - intros s n z Hn [Hs Cs] At. rewrite N in Hs.
    destruct (proj1 (o_sides _ _ _ _ _ _ O s) (conj Hs Cs)) as (c & Ic).
    destruct (C45_nodes _ _ _ _ _ _ S) as (U & _). destruct (U idx n I' Hn) as (q & Q & _).
    destruct (C47_on_constraint zdet sh shc b target m idx n q s S (o_ring _ _ _ _ _ _ O) I' Hn Q) as (x & _ & X2 & X3); [rewrite N; exact Hs|exact Cs|rewrite N; exact At|left; exact (o_apart _ _ _ _ _ _ O)|].
    split.
    + intros Pz. exists c. split; [exact Ic|]. apply (o_moved _ _ _ _ _ _ O s c Ic). rewrite (projects_unique b s _ _ _ Pz X3). auto.
    + intros (c' & Ic' & Mz). apply (o_moved _ _ _ _ _ _ O s c' Ic') in Mz. apply Mz.
Qed.

Lemma region_meshed : region_mesh nd target em fm g m.
Proof.
  pose proof sub_region as S. pose proof (o_ndim _ _ _ _ _ _ O) as N. pose proof (o_ndiv _ _ _ _ _ _ O) as D.
  destruct (C45_consistent _ _ _ _ _ _ S) as (C1 & C2 & C3 & _). destruct (C45_cells _ _ _ _ _ _ S) as (K1 & K2 & K3). destruct (C45_nodes _ _ _ _ _ _ S) as (_ & U).
  assert (Cell : forall idx, in_region g idx -> exists c, nth_error (cells m) (rank (divs g) idx) = Some c /\ c_kind c = target /\ c_marker c = b_marker b /\ List.length (c_points c) = kind_nnode target).
  { intros idx I. destruct (K2 idx) as (c & E & R); [apply index_iff; exact I|]. exists c. rewrite <- D. auto. }
  constructor.
  - exact C1.
  - exact C2.
  - congruence.
  - rewrite K1, D. reflexivity.
  - intros idx I. pose proof I as I'. apply index_iff in I'. destruct (Cell idx I) as (c & E & E1 & E2 & E3). exists c. split; [exact E|]. split; [exact E1|]. split; [rewrite E2; exact (o_marker _ _ _ _ _ _ O)|]. split; [exact E3|].
    intros k p X. assert (Hk : (k < kind_nnode target)%nat) by (rewrite <- E3; apply nth_error_Some; congruence).
    assert (PA : point_at b m idx k p) by (apply (point_at_iff idx k p c E); exact X).
    assert (LK : List.length (node_ksi b target idx k) = nd) by (unfold node_ksi; rewrite map_length, seq_length; exact N).
    assert (Rn : region_node nd g target idx k = block_map b (node_ksi b target idx k)) by (unfold region_node; rewrite ksi_eq by exact I; symmetry; apply map_eq; exact LK).
    assert (Ln : List.length (block_map b (node_ksi b target idx k)) = nd) by (unfold block_map; rewrite map_length, seq_length; exact N).
    unfold region_at. destruct (g_sides g) as [|sc l] eqn:Sd.
    + exists (block_map b (node_ksi b target idx k)). split; [apply (C45_positions zdet sh shc b target m idx k p S); auto|split; [exact Ln|symmetry; exact Rn]].
      apply no_sides. exact Sd.
    + rewrite <- Sd. destruct (C47_positions zdet sh shc b target m idx k p S (o_ring _ _ _ _ _ _ O) (o_apart _ _ _ _ _ _ O) I' Hk PA) as (y & Y1 & Y2).
      exists y. split; [exact Y1|]. split; [destruct Y1 as (pt & Ept & <-); rewrite (C2 pt (nth_error_In _ _ Ept)); congruence|]. apply at_region; auto.
  - intros i Hi. destruct (K3 i) as (idx & I & E); [rewrite K1, D; exact Hi|]. exists idx. split; [apply index_iff; exact I|rewrite <- D; exact E].
  - intros p Hp. destruct (U p Hp) as (idx & k & _ & _ & c & E & X). exists c. split; [eapply nth_error_In; exact E|eapply nth_error_In; exact X].
  - intros mk u v. rewrite (C61_edges zdet sh shc b target m mk u v S). rewrite N. split.
    + intros (e & idx & e' & p & q & A1 & A2 & A3 & A4 & A5 & A6 & A7 & A8). apply index_iff in A2. destruct (Cell idx A2) as (c & E & _).
      exists e, idx, c, e', p, q. rewrite !ksi_eq by exact A2. rewrite <- !(point_at_iff idx _ _ c E). split; [apply (o_edges _ _ _ _ _ _ O); exact A1|]. tauto.
    + intros (e & idx & c & e' & p & q & A1 & A2 & E & A3 & A4 & A5 & A6 & A7 & A8). rewrite !ksi_eq in A6, A7 by exact A2. apply (point_at_iff idx _ _ c E) in A4, A5.
      exists e, idx, e', p, q. split; [apply (o_edges _ _ _ _ _ _ O); exact A1|]. apply index_iff in A2. tauto.
  - intros x. rewrite (C61_faces zdet sh shc b target m x S). split.
    + intros (f & idx & f' & p1 & p2 & p3 & p4 & a1 & a2 & a3 & a4 & mk & A1 & A2 & A3 & B1 & B2 & B3 & B4 & A4 & A5 & A6 & A7 & A8). apply index_iff in A2. destruct (Cell idx A2) as (c & E & _).
      exists f, idx, c, f', [p1; p2; p3; p4], a1, a2, a3, a4, mk. split; [apply (o_faces _ _ _ _ _ _ O); exact A1|]. split; [exact A2|]. split; [exact E|]. split; [exact A3|].
      split; [repeat constructor; apply (point_at_iff idx _ _ c E); assumption|]. split; [intros j Hj; rewrite ksi_eq by exact A2; apply A4; exact Hj|]. tauto.
    + intros (f & idx & c & f' & ps & a1 & a2 & a3 & a4 & mk & A1 & A2 & E & A3 & B & A4 & A5 & A6 & A7 & A8). pose proof A2 as A2'. apply index_iff in A2'.
      clear N C3. cbn [seq] in B. inversion B as [|? p1 ? ? B1 B']; subst. inversion B' as [|? p2 ? ? B2 B'']; subst. inversion B'' as [|? p3 ? ? B3 B3']; subst. inversion B3' as [|? p4 ? ? B4 B4']; subst. inversion B4'; subst.
      exists f, idx, f', p1, p2, p3, p4, a1, a2, a3, a4, mk. split; [apply (o_faces _ _ _ _ _ _ O); exact A1|]. split; [exact A2'|]. split; [exact A3|].
      do 4 (split; [apply (point_at_iff idx _ _ c E); assumption|]). split; [intros j Hj; rewrite <- ksi_eq by exact A2; apply A4; exact Hj|]. tauto.
Qed.
End One.
