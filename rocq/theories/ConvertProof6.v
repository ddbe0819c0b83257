(* Proofs about the conversion of meshes: shared nodes, positions *)
From Coq Require Import String Reals QArith Qreals List Arith Bool ZArith Lia Lra Permutation.
From Verif Require Import Base BaseFacts Kind ShapesModel ShapesSpec ShapesProof ShapesTables ShapesShared MeshModel MeshQuerySpec TopoModel TopoSpec TopoMaps TopoProof TopoFeat TopoFeat4 TopoFeat5 PadModel PadSpec PadProof PadProof2 PadProof4 ConvertModel ConvertSpec ConvertProof ConvertProof2 ConvertProof3 ConvertProof4 ConvertProof5.
Import ListNotations.
Local Open Scope list_scope.
Local Open Scope nat_scope.

(** tables *)
Lemma rev_index k i : plane k -> 2 <= i < kind_edge_nnode k -> exists i', 2 <= i' < kind_edge_nnode k /\
  forall e, e < kind_nedge k -> edge_node_id_inward k e i = edge_node_id k e i' /\ edge_node_id k e i = edge_node_id_inward k e i'.
Proof.
  intros P Hi. assert (X : forall k, plane k -> forallb (fun i => existsb (fun i' => forallb (fun e =>
     (edge_node_id_inward k e i =? edge_node_id k e i') && (edge_node_id k e i =? edge_node_id_inward k e i')) (seq 0 (kind_nedge k)))
     (seq 2 (kind_edge_nnode k - 2))) (seq 2 (kind_edge_nnode k - 2)) = true) by (apply plane_ind; repeat constructor).
  specialize (X k P). rewrite forallb_forall in X. specialize (X i ltac:(apply in_mid; auto)).
  apply existsb_exists in X as (i' & I & X). apply in_mid in I. exists i'. split; [auto|].
  intros e He. rewrite forallb_forall in X. specialize (X e ltac:(apply in_seq; lia)). apply andb_true_iff in X. now rewrite !Nat.eqb_eq in X.
Qed.

Lemma qc_ref k j a : nth j (ref_coords k a) 0%R = Q2R (qc j (reference_coords k a)).
Proof. unfold ref_coords, qc. rewrite <- RMicromega.Q2R_0. apply map_nth. Qed.
Lemma Q2R_half x y a b c : (x == (1 - a) / 2 * b + (1 + a) / 2 * c)%Q -> y = Q2R x ->
  y = ((1 - Q2R a) / 2 * Q2R b + (1 + Q2R a) / 2 * Q2R c)%R.
Proof.
  intros H ->. rewrite (Qeq_eqR _ _ H). unfold Qdiv. rewrite Q2R_plus, !Q2R_mult, Q2R_plus, Q2R_minus, RMicromega.Q2R_1.
  replace (Q2R (/ 2)) with (/ 2)%R by (unfold Q2R; simpl; lra). reflexivity.
Qed.
Lemma edge_ref k ek e i : plane k -> kind_edge_kind k = Some ek -> e < kind_nedge k -> i < kind_edge_nnode k ->
  ref_coords k (edge_node_id k e i) =
  seg_point (ref_coords k (edge_node_id k e 0)) (ref_coords k (edge_node_id k e 1)) (Q2R (qc 0 (reference_coords ek i))).
Proof.
  intros P Ek He Hi. destruct (plane_facts k P) as (D & _ & _ & G2).
  assert (L : forall a, a < kind_nnode k -> List.length (ref_coords k a) = 2) by (intros; rewrite ref_coords_length by auto; auto).
  assert (B : forall i, i < kind_edge_nnode k -> edge_node_id k e i < kind_nnode k) by (intros; apply edge_node_lt; auto).
  assert (Ls : forall p q z, List.length p = 2 -> List.length q = 2 -> List.length (seg_point p q z) = 2).
  { intros [|p0 [|p1 [|? ?]]] [|q0 [|q1 [|? ?]]] z; simpl; try discriminate. auto. }
  apply (nth_ext _ _ 0%R 0%R); [rewrite Ls; rewrite ?L; auto; apply B; lia|].
  intros j Hj. rewrite L in Hj by auto. rewrite nth_seg_point by (rewrite !L; auto; apply B; lia).
  rewrite !qc_ref. eapply Q2R_half; [|reflexivity]. apply edge_position; auto. lia.
Qed.
Lemma inward_ref k ek i : plane k -> kind_edge_kind k = Some ek -> 2 <= i < kind_edge_nnode k -> forall e, e < kind_nedge k ->
  ref_coords k (edge_node_id_inward k e i) =
  seg_point (ref_coords k (edge_node_id k e 0)) (ref_coords k (edge_node_id k e 1)) (- Q2R (qc 0 (reference_coords ek i)))%R.
Proof.
  intros P Ek Hi e He. destruct (inward_reverse k ek e i P Ek He ltac:(lia)) as (i' & Hi' & -> & Z).
  rewrite (edge_ref k ek) by auto. f_equal. rewrite (Qeq_eqR _ _ Z). apply Q2R_opp.
Qed.
Lemma edge_kind_some k : plane k -> exists ek, kind_edge_kind k = Some ek /\ kind_edge_nnode k = kind_nnode ek.
Proof. revert k. apply plane_ind. repeat constructor; eexists; split; reflexivity. Qed.

(** shared edges *)
Lemma shares_sym {T} (m : mesh T) c e n ne : shares m c e n ne -> shares m n ne c e.
Proof. intros (H & a & b & A & B). split; [auto|]. eauto. Qed.
Lemma edge_unique {T} (m : mesh T) c e p q p' q' : consistent m -> edge_of m c e p q -> edge_of m c e p' q' -> p = p' /\ q = q'.
Proof.
  intros (_ & C) (cl & I & Ic & _ & _ & P & Q) (cl' & I' & Ic' & _ & _ & P' & Q').
  apply In_nth_error in I as (x & I). apply In_nth_error in I' as (y & I').
  destruct (C _ _ I) as (X & _). destruct (C _ _ I') as (Y & _). assert (x = y) by congruence. subst y.
  assert (cl = cl') by congruence. subst cl'. split; congruence.
Qed.
Lemma has_edge_move {T} (m : mesh T) a b a' b' x y : consistent m -> has_edge m a b x -> has_edge m a' b' x -> has_edge m a' b' y -> has_edge m a b y.
Proof.
  intros C (p & q & H & S) (p' & q' & H' & S') (p2 & q2 & H2 & S2).
  destruct (edge_unique m _ _ _ _ _ _ C H H') as [<- <-]. exists p2, q2. split; [auto|]. unfold same_pair in *. lia.
Qed.
Lemma shares_fun {T} (m : mesh T) c e n ne n' ne' : consistent m -> two_per_edge m ->
  shares m c e n ne -> shares m c e n' ne' -> n = n' /\ ne = ne'.
Proof.
  intros C TP (N & a & b & A & B) (N' & a' & b' & A' & B').
  destruct (TP a b (c, e) (n, ne) (n', ne')) as [X|[X|X]]; auto.
  - exact (has_edge_move m a b a' b' (c, e) (n', ne') C A A' B').
  - congruence.
  - congruence.
  - injection X; auto.
Qed.
Lemma oriented_two {T} (m : mesh T) : oriented m -> two_per_edge m.
Proof.
  intros O a b [c e] [n ne] [n' ne'] (p & q & H & S) (p' & q' & H' & S') (p2 & q2 & H2 & S2). simpl in *. unfold same_pair in *.
  assert (X : (p = p' /\ q = q') \/ (p = p2 /\ q = q2) \/ (p' = p2 /\ q' = q2)) by lia.
  destruct X as [[-> ->]|[[-> ->]|[-> ->]]].
  - left. destruct (O _ _ _ _ _ _ H H'); congruence.
  - right. left. destruct (O _ _ _ _ _ _ H H2); congruence.
  - right. right. destruct (O _ _ _ _ _ _ H' H2); congruence.
Qed.
Lemma shares_opposite {T} (m : mesh T) c e n ne : oriented m -> shares m c e n ne -> exists p q, edge_of m c e p q /\ edge_of m n ne q p.
Proof.
  intros O (N & a & b & (p & q & H & S) & (p' & q' & H' & S')). simpl in *. exists p, q. split; [auto|]. unfold same_pair in *.
  assert (X : (p = p' /\ q = q') \/ (p = q' /\ q = p')) by lia. destruct X as [[-> ->]|[-> ->]]; [|auto].
  destruct (O _ _ _ _ _ _ H H'); congruence.
Qed.

Section Res.
Variable leb : R -> R -> bool.
Variable shuffle : emap -> emap.
Hypothesis Sh : forall l, Permutation (shuffle l) l.
Variable m : mesh R.
Variables source target : geokind.
Hypothesis C : consistent m.
Hypothesis K : coords_complete m.
Hypothesis V : convertible m source target.
Variable d : mesh R.
Hypothesis Rd : convert_2d leb shuffle m target = Ok d.

Notation nc := (ncorners source).
Notation tn := (kind_nnode target).
Notation ten := (kind_edge_nnode target).
Notation ncell := (List.length (cells m)).

Let D : ndim m = 2 := proj1 V.
Let One : one_kind m source.
Proof. apply V. Qed.
Let Ps : plane source.
Proof. apply V. Qed.
Let Ec : kind_class target = kind_class source.
Proof. apply V. Qed.
Let Pt : plane target.
Proof. apply (class_facts source target Ps Ec). Qed.
Let ENC : ncorners target = nc.
Proof. apply (class_facts source target Ps Ec). Qed.
Let Hnt : nc <= tn.
Proof. rewrite <- ENC. apply (plane_facts target Pt). Qed.

Let VV := view leb shuffle Sh m source target C K V d Rd.

Lemma sin c e n ne : shares m c e n ne -> c < ncell /\ n < ncell /\ e < kind_nedge target /\ ne < kind_nedge target.
Proof. apply (shares_in m source target C D Ps Ec One). Qed.
Lemma mid_range e i : e < kind_nedge target -> 2 <= i < ten -> nc <= edge_node_id target e i < tn /\ nc <= edge_node_id_inward target e i < tn.
Proof. intros He Hi. destruct (mid_facts target Pt e i He Hi) as (A & B & _). rewrite ENC in *. auto. Qed.
Lemma node_fun c a q q' : node_id d c a q -> node_id d c a q' -> q = q'.
Proof. intros (x & A & B) (y & A' & B'). congruence. Qed.
Lemma node_some c a : c < ncell -> a < tn -> exists q, node_id d c a q.
Proof.
  intros Hc Ha. destruct VV as (org & _ & _ & _ & _ & Cs & _).
  destruct (nth_error (cells m) c) as [cl|] eqn:Ecl; [|apply nth_error_None in Ecl; lia].
  destruct (Cs c cl Ecl) as (dc & Hd & _ & _ & _ & L). destruct (nth_error (c_points dc) a) as [q|] eqn:E; [|apply nth_error_None in E; lia].
  exists q, dc. auto.
Qed.

(* the origin of each node *)
Definition facts (org : list origin) : Prop :=
  List.length org = List.length (points d) /\ NoDup org /\
  (forall p pt o, nth_error (points d) p = Some pt -> nth_error org p = Some o -> good_point m source target p pt o) /\
  (forall c a q, c < ncell -> a < nc -> node_id d c a q -> exists old, node_id m c a old /\ nth_error org q = Some (OCorner old)) /\
  (forall c a q, c < ncell -> nc <= a < tn -> node_id d c a q -> exists c0 a0, nc <= a0 < tn /\ c0 < ncell /\ node_id d c0 a0 q /\ nth_error org q = Some (ONode c0 a0)) /\
  (two_per_edge m -> forall c a q, c < ncell -> nc <= a < tn -> node_id d c a q ->
     (nth_error org q = Some (ONode c a) /\ ~ nfrom m target c a) \/
     exists e n ne i, n < c /\ shares m c e n ne /\ 2 <= i < ten /\ edge_node_id_inward target e i = a /\
       nth_error org q = Some (ONode n (edge_node_id target ne i))).
Lemma get_facts : exists org, facts org.
Proof.
  destruct VV as (org & _ & _ & _ & _ & _ & L & N & G & Hc & Hn & _). exists org.
  split; [auto|]. split; [auto|]. split; [auto|]. split; [auto|]. split.
  - intros c. induction c as [c IH] using lt_wf_ind. intros a q Lc Ha I.
    destruct (Hn c a q Lc Ha I) as [[O _]|(e & n & ne & i & Lt & S & Hi & Ei & I')]; [exists c, a; auto|].
    destruct (sin _ _ _ _ S) as (_ & Ln & _ & He). apply (IH n Lt (edge_node_id target ne i) q Ln); [apply mid_range; auto|auto].
  - intros TP c a q Lc Ha I.
    destruct (Hn c a q Lc Ha I) as [O|(e & n & ne & i & Lt & S & Hi & Ei & I')]; [left; auto|right].
    destruct (sin _ _ _ _ S) as (_ & Ln & _ & He). exists e, n, ne, i. do 4 (split; [auto|]).
    destruct (Hn n _ q Ln (proj1 (mid_range ne i He Hi)) I') as [[O _]|(e2 & n2 & ne2 & i2 & Lt2 & S2 & Hi2 & Ei2 & I2)]; [auto|].
    destruct (sin _ _ _ _ S2) as (_ & _ & He2 & _).
    destruct (mid_facts target Pt ne i He Hi) as (_ & _ & M & _). destruct (M e2 i2 He2 Hi2) as (_ & _ & M3).
    rewrite <- (M3 (eq_sym Ei2)) in S2. destruct (shares_fun m _ _ _ _ _ _ C TP S2 (shares_sym _ _ _ _ _ S)). lia.
Qed.

Lemma node_org c a q : c < ncell -> a < tn -> node_id d c a q -> q < List.length (points d).
Proof.
  intros Hc Ha I. destruct get_facts as (org & L & _ & _ & Co & No & _). rewrite <- L.
  destruct (Nat.lt_ge_cases a nc) as [H|H].
  - destruct (Co c a q Hc H I) as (old & _ & O). apply nth_error_Some. congruence.
  - destruct (No c a q Hc ltac:(lia) I) as (c0 & a0 & _ & _ & _ & O). apply nth_error_Some. congruence.
Qed.

(** validity of the result *)
Lemma result_valid : consistent d /\ coords_complete d /\ ndim d = 2 /\ marked_edges d = [] /\ marked_faces d = [] /\
  List.length (cells d) = ncell /\
  (forall c cl, nth_error (cells m) c = Some cl -> exists dc, nth_error (cells d) c = Some dc /\
     c_id dc = c /\ c_marker dc = c_marker cl /\ c_kind dc = target) /\
  (forall q, q < List.length (points d) -> exists c a, node_id d c a q).
Proof.
  destruct get_facts as (org0 & F0). clear F0 org0.
  destruct VV as (org & D' & E1 & E2 & Lc & Cs & L & N & G & Hc & Hn & U).
  split; [split|split; [|repeat (split; [now auto|])]].
  - intros i p Hp. destruct (nth_error org i) as [o|] eqn:Eo; [|apply nth_error_None in Eo; rewrite L in Eo; apply nth_error_None in Eo; congruence].
    apply (G i p o Hp Eo).
  - intros i dc Hd. assert (Li : i < ncell) by (rewrite <- Lc; apply nth_error_Some; congruence).
    destruct (nth_error (cells m) i) as [cl|] eqn:Ecl; [|apply nth_error_None in Ecl; lia].
    destruct (Cs i cl Ecl) as (dc' & Hd' & I & _ & Kd & Ld). assert (dc' = dc) by congruence. subst dc'.
    split; [auto|]. split; [congruence|]. intros q Hq. apply In_nth_error in Hq as (a & Hq).
    apply (node_org i a q Li); [rewrite <- Ld; apply nth_error_Some; congruence|exists dc; auto].
  - intros pt Hp. apply In_nth_error in Hp as (i & Hp).
    destruct (nth_error org i) as [o|] eqn:Eo; [|apply nth_error_None in Eo; rewrite L in Eo; apply nth_error_None in Eo; congruence].
    destruct (G i pt o Hp Eo) as (_ & X). rewrite D'. destruct o as [old|c a].
    + destruct X as (qp & Hq & _ & ->). rewrite <- D. apply K. eapply nth_error_In; eauto.
    + destruct X as (_ & cl & _ & -> & _). unfold image. rewrite map_length, seq_length. auto.
  - split.
    + intros c cl H. destruct (Cs c cl H) as (dc & H1 & H2 & H3 & H4 & _). eauto 6.
    + intros q Hq. destruct (nth_error org q) as [o|] eqn:Eo; [|apply nth_error_None in Eo; lia].
      destruct (U q o Eo) as (c & a & _ & _ & I & _). eauto.
Qed.

(** corners *)
Lemma result_corners c a q pt : c < ncell -> a < nc -> node_id d c a q -> nth_error (points d) q = Some pt ->
  exists old op, node_id m c a old /\ nth_error (points m) old = Some op /\ pt_marker pt = pt_marker op /\ pt_coords pt = pt_coords op.
Proof.
  intros Hc Ha I Hp. destruct get_facts as (org & _ & _ & G & Co & _).
  destruct (Co c a q Hc Ha I) as (old & Io & O). destruct (G q pt _ Hp O) as (_ & op & X & Y & Z). exists old, op. auto.
Qed.
Lemma corner_same c a n b q q' old old' : c < ncell -> n < ncell -> a < nc -> b < nc ->
  node_id d c a q -> node_id d n b q' -> node_id m c a old -> node_id m n b old' -> (q = q' <-> old = old').
Proof.
  intros Hc Hn Ha Hb I J O P. destruct get_facts as (org & _ & N & _ & Co & _).
  destruct (Co c a q Hc Ha I) as (x & Ox & X). destruct (Co n b q' Hn Hb J) as (y & Oy & Y).
  assert (x = old) by (destruct Ox as (? & ? & ?), O as (? & ? & ?); congruence).
  assert (y = old') by (destruct Oy as (? & ? & ?), P as (? & ? & ?); congruence). subst x y.
  split; [intros <-; congruence|intros <-]. rewrite NoDup_nth_error in N. apply N; [apply nth_error_Some; congruence|congruence].
Qed.

(** nodes on shared edges *)
Lemma edge_shared c e n ne i q : two_per_edge m -> shares m c e n ne -> 2 <= i < ten ->
  (node_id d c (edge_node_id_inward target e i) q <-> node_id d n (edge_node_id target ne i) q).
Proof.
  intros TP S Hi.
  assert (W : forall c e n ne i q, n < c -> shares m c e n ne -> 2 <= i < ten ->
    node_id d c (edge_node_id_inward target e i) q -> node_id d n (edge_node_id target ne i) q).
  { clear c e n ne i q S Hi. intros c e n ne i q Lt S Hi I. destruct (sin _ _ _ _ S) as (Lc & Ln & He & Hne).
    destruct VV as (org & _ & _ & _ & _ & _ & _ & _ & _ & _ & Hn & _).
    destruct (Hn c _ q Lc (proj2 (mid_range e i He Hi)) I) as [[_ X]|(e' & n' & ne' & i' & Lt' & S' & Hi' & Ei & I')].
    - destruct X. exists e, n, ne, i. auto.
    - destruct (sin _ _ _ _ S') as (_ & _ & He' & _). destruct (mid_facts target Pt e i He Hi) as (_ & _ & M & _).
      destruct (M e' i' He' Hi') as (_ & M2 & _). destruct (M2 (eq_sym Ei)) as [<- <-].
      destruct (shares_fun m _ _ _ _ _ _ C TP S S') as [<- <-]. auto. }
  assert (W2 : forall c e n ne i q, n < c -> shares m c e n ne -> 2 <= i < ten ->
    (node_id d c (edge_node_id_inward target e i) q <-> node_id d n (edge_node_id target ne i) q)).
  { clear c e n ne i q S Hi. intros c e n ne i q Lt S Hi. split; [apply W; auto|]. intros J.
    destruct (sin _ _ _ _ S) as (Lc & Ln & He & Hne).
    destruct (node_some c (edge_node_id_inward target e i) Lc) as (q' & I); [apply mid_range; auto|].
    pose proof (W c e n ne i q' Lt S Hi I) as J'. rewrite (node_fun _ _ _ _ J J'). auto. }
  destruct (Nat.lt_total n c) as [H|[H|H]]; [apply W2; auto|subst; destruct S as [N _]; congruence|].
  destruct (sin _ _ _ _ S) as (_ & _ & He & Hne).
  destruct (rev_index target i Pt Hi) as (i' & Hi' & Rv). rewrite (proj1 (Rv e He)), (proj2 (Rv ne Hne)).
  symmetry. apply W2; auto. apply shares_sym; auto.
Qed.

(* equal ids occur only where they should *)
Lemma node_same c a n b q : two_per_edge m -> c < ncell -> n < ncell -> a < tn -> b < tn ->
  node_id d c a q -> node_id d n b q ->
  (c = n /\ a = b) \/
  (a < nc /\ b < nc /\ exists old, node_id m c a old /\ node_id m n b old) \/
  (exists e ne i, shares m c e n ne /\ 2 <= i < ten /\ a = edge_node_id_inward target e i /\ b = edge_node_id target ne i).
Proof.
  intros TP Hc Hn Ha Hb I J. destruct get_facts as (org & _ & N & _ & Co & No & Tw).
  destruct (Nat.lt_ge_cases a nc) as [Ac|Ac]; destruct (Nat.lt_ge_cases b nc) as [Bc|Bc].
  - right. left. destruct (Co c a q Hc Ac I) as (x & Ox & X). destruct (Co n b q Hn Bc J) as (y & Oy & Y).
    assert (x = y) by congruence. subst y. eauto.
  - destruct (Co c a q Hc Ac I) as (x & Ox & X). destruct (No n b q Hn ltac:(lia) J) as (c0 & a0 & _ & _ & _ & Y). congruence.
  - destruct (Co n b q Hn Bc J) as (x & Ox & X). destruct (No c a q Hc ltac:(lia) I) as (c0 & a0 & _ & _ & _ & Y). congruence.
  - destruct (Tw TP c a q Hc ltac:(lia) I) as [[X _]|(e & n1 & ne & i & Lt & S & Hi & Ei & X)];
      destruct (Tw TP n b q Hn ltac:(lia) J) as [[Y _]|(e' & n2 & ne' & i' & Lt' & S' & Hi' & Ei' & Y)]; rewrite X in Y; injection Y as Y1 Y2.
    + left. auto.
    + right. right. subst n2. destruct (sin _ _ _ _ S') as (_ & _ & He & Hne). destruct (rev_index target i' Pt Hi') as (j & Hj & Rv).
      exists ne', e', j. split; [apply shares_sym; auto|]. split; [auto|]. split.
      * rewrite Y2. apply Rv; auto.
      * rewrite <- Ei'. apply Rv; auto.
    + right. right. subst n1. exists e, ne, i. auto.
    + subst n2. destruct (sin _ _ _ _ S) as (_ & _ & He & Hne). destruct (sin _ _ _ _ S') as (_ & _ & He' & Hne').
      destruct (mid_facts target Pt ne i Hne Hi) as (_ & _ & M & _). destruct (M ne' i' Hne' Hi') as (M1 & _). destruct (M1 Y2) as [<- <-].
      destruct (shares_fun m _ _ _ _ _ _ C TP (shares_sym _ _ _ _ _ S) (shares_sym _ _ _ _ _ S')) as [<- <-]. left. split; [auto|congruence].
Qed.

(** positions *)
Lemma cell_x_len cl i : In cl (cells m) -> List.length (cell_x m cl i) = kind_nnode source.
Proof. intros H. unfold cell_x. rewrite map_length. eapply cell_len; eauto. Qed.
Lemma cell_x_nth cl i a : In cl (cells m) -> a < kind_nnode source -> exists id pt, nth_error (c_points cl) a = Some id /\
  nth_error (points m) id = Some pt /\ nth a (cell_x m cl i) 0%R = nth i (pt_coords pt) 0%R.
Proof.
  intros H Ha. destruct (cell_point m source target C D Ps Ec cl a H (One _ H) Ha) as (id & pt & E & P).
  exists id, pt. split; [auto|]. split; [auto|]. unfold cell_x.
  apply (nth_error_nth (map _ (c_points cl))). rewrite nth_error_map, E. simpl. rewrite P. reflexivity.
Qed.

Lemma image_node cl a : In cl (cells m) -> a < kind_nnode source -> exists id pt, nth_error (c_points cl) a = Some id /\
  nth_error (points m) id = Some pt /\ image m cl (ref_coords source a) = pt_coords pt.
Proof.
  intros H Ha. destruct (cell_point m source target C D Ps Ec cl a H (One _ H) Ha) as (id & pt & E & P).
  exists id, pt. split; [auto|]. split; [auto|].
  assert (Lp : List.length (pt_coords pt) = 2) by (rewrite <- D; apply K; eapply nth_error_In; eauto).
  unfold image. rewrite D, (One _ H). apply (nth_ext _ _ 0%R 0%R); [rewrite map_length, seq_length; auto|].
  intros i Hi. rewrite map_length, seq_length in Hi. rewrite nth_map_seq by auto.
  destruct (cell_x_nth cl i a H Ha) as (id' & pt' & E' & P' & X). assert (id' = id) by congruence. subst. assert (pt' = pt) by congruence. subst.
  rewrite <- X. apply dot_nth; rewrite ?calc_interp_length, ?(cell_x_len cl i H); auto.
  intros b Hb. apply interp_at_node; auto.
Qed.

Lemma image_shared c e n ne i cl cn : oriented m -> conforming m -> shares m c e n ne -> 2 <= i < ten ->
  nth_error (cells m) c = Some cl -> nth_error (cells m) n = Some cn ->
  image m cn (ref_coords target (edge_node_id target ne i)) = image m cl (ref_coords target (edge_node_id_inward target e i)).
Proof.
  intros O Cf S Hi Hcl Hcn. destruct (sin _ _ _ _ S) as (_ & _ & He & Hne).
  assert (In1 : In cl (cells m)) by (eapply nth_error_In; eauto). assert (In2 : In cn (cells m)) by (eapply nth_error_In; eauto).
  destruct (shares_opposite m c e n ne O S) as (p & q & Ep & Eq).
  destruct (class_facts source target Ps Ec) as (EN & _ & _). destruct (plane_facts source Ps) as (_ & _ & _ & S2).
  destruct (edge_kind_some target Pt) as (ek & Ek & _). destruct (edge_kind_some source Ps) as (eks & Eks & Len).
  rewrite (edge_ref target ek) by (auto; lia). rewrite (inward_ref target ek) by auto.
  assert (Corner : forall e j, e < kind_nedge target -> j < 2 -> ref_coords target (edge_node_id target e j) = ref_coords source (edge_node_id source e j)).
  { intros e0 j H0 Hj. destruct (corner_edges source target e0 j Ps Ec ltac:(lia) Hj) as [-> B]. apply corner_refs; auto. }
  rewrite !Corner by (auto; lia). unfold image. apply map_ext. intros j. rewrite (One _ In1), (One _ In2).
  apply (shared_edge source source eks ne e); auto; try lia.
  - apply cell_x_len; auto.
  - apply cell_x_len; auto.
  - intros a Ha. rewrite <- Len in Ha. pose proof (Cf c e n ne p q cl cn a Ep Eq Hcl Hcn) as X.
    rewrite (One _ In1), (One _ In2) in X. specialize (X Ha).
    destruct (inward_reverse source eks e a Ps Eks ltac:(lia) Ha) as (a' & Ha' & Er & _).
    destruct (cell_x_nth cn j (edge_node_id source ne a) In2) as (id & pt & A1 & A2 & ->); [apply edge_node_lt; auto; lia|].
    destruct (cell_x_nth cl j (edge_node_id_inward source e a) In1) as (id' & pt' & B1 & B2 & ->); [rewrite Er; apply edge_node_lt; auto; lia|].
    assert (id = id') by congruence. subst. assert (pt = pt') by congruence. subst. auto.
Qed.

Lemma result_position c cl a pt : oriented m -> conforming m -> nth_error (cells m) c = Some cl -> a < tn -> node_point d c a pt ->
  pt_coords pt = image m cl (ref_coords target a).
Proof.
  intros O Cf Hcl Ha (dc & q & Hd & Hq & Hp). assert (Hc : c < ncell) by (apply nth_error_Some; congruence).
  assert (I : node_id d c a q) by (exists dc; auto). destruct get_facts as (org & L & _ & G & Co & No & Tw).
  destruct (Nat.lt_ge_cases a nc) as [Ac|Ac].
  - destruct (result_corners c a q pt Hc Ac I Hp) as (old & op & (cl' & X & Y) & P & _ & ->).
    assert (cl' = cl) by congruence. subst cl'. rewrite (corner_refs source target a Ps Ec Ac).
    assert (Ins : In cl (cells m)) by (eapply nth_error_In; eauto).
    destruct (image_node cl a Ins) as (id & pt' & A & B & ->); [destruct (plane_facts source Ps) as (_ & ? & _); lia|].
    assert (id = old) by congruence. subst. congruence.
  - destruct (Tw (oriented_two m O) c a q Hc ltac:(lia) I) as [[X _]|(e & n & ne & i & Lt & S & Hi & Ei & X)].
    + destruct (G q pt _ Hp X) as (_ & _ & cl' & Hcl' & E & _). congruence.
    + destruct (G q pt _ Hp X) as (_ & _ & cn & Hcn & E & _). rewrite E, <- Ei. apply (image_shared c e n ne i cl cn); auto.
Qed.

(** markers of the nodes that are not corners *)
Lemma result_marker c cl a pt : two_per_edge m -> nth_error (cells m) c = Some cl -> nc <= a < tn -> node_point d c a pt ->
  ((forall e, ~ on_edge target e a) -> pt_marker pt = 0%Z) /\
  (forall e, on_edge target e a -> edge_mark m cl e (pt_marker pt) \/
     exists n ne cn, n < c /\ shares m c e n ne /\ nth_error (cells m) n = Some cn /\ edge_mark m cn ne (pt_marker pt)) /\
  (forall e, on_edge target e a -> (forall n ne, n < c -> ~ shares m c e n ne) -> edge_mark m cl e (pt_marker pt)).
Proof.
  intros TP Hcl Ha (dc & q & Hd & Hq & Hp). assert (Hc : c < ncell) by (apply nth_error_Some; congruence).
  assert (I : node_id d c a q) by (exists dc; auto). destruct get_facts as (org & L & _ & G & Co & No & Tw).
  assert (OE : forall e e' x, on_edge target e x -> on_edge target e' x -> e = e').
  { intros e e' x (He & i & Hi & Ei) (He' & i' & Hi' & Ei'). destruct (mid_facts target Pt e i He Hi) as (_ & _ & M & _).
    destruct (M e' i' He' Hi') as (M1 & _). apply M1. congruence. }
  destruct (Tw TP c a q Hc ltac:(lia) I) as [[X NF]|(e & n & ne & i & Lt & S & Hi & Ei & X)].
  - destruct (G q pt _ Hp X) as (_ & _ & cl' & Hcl' & _ & Mk). assert (cl' = cl) by congruence. subst cl'.
    destruct Mk as [(e & Oe & Em)|(Ne & Z)].
    + split; [intros H; destruct (H e Oe)|]. split; [intros e' Oe'|intros e' Oe' _]; rewrite (OE _ _ _ Oe' Oe); auto.
    + split; [auto|]. split; [intros e' Oe'|intros e' Oe' _]; destruct (Ne e' Oe').
  - destruct (G q pt _ Hp X) as (_ & _ & cn & Hcn & _ & Mk). destruct (sin _ _ _ _ S) as (_ & _ & He & Hne).
    assert (Oc : on_edge target e a).
    { destruct (rev_index target i Pt Hi) as (i' & Hi' & Rv). split; [auto|]. exists i'. split; [auto|]. rewrite <- Ei. symmetry. apply Rv; auto. }
    assert (Em : edge_mark m cn ne (pt_marker pt)).
    { assert (On : on_edge target ne (edge_node_id target ne i)) by (split; eauto).
      destruct Mk as [(e' & Oe & Em)|(Ne & Z)]; [|destruct (Ne ne On)]. rewrite (OE _ _ _ On Oe). auto. }
    split; [intros H; destruct (H e Oc)|]. split.
    + intros e' Oe'. rewrite (OE _ _ _ Oe' Oc). right. exists n, ne, cn. auto.
    + intros e' Oe' Nn. rewrite (OE _ _ _ Oe' Oc) in Nn. destruct (Nn n ne Lt S).
Qed.
End Res.
