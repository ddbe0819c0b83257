(* A mesh of rectangles is framed: its boundary edges reach the extreme coordinates. *)
From Coq Require Import String Reals List Lia Lra Bool Arith ZArith Permutation.
From Verif Require Import Base BaseFacts Kind MeshModel MeshQuerySpec TopoModel TopoSpec TopoFeat3 TopoFinal GeomModel GeomSpec GeomProof GridModel GridSpec GridProof SearchModel SearchProof
  JoinModel JoinSpec JoinProof JoinProof2 ShapesModel BlockSpec BlockProof BlockProof2 BlockProof3 PropJoin StructSpec StructProof.
Import ListNotations.
Local Open Scope list_scope.
Local Open Scope R_scope.

Section Boxes.
Variable target : geokind.
Hypothesis Q : In target (targets 2).

Lemma qua_edges e : (e < 4)%nat -> edge_node_id target e 0 = nth e [1; 2; 3; 0]%nat 0%nat /\ edge_node_id target e 1 = nth e [0; 1; 2; 3]%nat 0%nat.
Proof. intros H. cbn in Q. repeat (destruct Q as [<-|Q']; [clear Q; do 4 (destruct e as [|e]; [split; reflexivity|]); lia|clear Q; rename Q' into Q]). destruct Q. Qed.
Lemma qua_nedge : kind_nedge target = 4%nat /\ kind_ndim target = 2%nat /\ (4 <= kind_nnode target)%nat /\ (2 <= kind_edge_nnode target)%nat.
Proof. cbn in Q. repeat (destruct Q as [<-|Q']; [vm_compute; repeat split; lia|clear Q; rename Q' into Q]). destruct Q. Qed.
Lemma qua_corner m : (m < 4)%nat -> ref_coords target m = nth m [[-1; -1]; [1; -1]; [1; 1]; [-1; 1]] [].
Proof.
  intros H. cbn in Q. unfold ref_coords.
  repeat (destruct Q as [<-|Q']; [do 4 (destruct m as [|m]; [cbn; unfold Q2R; cbn; repeat f_equal; lra|]); lia|clear Q; rename Q' into Q]). destruct Q.
Qed.
Lemma qua_range m a : (m < kind_nnode target)%nat -> (a < 2)%nat -> 0 <= (1 + nth a (ref_coords target m) 0) / 2 <= 1.
Proof.
  intros Hm Ha. destruct (ref_offset 2 target m a (or_introl eq_refl) Q Hm Ha) as (E & L). rewrite E.
  assert (P : (1 <= per target)%nat) by (clear; destruct target; cbn; lia). apply le_INR in L. apply le_INR in P. change (INR 1) with 1 in P.
  pose proof (pos_INR (offset target m a)). split.
  - apply Rmult_le_pos; [lra|]. apply Rlt_le, Rinv_0_lt_compat. lra.
  - apply (Rmult_le_reg_r (INR (per target))); [lra|]. unfold Rdiv. rewrite Rmult_assoc, Rinv_l by lra. lra.
Qed.
Lemma stretch_range a b t : a <= b -> 0 <= (1 + t) / 2 <= 1 -> a <= stretch a b t <= b.
Proof. intros H T. unfold stretch. split; nra. Qed.

Lemma corner_node b m : (m < 4)%nat -> box_node target b m = nth m [[bx0 b; by0 b]; [bx1 b; by0 b]; [bx1 b; by1 b]; [bx0 b; by1 b]] [].
Proof.
  intros H. unfold box_node, stretch. rewrite qua_corner by exact H. do 4 (destruct m as [|m]; [cbn; repeat f_equal; lra|]). lia.
Qed.

Variable shuffle : emap -> emap.
Hypothesis shP : forall l, Permutation (shuffle l) l.
Variable a : mesh R.
Variable bs : list box.
Hypothesis Va : valid a.
Hypothesis Da : ndim a = 2%nat.
Hypothesis Dist : distinct_points a.
Hypothesis Used : all_used a.
Hypothesis Sh : shows a (map (box_shape target) bs).
Hypothesis NE : bs <> [].
Hypothesis DB : disjoint_boxes bs.

Lemma cell_box i c : nth_error (cells a) i = Some c -> exists b, nth_error bs i = Some b /\ c_id c = i /\ c_kind c = target /\
  forall m p, nth_error (c_points c) m = Some p -> (m < kind_nnode target)%nat /\ coords_of a p (box_node target b m).
Proof.
  intros H. apply Forall2_nth in Sh as (L & S). rewrite map_length in L. destruct (nth_error bs i) as [b|] eqn:E.
  2: { apply nth_error_None in E. assert (X : nth_error (cells a) i <> None) by (rewrite H; discriminate). apply nth_error_Some in X. lia. }
  exists b. split; [reflexivity|]. destruct Va as ((_ & C) & _). destruct (C i c H) as (I & Lc & _). split; [exact I|].
  destruct (S i c (box_shape target b) H) as (S1 & _ & S3); [rewrite nth_error_map, E; reflexivity|]. cbn in S1, S3. split; [exact S1|].
  apply Forall2_nth in S3 as (L3 & S3). rewrite map_length, seq_length in L3. intros m p Hp.
  assert (Hm : (m < kind_nnode target)%nat). { rewrite <- L3. apply nth_error_Some. rewrite Hp. discriminate. }
  split; [exact Hm|]. apply (S3 m p _ Hp). rewrite nth_error_map, (nth_error_nth' _ 0%nat) by (rewrite seq_length; exact Hm). rewrite seq_nth by exact Hm. reflexivity.
Qed.
Lemma box_cell i b : nth_error bs i = Some b -> exists c, nth_error (cells a) i = Some c.
Proof.
  intros H. apply Forall2_nth in Sh as (L & _). rewrite map_length in L. destruct (nth_error (cells a) i) as [c|] eqn:E; [eauto|].
  apply nth_error_None in E. assert (X : nth_error bs i <> None) by (rewrite H; discriminate). apply nth_error_Some in X. lia.
Qed.

(* the edges as pairs of coordinates *)
Definition ends (b : box) (e : nat) : list R * list R :=
  match e with
  | 0 => ([bx1 b; by0 b], [bx0 b; by0 b]) | 1 => ([bx1 b; by1 b], [bx1 b; by0 b])
  | 2 => ([bx0 b; by1 b], [bx1 b; by1 b]) | _ => ([bx0 b; by0 b], [bx0 b; by1 b])
  end%nat.
Lemma edge_ends c e p q : edge_of a c e p q -> exists b, nth_error bs c = Some b /\ (e < 4)%nat /\ coords_of a p (fst (ends b e)) /\ coords_of a q (snd (ends b e)).
Proof.
  intros (cl & I & Ec & _ & Le & P1 & P2). apply In_nth_error in I as (i & I). destruct (cell_box i cl I) as (b & B & Ei & K & N).
  rewrite K in *. rewrite (proj1 qua_nedge) in Le. assert (c = i) by congruence. subst i. exists b. split; [congruence|]. split; [exact Le|].
  destruct (qua_edges e Le) as (E0 & E1). rewrite E0 in P1. rewrite E1 in P2. apply N in P1 as (_ & P1). apply N in P2 as (_ & P2).
  destruct e as [|[|[|[|e]]]]; [| | | |lia]; cbn [nth] in P1, P2; rewrite corner_node in P1, P2 by lia; split; assumption.
Qed.
Lemma ends_edge c b e : nth_error bs c = Some b -> (e < 4)%nat -> exists p q, edge_of a c e p q.
Proof.
  intros B Le. destruct (box_cell c b B) as (cl & I). destruct (cell_box c cl I) as (b' & _ & Ei & K & _). destruct Va as ((_ & C) & _). destruct (C c cl I) as (_ & Lc & _). rewrite K in Lc.
  destruct qua_nedge as (N4 & N2 & NN & _). destruct (qua_edges e Le) as (E0 & E1).
  assert (G : forall m, (m < 4)%nat -> exists p, nth_error (c_points cl) m = Some p). { intros m Hm. exists (nth m (c_points cl) 0%nat). apply nth_error_nth'. lia. }
  assert (L0 : (edge_node_id target e 0 < 4)%nat) by (rewrite E0; destruct e as [|[|[|[|e]]]]; cbn; lia).
  assert (L1 : (edge_node_id target e 1 < 4)%nat) by (rewrite E1; destruct e as [|[|[|[|e]]]]; cbn; lia).
  destruct (G _ L0) as (p & P). destruct (G _ L1) as (q & P'). exists p, q, cl. split; [eapply nth_error_In; exact I|]. split; [exact Ei|]. rewrite K. rewrite N2, N4. auto.
Qed.

(* an edge that no other box shares is a boundary edge *)
Lemma lonely_edge ft c b e : features_new Rleb shuffle a false = Ok ft -> nth_error bs c = Some b -> (e < 4)%nat ->
  (forall c' b' e', nth_error bs c' = Some b' -> (e' < 4)%nat ->
     fst (ends b' e') = fst (ends b e) /\ snd (ends b' e') = snd (ends b e) \/ fst (ends b' e') = snd (ends b e) /\ snd (ends b' e') = fst (ends b e) -> c' = c /\ e' = e) ->
  exists p q, In p (ft_points ft) /\ In q (ft_points ft) /\ coords_of a p (fst (ends b e)) /\ coords_of a q (snd (ends b e)).
Proof.
  intros F B Le U. destruct Va as (Ca & CCa & _). destruct (ends_edge c b e B Le) as (p & q & Ed). destruct (edge_ends c e p q Ed) as (b0 & B0 & _ & Cp & Cq).
  rewrite B in B0. injection B0 as <-. exists p, q.
  assert (Wt : wanted false (has_edge a p q)).
  { exists (c, e). split; [exists p, q; split; [exact Ed|left; auto]|]. intros [c' e'] (p' & q' & Ed' & SP). cbn [fst snd] in Ed'.
    destruct (edge_ends c' e' p' q' Ed') as (b' & B' & Le' & Cp' & Cq').
    destruct (U c' b' e' B' Le') as (-> & ->); [|reflexivity].
    destruct SP as [[-> ->]|[-> ->]]; [left|right]; split; eapply coords_inj; eassumption. }
  assert (Main : forall x y, (x <= y)%nat -> wanted false (has_edge a x y) -> In x (ft_points ft) /\ In y (ft_points ft)).
  { intros x y Lxy Wxy. destruct (proj2 (listed_edges_2d Rleb shuffle shP a false ft Ca Da F x y) (conj Lxy Wxy)) as (ed & G).
    destruct (edges_2d Rleb shuffle shP a false ft Ca Da F) as (_ & _ & _ & X). destruct (X x y ed G) as (_ & ce & ((p' & q' & Ec & SP) & _) & EN).
    destruct EN as (cl & I & Ei & _ & _ & _ & M). destruct Ec as (cl' & I' & Ei' & _ & _ & P1 & P2).
    assert (cl' = cl). { apply In_nth_error in I as (i & I). apply In_nth_error in I' as (i' & I'). destruct Ca as (_ & C). pose proof (proj1 (C i cl I)). pose proof (proj1 (C i' cl' I')). assert (i = i') by congruence. subst i'. congruence. }
    subst cl'. apply In_nth_error in I as (i & I). destruct (cell_box i cl I) as (_ & _ & _ & K & _). rewrite K in M, P1, P2. destruct qua_nedge as (_ & _ & _ & N2).
    assert (InE : forall z k, (k < kind_edge_nnode target)%nat -> nth_error (c_points cl) (edge_node_id target (snd ce) k) = Some z -> In z (e_points ed)).
    { intros z k Hk Z. assert (S : In (Some z) (map Some (e_points ed))). { rewrite <- M. apply in_map_iff. exists k. split; [exact Z|apply in_seq; lia]. }
      apply in_map_iff in S as (z' & [= ->] & S). exact S. }
    assert (Ip : In p' (e_points ed)) by (apply (InE p' 0%nat); [lia|exact P1]). assert (Iq : In q' (e_points ed)) by (apply (InE q' 1%nat); [lia|exact P2]).
    destruct (points_and_limits Rleb shuffle shP a false ft Rleb_total Ca (or_introl Da) F) as (_ & UP & _).
    destruct SP as [[-> ->]|[-> ->]]; split; apply UP; left; exists x, y, ed; auto. }
  destruct (le_lt_dec p q) as [L|L].
  - destruct (Main p q L Wt). auto.
  - destruct (Main q p (Nat.lt_le_incl _ _ L)) as (X & Y); [|auto]. destruct Wt as (x & (p' & q' & A & SP) & Un). exists x. split.
    + exists p', q'. split; [exact A|]. destruct SP as [[-> ->]|[-> ->]]; [right|left]; auto.
    + intros x' (p'' & q'' & A' & SP'). apply Un. exists p'', q''. split; [exact A'|]. destruct SP' as [[-> ->]|[-> ->]]; [right|left]; auto.
Qed.

Lemma extreme (f : box -> R) : exists c b, nth_error bs c = Some b /\ forall b', In b' bs -> f b <= f b'.
Proof.
  clear - NE. induction bs as [|b l IH]; [congruence|]. destruct l as [|b1 l].
  - exists 0%nat, b. split; [reflexivity|]. intros b' [<-|[]]. lra.
  - destruct IH as (c & b2 & B & M); [discriminate|]. destruct (Rle_lt_dec (f b) (f b2)) as [L|L].
    + exists 0%nat, b. split; [reflexivity|]. intros b' [<-|I]; [lra|]. specialize (M b' I). lra.
    + exists (S c), b2. split; [exact B|]. intros b' [<-|I]; [lra|auto].
Qed.

Lemma separate i j b c : nth_error bs i = Some b -> nth_error bs j = Some c -> bx0 b < bx1 c -> bx0 c < bx1 b -> by0 b < by1 c -> by0 c < by1 b -> i = j.
Proof. intros Hi Hj X1 X2 Y1 Y2. destruct (Nat.eq_dec i j) as [E|E]; [exact E|]. destruct DB as (_ & D). destruct (D i j b c E Hi Hj) as [X|[X|[X|X]]]; lra. Qed.

Lemma coord_of p x j : coords_of a p x -> (j < 2)%nat -> coord_is a p j (nth j x 0).
Proof.
  intros (pt & P & E) Hj. exists pt. split; [exact P|]. destruct Va as (_ & CC & _). assert (L : List.length (pt_coords pt) = 2%nat) by (rewrite CC; [exact Da|eapply nth_error_In; exact P]).
  rewrite E in *. apply nth_error_nth'. lia.
Qed.

Ltac solve_unique B M W :=
  intros c' b' e' B' Le' H; pose proof (W _ (nth_error_In _ _ B)) as (? & ?); pose proof (W _ (nth_error_In _ _ B')) as (? & ?);
  pose proof (M _ (nth_error_In _ _ B')); destruct e' as [|[|[|[|e']]]]; [| | | |lia]; cbn [ends fst snd] in H;
  (destruct H as [(Za & Zb)|(Za & Zb)]; injection Za as Zc Zd; injection Zb as Ze Zf);
  try (exfalso; lra); (split; [|reflexivity]); (eapply separate; [exact B'|exact B|lra|lra|lra|lra]).

Lemma boxes_framed : framed shuffle a.
Proof.
  intros ft F. pose proof (proj1 DB) as W.
  destruct (extreme bx0) as (c3 & b3 & B3 & M3). destruct (lonely_edge ft c3 b3 3 F B3 ltac:(lia)) as (p3 & _ & I3 & _ & C3 & _); [solve_unique B3 M3 W|].
  destruct (extreme by0) as (c0 & b0 & B0 & M0). destruct (lonely_edge ft c0 b0 0 F B0 ltac:(lia)) as (p0 & _ & I0 & _ & C0 & _); [solve_unique B0 M0 W|].
  destruct (extreme (fun b => - bx1 b)) as (c1 & b1 & B1 & M1). destruct (lonely_edge ft c1 b1 1 F B1 ltac:(lia)) as (p1 & _ & I1 & _ & C1 & _); [solve_unique B1 M1 W|].
  destruct (extreme (fun b => - by1 b)) as (c2 & b2 & B2 & M2). destruct (lonely_edge ft c2 b2 2 F B2 ltac:(lia)) as (p2 & _ & I2 & _ & C2 & _); [solve_unique B2 M2 W|].
  cbn [ends fst] in C0, C1, C2, C3.
  assert (Lo : forall j, (j < 2)%nat -> exists p q u v, In p (ft_points ft) /\ In q (ft_points ft) /\ coord_is a p j u /\ coord_is a q j v /\ u < v /\
    u = nth j [bx0 b3; by0 b0] 0 /\ v = nth j [bx1 b1; by1 b2] 0).
  { intros j Hj. destruct j as [|[|j]]; [| |lia].
    - exists p3, p1, (bx0 b3), (bx1 b1). split; [exact I3|]. split; [exact I1|]. split; [exact (coord_of p3 _ 0 C3 Hj)|]. split; [exact (coord_of p1 _ 0 C1 Hj)|].
      split; [|split; reflexivity]. pose proof (M3 _ (nth_error_In _ _ B1)). pose proof (W _ (nth_error_In _ _ B1)). lra.
    - exists p0, p2, (by0 b0), (by1 b2). split; [exact I0|]. split; [exact I2|]. split; [exact (coord_of p0 _ 1 C0 Hj)|]. split; [exact (coord_of p2 _ 1 C2 Hj)|].
      split; [|split; reflexivity]. pose proof (M0 _ (nth_error_In _ _ B2)). pose proof (W _ (nth_error_In _ _ B2)). lra. }
  split.
  - intros j Hj. rewrite Da in Hj. destruct (Lo j Hj) as (p & q & u & v & H1 & H2 & H3 & H4 & H5 & _). exists p, q, u, v. repeat (split; [assumption|]). lra.
  - intros pt Ip j Hj. rewrite Da in Hj. destruct (Lo j Hj) as (p & q & u & v & H1 & H2 & H3 & H4 & H5 & -> & ->). exists p, q. do 2 eexists. repeat (split; [eassumption|]).
    apply In_nth_error in Ip as (i & Ip). destruct (Used i) as (cl & Ic & In'). { apply nth_error_Some. rewrite Ip. discriminate. }
    apply In_nth_error in Ic as (k & Ic). apply In_nth_error in In' as (m & Im). destruct (cell_box k cl Ic) as (b & B & _ & _ & N). destruct (N m i Im) as (Hm & Cm).
    assert (E : pt_coords pt = box_node target b m) by (apply (coords_inj a i); [exists pt; auto|exact Cm]). rewrite E.
    pose proof (W _ (nth_error_In _ _ B)) as (W1 & W2). destruct j as [|[|j]]; [| |lia]; cbn [nth box_node].
    + pose proof (stretch_range (bx0 b) (bx1 b) _ (Rlt_le _ _ W1) (qua_range m 0 Hm ltac:(lia))). pose proof (M3 _ (nth_error_In _ _ B)). pose proof (M1 _ (nth_error_In _ _ B)). cbv beta in *. lra.
    + pose proof (stretch_range (by0 b) (by1 b) _ (Rlt_le _ _ W2) (qua_range m 1 Hm ltac:(lia))). pose proof (M0 _ (nth_error_In _ _ B)). pose proof (M2 _ (nth_error_In _ _ B)). cbv beta in *. lra.
Qed.
End Boxes.
