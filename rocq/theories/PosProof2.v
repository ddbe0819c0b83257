(* The positions in the mesh; they are determined; an example. *)
From Coq Require Import String Reals QArith Qreals List Lia Lra Bool Arith ZArith Permutation.
From Coq Require ClassicalDedekindReals.
From Verif Require Import Base BaseFacts TopoMaps Kind MeshModel TopoModel MeshQuerySpec ShapesModel ShapesSpec ShapesProof
  GeomModel GeomProof GridModel GridSpec PadModel PadSpec PadProof PadProof2 PadProof4
  BlockModel BlockSpec BlockProof BlockProof2 BlockProof3 BlockProof4 BlockProof5 BlockProof6 BlockProof7 BlockProof8 BlockProof9 PosSpec PosFacts PosProof.
Import ListNotations.
Local Open Scope list_scope.
Local Open Scope R_scope.

Section Mesh.
Variables (b : block) (target : geokind).
Variable sh : container -> container.
Variable shc : list (nat * nat) -> list (nat * nat).
Hypothesis Hsh : forall c, Permutation (sh c) c.
Hypothesis Hshc : forall l, Permutation (shc l) l.
Hypothesis W : wf_block b.
Hypothesis F : In target (targets (b_ndim b)).
Hypothesis Sp : spaced b target.
Notation nd := (b_ndim b).
Notation nn := (kind_nnode target).
Notation ksi := (node_ksi b target).

Lemma mesh_final msh idx m p : subdivide sh shc b target = Ok msh -> b_ring b = false -> apart b -> valid_index b idx -> (m < nn)%nat -> point_at b msh idx m p ->
  exists x, coords_of msh p x /\ final_at b target idx m x.
Proof.
  intros Run Rg Ap V Hm H. destruct (result b target sh shc Hsh Hshc W F Sp msh Run) as (K & st & E & A). apply (point_at_K b target sh shc W msh Run K st) in H; auto. pose proof (a_inv _ _ _ _ _ A) as I.
  assert (Hp : (p < List.length (s_points st))%nat) by (rewrite (i_len _ _ _ _ _ I); apply nth_error_Some; congruence).
  destruct (nth_error (s_points st) p) as [pt|] eqn:Ep; [|apply nth_error_None in Ep; lia].
  exists (pt_coords pt). split; [exists pt; rewrite E; auto|].
  apply (a_fin _ _ _ _ _ A idx m p (proj2 (indices_valid b W idx) V) Hm H pt _ Ep H (conj Rg Ap) idx m V Hm eq_refl).
Qed.

(* the description leaves no choice *)
Lemma stable P : ~ ~ P -> forall x y : list R, (P -> x = y) -> x = y.
Proof. intros N x y H. destruct (list_eq_dec Req_EM_T x y) as [E|E]; auto. exfalso. apply N. intros p. auto. Qed.
Lemma em P (x y : list R) : (P \/ ~ P -> x = y) -> x = y.
Proof. apply stable. tauto. Qed.
Lemma projects_unique s x y y' : projects b s x y -> projects b s x y' -> y = y'.
Proof.
  assert (U : forall p q pc qc r, projection p q pc qc r x y -> projection p q pc qc r x y' -> y = y').
  { intros p q pc qc r [L1 H1] [L2 H2]. apply nth_ext with (d := 0) (d' := 0); [congruence|]. intros n _. rewrite H1, H2. reflexivity. }
  unfold projects. destruct (nd =? 2)%nat.
  - destruct (mget _ _ _) as [[xc yc r]|]; [apply U|congruence].
  - destruct (mget _ _ _) as [[yc zc r|xc zc r|xc yc r]|]; try apply U; congruence.
Qed.
Section Unique.
Variable idx : list nat.
Hypothesis V : valid_index b idx.
Hypothesis Ap : apart b.
Notation settled := (settled nd (block_map b) (con_of b) (projects b)).
Notation edge_node_at := (edge_node_at nd (block_map b) (con_of b) (projects b) target (ksi idx)).
Notation frame_at := (frame_at nd (block_map b) (con_of b) (projects b) target (ksi idx)).
Lemma settled_unique m y y' : (m < nn)%nat -> settled (ksi idx m) y -> settled (ksi idx m) y' -> y = y'.
Proof.
  intros Hm [(s & C & A & P)|[Fr ->]] [(s' & C' & A' & P')|[Fr' ->]]; [|exfalso; apply (Fr' s C A)|exfalso; apply (Fr s' C' A')|reflexivity].
  assert (s = s'); [|subst; apply (projects_unique s' (block_map b (ksi idx m))); auto].
  destruct (Nat.eq_dec s s') as [|D]; auto. exfalso. destruct C as [Hs C], C' as [Hs' C']. pose proof (Ap s s' Hs Hs' C C' D) as X.
  apply (same_axis b W) in D; auto. apply D.
  apply (at_side_node b target W F Sp) in A as [_ A]; auto. apply (at_side_node b target W F Sp) in A' as [_ A']; auto. rewrite <- X, A in A'. unfold end_off in A'. pose proof (per_pos target).
  destruct (side_high nd s), (side_high nd s'); auto; lia.
Qed.
Variable edge_kind : geokind.
Hypothesis Ek : kind_edge_kind target = Some edge_kind.
Lemma edge_unique e j y y' : (e < kind_nedge target)%nat -> (2 <= j < kind_edge_nnode target)%nat -> edge_node_at e j y -> edge_node_at e j y' -> y = y'.
Proof.
  intros He Hj (A1 & A2 & A3) (B1 & B2 & B3). pose proof (en_lt b target W F e) as El. pose proof (ends_lt b target W F).
  destruct (free_or b (ksi idx (edge_node_id target e j))) as [Nf|Fr].
  - assert (~ free nd (con_of b) (ksi idx (edge_node_id target e j))) by (intros Fr; destruct Nf as (s & C & A); apply (Fr s C A)).
    apply (settled_unique (edge_node_id target e j)); auto. apply El; auto; lia.
  - apply (em (pulled nd (block_map b) (con_of b) (projects b) (ksi idx (edge_node_id target e 0)) (ksi idx (edge_node_id target e 1)))).
    intros [P|P]; [|rewrite (A3 Fr P), (B3 Fr P); reflexivity].
    destruct (A2 Fr P) as (t & y0 & y1 & T & S0 & S1 & L & X). destruct (B2 Fr P) as (t' & y0' & y1' & T' & S0' & S1' & L' & X').
    assert (y0 = y0') by (apply (settled_unique (edge_node_id target e 0)); auto; apply El; auto; lia).
    assert (y1 = y1') by (apply (settled_unique (edge_node_id target e 1)); auto; apply El; auto; lia).
    destruct (edge_runs nd target edge_kind e (w_nd b W) F Ek He) as (d & Rn).
    apply (frac_iff b target edge_kind W F e d j) in T; auto. apply (frac_iff b target edge_kind W F e d j) in T'; auto. subst.
    apply nth_ext with (d := 0) (d' := 0); [congruence|]. intros i Hi. rewrite X, X' by congruence. reflexivity.
Qed.
Lemma frame_unique m y y' : (m < nn)%nat -> (forall i, (i < kind_n_interior_nodes target)%nat -> m <> interior_node target i) -> frame_at m y -> frame_at m y' -> y = y'.
Proof.
  intros Hm Ni [A1 A2] [B1 B2]. destruct (classes b target W F m Hm) as [Hc|[(e & j & He & Hj & ->)|(i & Hi & ->)]].
  - apply (settled_unique m); auto.
  - apply (edge_unique e j); auto.
  - exfalso. apply (Ni i Hi eq_refl).
Qed.
Lemma final_unique m y y' : (m < nn)%nat -> final_at b target idx m y -> final_at b target idx m y' -> y = y'.
Proof.
  intros Hm [A1 A2] [B1 B2].
  destruct (classes b target W F m Hm) as [Hc|[(e & j & He & Hj & ->)|(i & Hi & ->)]].
  - apply (settled_unique m); auto; [apply A1|apply B1]; auto.
  - apply (edge_unique e j); auto; [apply A1|apply B1]; auto.
  - specialize (A2 i Hi eq_refl). specialize (B2 i Hi eq_refl). destruct A2 as [P1 P2], B2 as [Q1 Q2].
    destruct (interior_serendipity nd target i (w_nd b W) F Hi) as (ser & Es & Ef). destruct (serendipity_facts nd target (w_nd b W) F ser Es) as (S1 & _).
    apply (em (exists s, con_of b s)). intros [C|C]; [|rewrite P2, Q2 by eauto; reflexivity].
    destruct (P1 C) as (L & ys & Y & X). destruct (Q1 C) as (L' & ys' & Y' & X'). rewrite Ef in *.
    apply nth_ext with (d := 0) (d' := 0); [congruence|]. intros a Ha. rewrite X, X' by congruence. apply sum_n_ext. intros n Hn. f_equal.
    rewrite (frame_unique n (ys n) (ys' n)); auto; [lia|]. intros i' Hi' ->. pose proof (interior_after target ser i' Es Hi'). lia.
Qed.
End Unique.
End Mesh.

(* a square with a bent lower side, divided into one cell with 8 nodes: the node on the right side follows the corner *)
Lemma one_cell8 b m : b_ndim b = 2%nat -> b_delta b = [[2]; [2]] -> (m < 8)%nat ->
  node_ksi b Qua8 [0; 0]%nat m = nth m [[-1; -1]; [1; -1]; [1; 1]; [-1; 1]; [0; -1]; [1; 0]; [0; 1]; [-1; 0]] [].
Proof.
  intros D E Hm. unfold node_ksi, widths, line. rewrite D, E. cbn [seq map].
  do 8 (destruct m as [|m]; [unfold ref_coords; cbn [reference_coords nth seq map firstn sum fold_right]; unfold sum, Q2R; cbn; repeat (apply f_equal2; [lra|]); reflexivity|]). lia.
Qed.
Lemma bent_witness zdet sh shc : 0 <= zdet < 1 -> (forall c, Permutation (sh c) c) -> (forall l, Permutation (shc l) l) ->
  exists b msh, made zdet b /\ fits b Qua8 /\ spaced b Qua8 /\ b_ring b = false /\ apart b /\ subdivide sh shc b Qua8 = Ok msh /\ valid_index b [0; 0]%nat /\ b_ndim b = 2%nat /\
    edge_node_id Qua8 1 2 = 5%nat /\ free 2 (con_of b) (node_ksi b Qua8 [0; 0]%nat 5) /\
    pulled 2 (block_map b) (con_of b) (projects b) (node_ksi b Qua8 [0; 0]%nat (edge_node_id Qua8 1 0)) (node_ksi b Qua8 [0; 0]%nat (edge_node_id Qua8 1 1)).
Proof.
  intros Hz Hsh Hshc. destruct (box_2d_ok zdet (-1) (-1) 2 2 ltac:(lra) ltac:(lra)) as (p & E0 & HN).
  assert (W0 : wf_block (mkBlock MARKER 2 [2; 2]%nat [[1; 1]; [1; 1]] [] [] [] [] p (mkRing 0 (PI / 2) 1 2 0 1) false)) by (eapply made_wf; [|eapply made_new; exact E0]; lra).
  pose proof (set_ndiv_ok _ [1; 1]%nat W0 eq_refl ltac:(intros n [<- |[<- |[]]]; lia)) as E1.
  set (b0 := mkBlock MARKER 2 [2; 2]%nat [[1; 1]; [1; 1]] [] [] [] [] p (mkRing 0 (PI / 2) 1 2 0 1) false) in *.
  set (b := snd (set_edge_constraint (snd (set_ndiv b0 [1; 1]%nat)) 0 (Some (Circle 0 (-5) 3)))).
  assert (Mk : made zdet b) by (apply made_ec, made_ndiv; eapply made_new; exact E0).
  assert (W : wf_block b) by (apply (made_wf zdet); [lra|auto]).
  assert (E1w : equal_widths 1 = [2]) by (unfold equal_widths, NAT_LENGTH; cbn [repeat]; apply f_equal2; [simpl; lra|reflexivity]).
  assert (Eb : b_delta b = [[2]; [2]]) by (unfold b; rewrite E1; change (b_delta _) with [equal_widths 1; equal_widths 1]; rewrite E1w; reflexivity).
  assert (En : b_ndiv b = [1; 1]%nat) by (unfold b; rewrite E1; reflexivity).
  assert (Ed : b_ndim b = 2%nat) by (unfold b; rewrite E1; reflexivity).
  assert (Er : b_ring b = false) by (unfold b; rewrite E1; reflexivity).
  assert (Ep : b_pad b = p) by (unfold b; rewrite E1; reflexivity).
  assert (Ec : b_ec b = [(0%nat, Circle 0 (-5) 3)]) by (unfold b; rewrite E1; reflexivity).
  clearbody b. clear E1 E0 W0 b0.
  assert (Ft : fits b Qua8) by (unfold fits; rewrite Ed; reflexivity). pose proof (proj1 (fits_in b Qua8 (w_nd b W)) Ft) as F.
  assert (Sp : spaced b Qua8).
  { intros a d Ha Hd. pose proof (tol_small b W). replace (INR (per Qua8)) with 2 by reflexivity. unfold widths in Hd. rewrite Eb in Hd. rewrite Ed in Ha.
    assert (d = 2) by (destruct a as [|[|a]]; [| |lia]; destruct Hd as [<- |[]]; reflexivity). lra. }
  assert (PM : forall ksi, List.length ksi = 2%nat -> block_map b ksi = ksi).
  { intros ksi L. pose proof (w_pad b W) as Q1. pose proof (w_kind b W) as Q2. pose proof (w_space b W) as Q3. rewrite Ep, ?Ed in *. destruct (box_2d_map (-1) (-1) 2 2 p ksi Q1 Q2 Q3 HN L) as [P0 P1].
    unfold block_map. rewrite Er, Ed, Ep. cbn [seq map]. rewrite P0, P1. destruct ksi as [|x [|y [|z ksi]]]; [discriminate L|discriminate L| |discriminate L]. cbn [nth]. repeat (apply f_equal2; [lra|]); reflexivity. }
  assert (V0 : valid_index b [0; 0]%nat).
  { split; [rewrite Ed; reflexivity|]. intros a Ha. rewrite Ed in Ha. unfold ndivs. rewrite En. destruct a as [|[|a]]; [cbn; lia|cbn; lia|lia]. }
  assert (C0 : forall s, constrained b s <-> s = 0%nat).
  { intros s. unfold constrained. rewrite Ed, Ec. cbn. destruct s; cbn; [split; [auto|discriminate]|split; [congruence|discriminate]]. }
  assert (K : forall idx m, valid_index b idx -> (m < 8)%nat -> idx = [0; 0]%nat /\ node_ksi b Qua8 idx m = nth m [[-1; -1]; [1; -1]; [1; 1]; [-1; 1]; [0; -1]; [1; 0]; [0; 1]; [-1; 0]] []).
  { intros idx m [V1 V2] Hm. rewrite Ed in *. destruct idx as [|i [|j [|k idx]]]; try discriminate.
    pose proof (V2 0%nat ltac:(lia)) as A. pose proof (V2 1%nat ltac:(lia)) as B. unfold ndivs in A, B. rewrite En in A, B. simpl in A, B.
    assert (i = 0%nat) by lia. assert (j = 0%nat) by lia. subst. split; auto. apply one_cell8; auto. }
  assert (Pj : forall x y, projects b 0 x y <-> projection 0 1 0 (-5) 3 x y) by (intros; unfold projects; rewrite Ed, Ec; reflexivity).
  destruct (mesh_total b Qua8 sh shc Hsh Hshc W F Sp) as (msh & Run).
  { right. intros idx m s V Hm Hs C A N. destruct (K idx m V Hm) as [-> Km]. rewrite Km in A, N. apply C0 in C. subst s.
    change (kind_nnode Qua8) with 8%nat in Hm. rewrite PM in N by (do 8 (destruct m as [|m]; [reflexivity|]); lia).
    unfold near in N. rewrite Ed, Ec in N. cbn [Nat.eqb mget near_2d] in N. unfold at_side in A. rewrite Ed in A. change (side_axis 2 0) with 1%nat in A. change (side_end 2 0) with (-1) in A.
    unfold dist2 in N. assert (H4 : 4 <= sqrt ((nth 0 (nth m [[-1; -1]; [1; -1]; [1; 1]; [-1; 1]; [0; -1]; [1; 0]; [0; 1]; [-1; 0]] []) 0 - 0) ^ 2 + (nth 1 (nth m [[-1; -1]; [1; -1]; [1; 1]; [-1; 1]; [0; -1]; [1; 0]; [0; 1]; [-1; 0]] []) 0 - -5) ^ 2)).
    { rewrite A. rewrite <- (sqrt_square 4) by lra. apply sqrt_le_1_alt. pose proof (pow2_ge_0 (nth 0 (nth m [[-1; -1]; [1; -1]; [1; 1]; [-1; 1]; [0; -1]; [1; 0]; [0; 1]; [-1; 0]] []) 0 - 0)). lra. }
    lra. }
  exists b, msh. split; [exact Mk|]. split; [exact Ft|]. split; [exact Sp|]. split; [exact Er|]. split.
  { intros s s' _ _ H1 H2 H3. apply C0 in H1, H2. congruence. }
  split; [exact Run|]. split; [exact V0|]. split; [exact Ed|]. split; [reflexivity|]. split.
  - intros s [_ Cs]. apply C0 in Cs. subst s. destruct (K _ 5%nat V0 ltac:(lia)) as [_ ->]. unfold at_side. cbn. lra.
  - exists 0%nat, (node_ksi b Qua8 [0; 0]%nat 1). change (edge_node_id Qua8 1 0) with 2%nat. change (edge_node_id Qua8 1 1) with 1%nat. split; [split; [rewrite Ed; cbn; lia|apply C0; reflexivity]|]. split; [auto|].
    destruct (K _ 1%nat V0 ltac:(lia)) as [_ K1]. destruct (K _ 2%nat V0 ltac:(lia)) as [_ K2]. rewrite K1, K2. cbn [nth]. split; [reflexivity|]. split; [unfold at_side; cbn; lra|].
    rewrite Pj, PM by reflexivity. intros [_ H]. specialize (H 0%nat). cbn [Nat.eqb nth] in H. unfold dist2 in H.
    assert (Q : 4 < sqrt ((1 - 0) ^ 2 + (-1 - -5) ^ 2)) by (rewrite <- (sqrt_square 4) at 1 by lra; apply sqrt_lt_1_alt; lra).
    set (q := sqrt _) in *. assert (E : 3 / q * q = 3) by (field; lra). nra.
Qed.
