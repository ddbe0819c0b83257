(* Meshes of single blocks without constraints, and of quarter rings. *)
From Coq Require Import String Reals List Lia Lra Bool Arith ZArith Permutation.
From Verif Require Import Base BaseFacts Kind MeshModel MeshQuerySpec TopoModel TopoSpec GeomModel GeomSpec GeomProof GridModel GridSpec GridProof SearchModel SearchProof
  JoinModel JoinSpec JoinProof JoinProof2 ShapesModel ShapesSpec PadModel PadSpec BlockModel BlockSpec BlockProof BlockProof2 BlockProof3 BlockProof8 BlockProof9 BlockProof10 PropBlock GraphModel GraphVocab PropGraph StructModel StructSpec StructProof StructProof3 StructProof4 RingSpec.
Import ListNotations.
Local Open Scope list_scope.
Local Open Scope R_scope.

(* ---------------------------------------------------------------- renumbering *)
Lemma renumber_pictures nd m gs m' : pictures nd m gs -> renumber_mesh m false = Ok m' -> pictures nd m' gs /\ (distinct_points m -> distinct_points m').
Proof.
  intros (C1 & C2 & N & U1 & U2 & A & S) H.
  assert (W : well_formed m). { split; [|exact C2]. intros c p Ic Ip. apply In_nth_error in Ic as (i & Ic). destruct C1 as (_ & C1). apply (proj2 (proj2 (C1 i c Ic))). exact Ip. }
  destruct (C08_renumber_mesh R m m' false W H) as (o & P & (R1 & R2 & R3 & R4) & M1 & M2).
  assert (Fw : forall p x, coords_of m p x -> coords_of m' (nth p o 0%nat) x). { intros p x (pt & X & <-). eexists. split; [apply R3; exact X|reflexivity]. }
  assert (Lo : List.length o = List.length (points m)) by (apply Permutation_length in P; rewrite seq_length in P; exact P).
  assert (Bw : forall q x, coords_of m' q x -> exists p, nth p o 0%nat = q /\ coords_of m p x).
  { intros q x X. destruct (perm_onto _ _ P q) as (p & Lp & E). { rewrite <- R2. eapply coords_range. exact X. }
    exists p. split; [exact E|]. destruct (coords_get m p Lp) as (y & Y). pose proof (Fw p y Y) as Z. rewrite E in Z. rewrite (coords_inj _ _ _ _ X Z). exact Y. }
  assert (Rng : forall p, (p < List.length (points m))%nat -> (nth p o 0 < List.length (points m'))%nat). { intros p Lp. destruct (coords_get m p Lp) as (y & Y). eapply coords_range. apply Fw. exact Y. }
  split; [split; [split|]|].
  - intros q pt X. destruct (perm_onto _ _ P q) as (p & Lp & E). { rewrite <- R2. apply nth_error_Some. congruence. }
    destruct (nth_error (points m) p) as [pt0|] eqn:X0; [|apply nth_error_None in X0; lia]. apply R3 in X0. rewrite E in X0. rewrite X in X0. injection X0 as ->. reflexivity.
  - intros i c X. rewrite R4, nth_error_map in X. destruct (nth_error (cells m) i) as [c0|] eqn:X0; [|discriminate]. injection X as <-. cbn. destruct C1 as (_ & C1). destruct (C1 i c0 X0) as (Y1 & Y2 & Y3).
    split; [exact Y1|]. split; [rewrite map_length; exact Y2|]. intros q Iq. apply in_map_iff in Iq as (p & <- & Ip). apply Rng, Y3, Ip.
  - split. { intros pt I. apply In_nth_error in I as (q & X). destruct (Bw q (pt_coords pt)) as (p & _ & (pt0 & X0 & E)); [exists pt; auto|]. rewrite <- E, R1. apply C2. eapply nth_error_In. exact X0. }
    split; [congruence|]. split; [congruence|]. split; [congruence|]. split.
    + intros q Lq. rewrite R2 in Lq. destruct (perm_onto _ _ P q Lq) as (p & Lp & E). destruct (A p Lp) as (c & Ic & Ip). rewrite R4. eexists. split; [apply in_map; exact Ic|]. cbn. rewrite <- E. apply (in_map (fun p => nth p o 0%nat)). exact Ip.
    + unfold shows. rewrite R4. apply Forall2_map_l. eapply Forall2_weaken; [|exact S]. intros c g _ (S1 & S2 & S3). split; [exact S1|]. split; [exact S2|]. cbn. apply Forall2_map_l. eapply Forall2_weaken; [|exact S3]. intros p x _. apply Fw.
  - intros D i j x Xi Xj. destruct (Bw i x Xi) as (p & <- & Xp). destruct (Bw j x Xj) as (q & <- & Xq). rewrite (D p q x Xp Xq). reflexivity.
Qed.

(* ---------------------------------------------------------------- one block *)
Section Plain.
Variables (zdet : R) (sh : container -> container) (shc : list (nat * nat) -> list (nat * nat)) (b : block) (target : geokind) (msh : mesh R).
Hypothesis SD : subdivided zdet sh shc b target msh.
Hypothesis HC : has_constraints b = false.
Hypothesis EM : b_em b = [].
Hypothesis FM : b_fm b = [].
Definition index_shape (idx : list nat) : shape :=
  mkShape target (b_marker b) (map (fun m => block_map b (node_ksi b target idx m)) (seq 0 (kind_nnode target))).

Lemma plain_cell idx : valid_index b idx -> exists c, nth_error (cells msh) (rank (b_ndiv b) idx) = Some c /\ cell_is msh c (index_shape idx).
Proof.
  intros V. destruct (C45_cells _ _ _ _ _ _ SD) as (_ & K2 & _). destruct (K2 idx V) as (c & Hc & Kc & Mc & Lc). exists c. split; [exact Hc|].
  split; [exact Kc|]. split; [exact Mc|]. cbn [s_nodes index_shape]. apply Forall2_nth. split; [rewrite map_length, seq_length; exact Lc|].
  intros q p x Hp Hx. assert (Hq : (q < kind_nnode target)%nat). { rewrite <- Lc. apply nth_error_Some. rewrite Hp. discriminate. }
  rewrite nth_error_map, (nth_error_nth' _ 0%nat) in Hx by (rewrite seq_length; exact Hq). rewrite seq_nth in Hx by exact Hq. cbn [option_map] in Hx. injection Hx as <-.
  apply (C45_positions _ _ _ _ _ _ idx q p SD HC V Hq). exists c. auto.
Qed.

Lemma plain_pictures gs : List.length gs = fold_right Nat.mul 1%nat (b_ndiv b) ->
  (forall idx, valid_index b idx -> nth_error gs (rank (b_ndiv b) idx) = Some (index_shape idx)) -> pictures (b_ndim b) msh gs.
Proof.
  intros L G. destruct (C45_consistent _ _ _ _ _ _ SD) as (C1 & C2 & C3 & _). split; [exact C1|]. split; [exact C2|]. split; [exact C3|].
  destruct (C45_cells _ _ _ _ _ _ SD) as (K1 & _ & K3). destruct (C45_nodes _ _ _ _ _ _ SD) as (_ & N2).
  split. { destruct (marked_edges msh) as [|[[mk u] v] l] eqn:Q; [reflexivity|]. destruct (proj1 (C61_edges _ _ _ _ _ _ mk u v SD)) as (e & idx & e' & p & q & X & _); [rewrite Q; left; reflexivity|]. rewrite EM in X. discriminate X. }
  split. { destruct (marked_faces msh) as [|x l] eqn:Q; [reflexivity|]. destruct (proj1 (C61_faces _ _ _ _ _ _ x SD)) as (f & idx & f' & p1 & p2 & p3 & p4 & a1 & a2 & a3 & a4 & mk & X & _); [rewrite Q; left; reflexivity|]. rewrite FM in X. discriminate X. }
  split. { intros p Lp. destruct (N2 p Lp) as (idx & k & V & Hk & (c & Hc & Hp)). exists c. split; eapply nth_error_In; eassumption. }
  apply Forall2_nth. split; [congruence|]. intros k c g Hc Hg. destruct (K3 k) as (idx & V & Rk). { apply nth_error_Some. rewrite Hc. discriminate. }
  subst k. destruct (plain_cell idx V) as (c' & Hc' & X). rewrite (G idx V) in Hg. injection Hg as <-. rewrite Hc in Hc'. injection Hc' as <-. exact X.
Qed.

Definition in_cube (nd : nat) (x : list R) : Prop := List.length x = nd /\ forall a, (a < nd)%nat -> -1 <= nth a x 0 <= 1.
Lemma plain_distinct : (forall u v, in_cube (b_ndim b) u -> in_cube (b_ndim b) v -> block_map b u = block_map b v -> u = v) -> distinct_points msh.
Proof.
  intros Inj i j x Xi Xj. destruct (C45_nodes _ _ _ _ _ _ SD) as (_ & N2). pose proof SD as (Z & _ & _ & M & Ft & Sp & _).
  destruct (N2 i (coords_range _ _ _ Xi)) as (idx & m & V & Hm & PA). destruct (N2 j (coords_range _ _ _ Xj)) as (idx' & m' & V' & Hm' & PA').
  apply (C45_conforming _ _ _ _ _ _ idx m i idx' m' j SD V V' Hm Hm' PA PA').
  pose proof (made_wf _ _ Z M) as W. pose proof (proj1 (fits_in _ _ (w_nd _ W)) Ft) as F.
  apply (ksi_iff b target W F Sp idx m idx' m' V V' Hm Hm').
  assert (Cu : forall idx m, valid_index b idx -> (m < kind_nnode target)%nat -> in_cube (b_ndim b) (node_ksi b target idx m)).
  { intros. split; [apply node_ksi_length|]. intros a Ha. apply (C45_inside zdet b target); assumption. }
  apply Inj; [apply Cu; assumption|apply Cu; assumption|].
  pose proof (coords_inj _ _ _ _ Xi (C45_positions _ _ _ _ _ _ _ _ _ SD HC V Hm PA)) as E1. pose proof (coords_inj _ _ _ _ Xj (C45_positions _ _ _ _ _ _ _ _ _ SD HC V' Hm' PA')) as E2. congruence.
Qed.
End Plain.

(* ---------------------------------------------------------------- polar coordinates *)
Lemma polar_inj r t r' t' : 0 < r -> 0 < r' -> 0 <= t <= PI / 2 -> 0 <= t' <= PI / 2 ->
  r * cos t = r' * cos t' -> r * sin t = r' * sin t' -> r = r' /\ t = t'.
Proof.
  intros Hr Hr' Ht Ht' E1 E2. pose proof (sin2_cos2 t) as S1. pose proof (sin2_cos2 t') as S2. unfold Rsqr in S1, S2.
  assert (Er : r = r'). { assert (r * r = r' * r') by (transitivity ((r * sin t) * (r * sin t) + (r * cos t) * (r * cos t)); [nra|]; rewrite E1, E2; nra). nra. }
  split; [exact Er|]. subst r'. apply Rmult_eq_reg_l in E1; [|lra]. pose proof PI_RGT_0. apply cos_inj; lra.
Qed.
