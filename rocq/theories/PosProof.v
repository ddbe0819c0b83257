(* The positions of the nodes: different cells agree on the nodes they share. *)
From Coq Require Import String Reals QArith Qreals List Lia Lra Bool Arith ZArith Permutation.
From Verif Require Import Base BaseFacts TopoMaps Kind MeshModel TopoModel ShapesModel ShapesSpec ShapesProof
  GeomModel GeomProof GridModel PadModel PadSpec PadProof PadProof2 PadProof4
  BlockModel BlockSpec BlockProof BlockProof2 BlockProof3 BlockProof4 PosFacts PosSpec.
Import ListNotations.
Local Open Scope list_scope.
Local Open Scope R_scope.

(* ---------------------------------------------------------------- edges of the kinds *)
Definition dir_check (nd : nat) (k ek : geokind) (e d : nat) : bool :=
  let o j a := offset k (edge_node_id k e j) a in
  forallb (fun j => (0 <? o j d)%nat && (o j d <? per k)%nat) (seq 2 (kind_edge_nnode k - 2)) &&
  forallb (fun a => (a =? d)%nat || forallb (fun j => (o j a =? o 0 a)%nat) (seq 0 (kind_edge_nnode k))) (seq 0 nd) &&
  ((o 0 d =? 0)%nat && (o 1 d =? per k)%nat || (o 0 d =? per k)%nat && (o 1 d =? 0)%nat) &&
  forallb (fun s => negb (is_ok_true (on_side nd e s)) || negb (side_axis nd s =? d)%nat && (o 0 (side_axis nd s) =? end_off k (side_high nd s))%nat) (seq 0 (nsides nd)) &&
  forallb (fun s => (side_axis nd s =? d)%nat || negb (o 0 (side_axis nd s) =? end_off k (side_high nd s))%nat || is_ok_true (on_side nd e s)) (seq 0 (nsides nd)) &&
  forallb (fun j => Qeq_bool ((nth 0 (reference_coords ek j) 0 + 1) * inject_Z (Z.of_nat (per k)))%Q
                      (2 * inject_Z (Z.of_nat (if (o 0 d =? 0)%nat then o j d else per k - o j d)))%Q) (seq 2 (kind_edge_nnode k - 2)).
Definition all_dirs (nd : nat) (k : geokind) : bool :=
  match kind_edge_kind k with
  | Some ek => forallb (fun e => existsb (dir_check nd k ek e) (seq 0 nd)) (seq 0 (kind_nedge k))
  | None => false
  end && ((kind_n_interior_nodes k =? 0)%nat || match serendipity k with Some _ => true | None => false end).
Lemma dirs_checked nd k : (nd = 2 \/ nd = 3)%nat -> In k (targets nd) -> all_dirs nd k = true.
Proof.
  intros Hn. assert (H : forallb (all_dirs nd) (targets nd) = true) by (destruct Hn as [-> | ->]; vm_compute; reflexivity).
  rewrite forallb_forall in H. auto.
Qed.
(* the edge runs in direction d *)
Record runs (nd : nat) (k ek : geokind) (e d : nat) : Prop := {
  r_dir : (d < nd)%nat;
  r_mid : forall j, (2 <= j < kind_edge_nnode k)%nat -> (0 < offset k (edge_node_id k e j) d < per k)%nat;
  r_const : forall a j, (a < nd)%nat -> a <> d -> (j < kind_edge_nnode k)%nat -> offset k (edge_node_id k e j) a = offset k (edge_node_id k e 0) a;
  r_ends : (offset k (edge_node_id k e 0) d = 0 /\ offset k (edge_node_id k e 1) d = per k \/ offset k (edge_node_id k e 0) d = per k /\ offset k (edge_node_id k e 1) d = 0)%nat;
  r_on : forall s, (s < nsides nd)%nat -> on_side nd e s = Ok true -> side_axis nd s <> d /\ offset k (edge_node_id k e 0) (side_axis nd s) = end_off k (side_high nd s);
  r_off : forall s, (s < nsides nd)%nat -> side_axis nd s <> d -> offset k (edge_node_id k e 0) (side_axis nd s) = end_off k (side_high nd s) -> on_side nd e s = Ok true;
  r_ref : forall j, (2 <= j < kind_edge_nnode k)%nat -> (1 + nth 0 (ref_coords ek j) 0) / 2 =
    if (offset k (edge_node_id k e 0) d =? 0)%nat then INR (offset k (edge_node_id k e j) d) / INR (per k) else 1 - INR (offset k (edge_node_id k e j) d) / INR (per k) }.
Lemma edge_runs nd k ek e : (nd = 2 \/ nd = 3)%nat -> In k (targets nd) -> kind_edge_kind k = Some ek -> (e < kind_nedge k)%nat -> exists d, runs nd k ek e d.
Proof.
  intros Hn Hk Ek He. pose proof (dirs_checked nd k Hn Hk) as C. unfold all_dirs in C. rewrite Ek in C. apply andb_true_iff in C as [C _]. rewrite forallb_forall in C.
  specialize (C e ltac:(apply in_seq; lia)). apply existsb_exists in C as (d & Hd & C). apply in_seq in Hd. exists d. unfold dir_check in C. rewrite !andb_true_iff in C.
  destruct C as [[[[[C1 C2] C3] C4] C5] C6]. rewrite forallb_forall in C1, C2, C4, C5, C6.
  assert (M : forall j, (2 <= j < kind_edge_nnode k)%nat -> (0 < offset k (edge_node_id k e j) d < per k)%nat).
  { intros j Hj. specialize (C1 j ltac:(apply in_seq; lia)). rewrite andb_true_iff, !Nat.ltb_lt in C1. lia. }
  constructor.
  - lia.
  - exact M.
  - intros a j Ha Hx Hj. specialize (C2 a ltac:(apply in_seq; lia)). rewrite orb_true_iff, Nat.eqb_eq in C2. destruct C2 as [C2|C2]; [contradiction|].
    rewrite forallb_forall in C2. apply Nat.eqb_eq, C2, in_seq. lia.
  - rewrite orb_true_iff, !andb_true_iff, !Nat.eqb_eq in C3. exact C3.
  - intros s Hs E. specialize (C4 s ltac:(apply in_seq; lia)). rewrite E in C4. cbn [is_ok_true negb orb] in C4. rewrite andb_true_iff, negb_true_iff, Nat.eqb_neq, Nat.eqb_eq in C4. exact C4.
  - intros s Hs Hx E. specialize (C5 s ltac:(apply in_seq; lia)). rewrite !orb_true_iff, negb_true_iff, Nat.eqb_eq, Nat.eqb_neq in C5.
    destruct C5 as [[C5|C5]|C5]; [contradiction|contradiction|]. destruct (on_side nd e s) as [[]| | |]; try discriminate. auto.
  - intros j Hj. specialize (C6 j ltac:(apply in_seq; lia)). specialize (M j Hj). apply Qeq_bool_iff, Qeq_eqR in C6. rewrite !Q2R_mult, Q2R_plus, !inject_nat in C6.
    assert (E : Q2R (nth 0 (reference_coords ek j) 0%Q) = nth 0 (ref_coords ek j) 0).
    { unfold ref_coords. rewrite <- (map_nth Q2R). rewrite RMicromega.Q2R_0. reflexivity. }
    rewrite E in C6. rewrite RMicromega.Q2R_1 in C6. replace (Q2R 2) with 2 in C6 by (unfold Q2R; simpl; lra).
    assert (P : 0 < INR (per k)) by (apply lt_0_INR; pose proof (per_pos k); lia).
    apply (Rmult_eq_reg_r (2 * INR (per k))); [|lra].
    destruct (offset k (edge_node_id k e 0) d =? 0)%nat; [|rewrite minus_INR in C6 by lia]; field_simplify; lra.
Qed.
Lemma interior_serendipity nd k i : (nd = 2 \/ nd = 3)%nat -> In k (targets nd) -> (i < kind_n_interior_nodes k)%nat -> exists s, serendipity k = Some s /\ frame_kind k = s.
Proof.
  intros Hn Hk Hi. pose proof (dirs_checked nd k Hn Hk) as C. unfold all_dirs in C. apply andb_true_iff in C as [_ C]. apply orb_true_iff in C as [C|C]; [apply Nat.eqb_eq in C; lia|].
  destruct k; cbn in C |- *; try discriminate; eauto.
Qed.

Section Fin.
Variables (b : block) (target edge_kind : geokind).
Hypothesis W : wf_block b.
Hypothesis F : In target (targets (b_ndim b)).
Hypothesis Sp : spaced b target.
Hypothesis Ek : kind_edge_kind target = Some edge_kind.
Notation nd := (b_ndim b).
Notation nn := (kind_nnode target).
Notation ksi := (node_ksi b target).
Notation N := (per target).
Notation en := (edge_node_id target).
Notation settled := (settled nd (block_map b) (con_of b) (projects b)).
Notation free := (free nd (con_of b)).
Notation pulled := (pulled nd (block_map b) (con_of b) (projects b)).
Notation frac := (frac nd target).
Notation edge_node_at := (edge_node_at nd (block_map b) (con_of b) (projects b) target).
Notation frame_at := (frame_at nd (block_map b) (con_of b) (projects b) target).
Notation inside_at := (inside_at nd (block_map b) (con_of b) (projects b) target).

Lemma en_lt e j : (e < kind_nedge target)%nat -> (j < kind_edge_nnode target)%nat -> (en e j < nn)%nat.
Proof. intros He Hj. destruct (edge_facts nd target (w_nd b W) F e He) as (E1 & _). auto. Qed.
Lemma ends_lt : (2 <= kind_edge_nnode target)%nat.
Proof. rewrite (per_edge nd target (w_nd b W) F). pose proof (per_pos target). lia. Qed.
Lemma end_corner e a : (e < kind_nedge target)%nat -> (a < nd)%nat -> offset target (en e 0) a = 0%nat \/ offset target (en e 0) a = N.
Proof. intros He Ha. destruct (edge_facts nd target (w_nd b W) F e He) as (_ & E2 & _). apply (corner_offset nd target (w_nd b W) F); auto. Qed.
Lemma ref_eq m a : (m < nn)%nat -> (a < nd)%nat -> nth a (ref_coords target m) 0 = 2 * (INR (offset target m a) / INR N) - 1.
Proof. intros Hm Ha. pose proof (proj1 (ref_offset nd target m a (w_nd b W) F Hm Ha)). lra. Qed.

(* the fraction *)
Definition param (e d j : nat) : R := if (offset target (en e 0) d =? 0)%nat then INR (offset target (en e j) d) / INR N else 1 - INR (offset target (en e j) d) / INR N.
Lemma per_INR : 0 < INR N. Proof. apply lt_0_INR. pose proof (per_pos target). lia. Qed.
Lemma frac_iff e d j t : (e < kind_nedge target)%nat -> (2 <= j < kind_edge_nnode target)%nat -> runs nd target edge_kind e d -> (frac e j t <-> t = param e d j).
Proof.
  intros He Hj Rn. pose proof ends_lt as E2. pose proof per_INR as P. pose proof (r_dir _ _ _ _ _ Rn) as Hd.
  assert (M0 := en_lt e 0 He ltac:(lia)). assert (M1 := en_lt e 1 He ltac:(lia)). assert (Mj := en_lt e j He ltac:(lia)).
  unfold frac. split.
  - intros H. specialize (H d Hd). rewrite !ref_eq in H by auto. unfold param.
    destruct (r_ends _ _ _ _ _ Rn) as [[Q0 Q1]|[Q0 Q1]]; rewrite Q0, Q1 in *.
    + cbn [Nat.eqb]. replace (INR N / INR N) with 1 in H by (field; lra). replace (INR 0 / INR N) with 0 in H by (cbn; field; lra). lra.
    + destruct (Nat.eqb_spec N 0) as [Q|_]; [pose proof (per_pos target); lia|]. replace (INR N / INR N) with 1 in H by (field; lra). replace (INR 0 / INR N) with 0 in H by (cbn; field; lra). lra.
  - intros -> a Ha. rewrite !ref_eq by auto. destruct (Nat.eq_dec a d) as [->|Na].
    + unfold param. destruct (r_ends _ _ _ _ _ Rn) as [[Q0 Q1]|[Q0 Q1]]; rewrite Q0, Q1 in *.
      * cbn [Nat.eqb]. replace (INR N / INR N) with 1 by (field; lra). replace (INR 0 / INR N) with 0 by (cbn; field; lra). lra.
      * destruct (Nat.eqb_spec N 0) as [Q|_]; [pose proof (per_pos target); lia|]. replace (INR N / INR N) with 1 by (field; lra). replace (INR 0 / INR N) with 0 by (cbn; field; lra). lra.
    + rewrite (r_const _ _ _ _ _ Rn a j), (r_const _ _ _ _ _ Rn a 1) by (auto; lia). lra.
Qed.

Lemma lattice_axis idx m idx' m' a : valid_index b idx -> valid_index b idx' -> (m < nn)%nat -> (m' < nn)%nat -> ksi idx m = ksi idx' m' -> (a < nd)%nat ->
  (N * nth a idx 0 + offset target m a = N * nth a idx' 0 + offset target m' a)%nat.
Proof.
  intros V V' Hm Hm' E Ha. apply (ksi_iff b target W F Sp) in E; auto. destruct V as [L _], V' as [L' _].
  rewrite <- !(nth_lattice target) by lia. congruence.
Qed.
Lemma ksi_axes idx m idx' m' : valid_index b idx -> valid_index b idx' -> (m < nn)%nat -> (m' < nn)%nat ->
  (forall a, (a < nd)%nat -> (N * nth a idx 0 + offset target m a = N * nth a idx' 0 + offset target m' a)%nat) -> ksi idx m = ksi idx' m'.
Proof.
  intros V V' Hm Hm' H. apply (ksi_iff b target W F Sp); auto. destruct V as [L _], V' as [L' _].
  apply nth_ext with (d := 0%nat) (d' := 0%nat); [unfold lattice; rewrite !map_length, !seq_length; congruence|].
  intros a Ha. unfold lattice in Ha. rewrite map_length, seq_length, L in Ha. rewrite !nth_lattice by lia. auto.
Qed.
Lemma strict_same i o i' o' : (0 < o < N)%nat -> (o' <= N)%nat -> (N * i + o = N * i' + o')%nat -> i = i' /\ o = o'.
Proof. intros H H' E. assert (i = i') by (destruct (lt_eq_lt_dec i i') as [[Q|Q]|Q]; nia). subst i'. lia. Qed.

Lemma edge_match idx e j idx' e' j' : valid_index b idx -> valid_index b idx' -> (e < kind_nedge target)%nat -> (e' < kind_nedge target)%nat ->
  (2 <= j < kind_edge_nnode target)%nat -> (2 <= j' < kind_edge_nnode target)%nat -> ksi idx (en e j) = ksi idx' (en e' j') ->
  (ksi idx (en e 0) = ksi idx' (en e' 0) /\ ksi idx (en e 1) = ksi idx' (en e' 1) /\ forall t, frac e j t -> frac e' j' t) \/
  (ksi idx (en e 0) = ksi idx' (en e' 1) /\ ksi idx (en e 1) = ksi idx' (en e' 0) /\ forall t, frac e j t -> frac e' j' (1 - t)).
Proof.
  intros V V' He He' Hj Hj' E. destruct (edge_runs nd target edge_kind e (w_nd b W) F Ek He) as (d & Rn). destruct (edge_runs nd target edge_kind e' (w_nd b W) F Ek He') as (d' & Rn').
  pose proof ends_lt as E2. pose proof (r_dir _ _ _ _ _ Rn) as Hd. pose proof (r_dir _ _ _ _ _ Rn') as Hd'. pose proof (per_pos target) as Np.
  assert (Mj := en_lt e j He ltac:(lia)). assert (Mj' := en_lt e' j' He' ltac:(lia)).
  assert (La := fun a => lattice_axis idx (en e j) idx' (en e' j') a V V' Mj Mj' E).
  assert (d' = d).
  { destruct (Nat.eq_dec d' d) as [Q|Q]; auto. exfalso. specialize (La d Hd). rewrite (r_const _ _ _ _ _ Rn' d j') in La by (auto; lia).
    pose proof (r_mid _ _ _ _ _ Rn j Hj). destruct (end_corner e' d He' Hd) as [Z|Z]; rewrite Z in La; destruct (lt_eq_lt_dec (nth d idx 0%nat) (nth d idx' 0%nat)) as [[Y|Y]|Y]; nia. }
  subst d'. pose proof (r_mid _ _ _ _ _ Rn j Hj) as O. pose proof (r_mid _ _ _ _ _ Rn' j' Hj') as O'.
  destruct (strict_same _ _ _ _ O (Nat.lt_le_incl _ _ (proj2 O')) (La d Hd)) as [Ei Eo].
  assert (Other : forall a u u', (a < nd)%nat -> a <> d -> (u < kind_edge_nnode target)%nat -> (u' < kind_edge_nnode target)%nat ->
    (N * nth a idx 0 + offset target (en e u) a = N * nth a idx' 0 + offset target (en e' u') a)%nat).
  { intros a u u' Ha Na Hu Hu'. rewrite (r_const _ _ _ _ _ Rn a u), (r_const _ _ _ _ _ Rn' a u') by auto. specialize (La a Ha).
    rewrite (r_const _ _ _ _ _ Rn a j), (r_const _ _ _ _ _ Rn' a j') in La by (auto; lia). exact La. }
  assert (Ends : forall u u', (u < 2)%nat -> (u' < 2)%nat -> offset target (en e u) d = offset target (en e' u') d -> ksi idx (en e u) = ksi idx' (en e' u')).
  { intros u u' Hu Hu' Q. apply ksi_axes; auto; try (apply en_lt; auto; lia). intros a Ha. destruct (Nat.eq_dec a d) as [->|Na]; [rewrite Ei, Q; reflexivity|apply Other; auto; lia]. }
  destruct (r_ends _ _ _ _ _ Rn) as [[Q0 Q1]|[Q0 Q1]], (r_ends _ _ _ _ _ Rn') as [[Q0' Q1']|[Q0' Q1']].
  - left. split; [apply Ends; lia|]. split; [apply Ends; lia|]. intros t. rewrite (frac_iff e d j), (frac_iff e' d j') by auto. unfold param. rewrite Q0, Q0', Eo. auto.
  - right. split; [apply Ends; lia|]. split; [apply Ends; lia|]. intros t. rewrite (frac_iff e d j), (frac_iff e' d j') by auto. unfold param. rewrite Q0, Q0', Eo.
    cbn [Nat.eqb]. destruct (Nat.eqb_spec N 0) as [Q|_]; [lia|]. intros ->. lra.
  - right. split; [apply Ends; lia|]. split; [apply Ends; lia|]. intros t. rewrite (frac_iff e d j), (frac_iff e' d j') by auto. unfold param. rewrite Q0, Q0', Eo.
    cbn [Nat.eqb]. destruct (Nat.eqb_spec N 0) as [Q|_]; [lia|]. intros ->. lra.
  - left. split; [apply Ends; lia|]. split; [apply Ends; lia|]. intros t. rewrite (frac_iff e d j), (frac_iff e' d j') by auto. unfold param. rewrite Q0, Q0', Eo. auto.
Qed.
Lemma pulled_swap x0 x1 : pulled x0 x1 -> pulled x1 x0.
Proof. intros (s & x & C & X & A & Nb & M). exists s, x. split; auto. split; [tauto|]. split; auto. split; [tauto|auto]. Qed.
Lemma between_swap t y0 y1 y : between nd t y0 y1 y -> between nd (1 - t) y1 y0 y.
Proof. intros [L H]. split; auto. intros i Hi. rewrite (H i Hi). ring. Qed.
Lemma edge_node_at_match idx e j idx' e' j' y : valid_index b idx -> valid_index b idx' -> (e < kind_nedge target)%nat -> (e' < kind_nedge target)%nat ->
  (2 <= j < kind_edge_nnode target)%nat -> (2 <= j' < kind_edge_nnode target)%nat -> ksi idx (en e j) = ksi idx' (en e' j') ->
  edge_node_at (ksi idx) e j y -> edge_node_at (ksi idx') e' j' y.
Proof.
  intros V V' He He' Hj Hj' E (A & B & C). pose proof (edge_match idx e j idx' e' j' V V' He He' Hj Hj' E) as M. rewrite E in A, B, C. split; [exact A|]. split.
  - intros Fz Pl. destruct M as [(M0 & M1 & Mt)|(M0 & M1 & Mt)].
    + rewrite M0, M1 in B. destruct (B Fz Pl) as (t & y0 & y1 & T & S0 & S1 & Bt). exists t, y0, y1. auto.
    + rewrite M0, M1 in B. destruct (B Fz (pulled_swap _ _ Pl)) as (t & y0 & y1 & T & S0 & S1 & Bt). exists (1 - t), y1, y0. auto using between_swap.
  - intros Fz Pl. apply C; auto. destruct M as [(M0 & M1 & Mt)|(M0 & M1 & Mt)]; rewrite M0, M1; auto. intros Q. apply Pl, pulled_swap, Q.
Qed.

(* the final position of a point with these reference coordinates *)
Definition fin (z y : list R) : Prop := forall idx m, valid_index b idx -> (m < nn)%nat -> z = ksi idx m -> final_at b target idx m y.
Definition strict (m : nat) : Prop := exists d, (d < nd)%nat /\ (0 < offset target m d < N)%nat.
Lemma edge_strict e j : (e < kind_nedge target)%nat -> (2 <= j < kind_edge_nnode target)%nat -> strict (en e j).
Proof. intros He Hj. destruct (edge_runs nd target edge_kind e (w_nd b W) F Ek He) as (d & Rn). exists d. split; [apply Rn|apply Rn; auto]. Qed.
Lemma inside_strict i : (i < kind_n_interior_nodes target)%nat -> strict (interior_node target i).
Proof. intros Hi. destruct (interior_facts nd target (w_nd b W) F i Hi) as (M & O). exists 0%nat. assert (0 < nd)%nat by (destruct (w_nd b W); lia). auto. Qed.
Lemma edge_not_inside idx e j idx' i : valid_index b idx -> valid_index b idx' -> (e < kind_nedge target)%nat -> (2 <= j < kind_edge_nnode target)%nat -> (i < kind_n_interior_nodes target)%nat ->
  ksi idx (en e j) = ksi idx' (interior_node target i) -> False.
Proof.
  intros V V' He Hj Hi E. destruct (edge_runs nd target edge_kind e (w_nd b W) F Ek He) as (d & Rn). destruct (interior_facts nd target (w_nd b W) F i Hi) as (M & O).
  assert (exists a, (a < nd)%nat /\ a <> d) as (a & Ha & Na). { exists (if (d =? 0)%nat then 1%nat else 0%nat). destruct (Nat.eqb_spec d 0), (w_nd b W); lia. }
  pose proof (lattice_axis idx (en e j) idx' _ a V V' (en_lt e j He ltac:(lia)) M E Ha) as L. rewrite (r_const _ _ _ _ _ Rn a j) in L by (auto; lia).
  specialize (O a Ha). destruct (end_corner e a He Ha) as [Z|Z]; rewrite Z in L; destruct (lt_eq_lt_dec (nth a idx 0%nat) (nth a idx' 0%nat)) as [[Y|Y]|Y]; nia.
Qed.
Lemma corner_clash idx m idx' m' : valid_index b idx -> valid_index b idx' -> (m < nn)%nat -> strict m -> (m' < corners nd)%nat -> ksi idx m = ksi idx' m' -> False.
Proof. intros V V' Hm St Hm' E. apply (not_corner b target W F Sp idx m V Hm St). exists idx', m'. auto. Qed.
Lemma fin_corner idx m y : valid_index b idx -> (m < corners nd)%nat -> settled (ksi idx m) y -> fin (ksi idx m) y.
Proof.
  intros V Hm Se idx' m' V' Hm' E. split; [split|].
  - intros _. rewrite <- E. exact Se.
  - intros e j He Hj ->. exfalso. symmetry in E. apply (corner_clash idx' (en e j) idx m); auto. apply edge_strict; auto.
  - intros i Hi ->. exfalso. symmetry in E. apply (corner_clash idx' (interior_node target i) idx m); auto. apply inside_strict; auto.
Qed.
Lemma fin_edge idx e j y : valid_index b idx -> (e < kind_nedge target)%nat -> (2 <= j < kind_edge_nnode target)%nat -> edge_node_at (ksi idx) e j y -> fin (ksi idx (en e j)) y.
Proof.
  intros V He Hj A idx' m' V' Hm' E. split; [split|].
  - intros Hc. exfalso. apply (corner_clash idx (en e j) idx' m'); auto; [apply en_lt; auto; lia|apply edge_strict; auto].
  - intros e' j' He' Hj' ->. apply (edge_node_at_match idx e j); auto.
  - intros i Hi ->. exfalso. apply (edge_not_inside idx e j idx' i); auto.
Qed.
Lemma fin_inside idx i y : valid_index b idx -> (i < kind_n_interior_nodes target)%nat -> inside_at (ksi idx) (interior_node target i) y -> fin (ksi idx (interior_node target i)) y.
Proof.
  intros V Hi A idx' m' V' Hm' E. destruct (interior_facts nd target (w_nd b W) F i Hi) as (M & O). split; [split|].
  - intros Hc. exfalso. apply (corner_clash idx (interior_node target i) idx' m'); auto. apply inside_strict; auto.
  - intros e' j' He' Hj' ->. exfalso. symmetry in E. apply (edge_not_inside idx' e' j' idx i); auto.
  - intros i' Hi' ->. destruct (interior_facts nd target (w_nd b W) F i' Hi') as (M' & O').
    assert (Q : forall a, (a < nd)%nat -> nth a idx 0%nat = nth a idx' 0%nat /\ offset target (interior_node target i) a = offset target (interior_node target i') a).
    { intros a Ha. apply strict_same; [apply O; auto|pose proof (O' a Ha); lia|apply (lattice_axis idx _ idx'); auto]. }
    assert (idx' = idx) as ->.
    { destruct V as [L _], V' as [L' _]. apply nth_ext with (d := 0%nat) (d' := 0%nat); [congruence|]. intros a Ha. symmetry. apply Q. lia. }
    assert (Er : ref_coords target (interior_node target i) = ref_coords target (interior_node target i')).
    { apply nth_ext with (d := 0) (d' := 0); rewrite ?(ref_length nd target _ (w_nd b W) F M), ?(ref_length nd target _ (w_nd b W) F M'); auto.
      intros a Ha. rewrite !ref_eq by auto. rewrite (proj2 (Q a Ha)). reflexivity. }
    unfold PosSpec.inside_at in A |- *. rewrite <- Er, <- E. exact A.
Qed.

(* a new point *)
Lemma con_dec s : {con_of b s} + {~ con_of b s}.
Proof.
  unfold con_of, constrained. destruct (lt_dec s (nsides nd)) as [L|L]; [|right; tauto]. destruct (nd =? 2)%nat.
  - destruct (mget Nat.eqb (b_ec b) s); [left; split; [auto|discriminate]|right; tauto].
  - destruct (mget Nat.eqb (b_fc b) s); [left; split; [auto|discriminate]|right; tauto].
Qed.
Lemma free_or x : (exists s, con_of b s /\ at_side nd s x) \/ free x.
Proof.
  assert (G : forall n, (exists s, con_of b s /\ at_side nd s x) \/ forall s, (s < n)%nat -> con_of b s -> ~ at_side nd s x).
  { induction n as [|n [IH|IH]]; [right; intros; lia|left; auto|]. destruct (con_dec n) as [C|C].
    - destruct (Req_EM_T (nth (side_axis nd n) x 0) (side_end nd n)) as [Q|Q]; [left; exists n; auto|]. right. intros s Hs Cs A.
      destruct (Nat.eq_dec s n) as [->|Nn]; [apply Q, A|]. apply (IH s); auto. lia.
    - right. intros s Hs Cs. destruct (Nat.eq_dec s n) as [->|Nn]; [contradiction|]. apply IH; auto. lia. }
  destruct (G (nsides nd)) as [H|H]; [left; auto|right]. intros s C. apply H; auto. apply C.
Qed.
Lemma place_settled idx m o y : b_ring b = false -> valid_index b idx -> (m < nn)%nat -> place b (ksi idx m) = Ok (o, y) -> settled (ksi idx m) y.
Proof.
  intros Rg V Hm E. pose proof (place_spec b (ksi idx m) W (node_ksi_length b target idx m) (node_clear b target W F Sp idx m V Hm)) as Q. rewrite E in Q. destruct Q as [_ Q]. cbn [fst snd] in Q.
  destruct o as [s|].
  - destruct Q as (_ & Hs & Cs & A & _ & _ & P & _). left. exists s. split; [split; auto|auto].
  - destruct Q as [-> Q]. destruct (free_or (ksi idx m)) as [(s & C & A)|Fr]; [|right; auto]. left. exists s. split; auto. split; auto. apply (Q Rg s (proj1 C) A).
Qed.
Lemma place_free idx m o y : b_ring b = false -> valid_index b idx -> (m < nn)%nat -> place b (ksi idx m) = Ok (o, y) -> free (ksi idx m) -> y = block_map b (ksi idx m).
Proof. intros Rg V Hm E Fr. destruct (place_settled idx m o y Rg V Hm E) as [(s & C & A & _)|[_ Q]]; [|exact Q]. exfalso. apply (Fr s C A). Qed.
(* a point that a constraint really moves *)
Lemma place_moved idx m s o y : b_ring b = false -> apart b -> valid_index b idx -> (m < nn)%nat -> place b (ksi idx m) = Ok (o, y) ->
  con_of b s -> at_side nd s (ksi idx m) -> ~ projects b s (block_map b (ksi idx m)) (block_map b (ksi idx m)) -> o = Some s.
Proof.
  intros Rg Ap V Hm E C A Np. pose proof (place_spec b (ksi idx m) W (node_ksi_length b target idx m) (node_clear b target W F Sp idx m V Hm)) as Q. rewrite E in Q. destruct Q as [_ Q]. cbn [fst snd] in Q.
  destruct o as [s'|].
  - destruct Q as (_ & Hs & Cs & A' & _). f_equal. destruct (Nat.eq_dec s' s) as [X|X]; auto. exfalso. destruct C as [Hs' Cs'].
    pose proof (Ap s' s Hs Hs' Cs Cs' X) as Y. pose proof (same_axis b W s' s Hs Hs' X Y) as Z. unfold at_side in A, A'. rewrite Y in A'. rewrite A in A'.
    rewrite !side_end_eq in A' by (auto; apply W). destruct (side_high nd s), (side_high nd s'); try congruence; lra.
  - destruct Q as [-> Q]. exfalso. apply Np. apply (Q Rg s (proj1 C) A).
Qed.
(* the sides that contain an edge *)
Lemma edge_on_side idx e s u : valid_index b idx -> (e < kind_nedge target)%nat -> (s < nsides nd)%nat -> (u < kind_edge_nnode target)%nat -> at_side nd s (ksi idx (en e u)) ->
  (on_side nd e s = Ok true <-> at_side nd s (ksi idx (en e 0)) /\ at_side nd s (ksi idx (en e 1))).
Proof.
  intros V He Hs Hu A. destruct (edge_runs nd target edge_kind e (w_nd b W) F Ek He) as (d & Rn). pose proof ends_lt as E2. pose proof (per_pos target).
  pose proof (side_axis_lt nd s (w_nd b W) Hs) as Ha.
  rewrite (at_side_node b target W F Sp) in A |- * by (auto; apply en_lt; auto; lia). rewrite (at_side_node b target W F Sp) by (auto; apply en_lt; auto; lia).
  destruct A as [A1 A2]. split.
  - intros O. destruct (r_on _ _ _ _ _ Rn s Hs O) as [X Y]. rewrite (r_const _ _ _ _ _ Rn _ 1) by (auto; lia). auto.
  - intros [[_ B0] [_ B1]]. apply (r_off _ _ _ _ _ Rn s Hs); auto. intros Q. rewrite Q in B0, B1. destruct (r_ends _ _ _ _ _ Rn) as [[Q0 Q1]|[Q0 Q1]]; rewrite Q0 in B0; rewrite Q1 in B1; lia.
Qed.
End Fin.
