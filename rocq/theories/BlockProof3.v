(* The nodes of the cells of a block: positions in the reference space. *)
From Coq Require Import String Reals QArith Qreals Qround List Lia Lra Bool Arith ZArith.
From Verif Require Import Base BaseFacts TopoMaps Kind MeshModel TopoModel ShapesModel ShapesSpec ShapesProof
  GeomModel GeomProof PadModel PadSpec PadProof BlockModel BlockSpec BlockProof BlockProof2.
Import ListNotations.
Local Open Scope list_scope.
Local Open Scope R_scope.

(* ---------------------------------------------------------------- the kinds *)
Definition targets (nd : nat) : list geokind := if (nd =? 2)%nat then [Qua4; Qua8; Qua9; Qua12; Qua16; Qua17] else [Hex8; Hex20; Hex32].
Lemma fits_in b k : (b_ndim b = 2 \/ b_ndim b = 3)%nat -> (fits b k <-> In k (targets (b_ndim b))).
Proof.
  intros W. unfold fits, targets. destruct W as [-> | ->]; cbn [Nat.eqb]; destruct k; simpl;
    (split; [intros H; try discriminate; tauto|intros H; try reflexivity; repeat (destruct H as [H|H]; [discriminate|]); destruct H]).
Qed.
Lemma target_ndim nd k : (nd = 2 \/ nd = 3)%nat -> In k (targets nd) -> kind_ndim k = nd.
Proof. intros [-> | ->] H; simpl in H; repeat (destruct H as [<- |H]; [reflexivity|]); destruct H. Qed.
Lemma per_pos k : (1 <= per k)%nat. Proof. destruct k; simpl; lia. Qed.
Lemma per_edge nd k : (nd = 2 \/ nd = 3)%nat -> In k (targets nd) -> kind_edge_nnode k = S (per k).
Proof. intros [-> | ->] H; simpl in H; repeat (destruct H as [<- |H]; [reflexivity|]); destruct H. Qed.

Definition offset_check (k : geokind) : bool :=
  forallb (fun m => (List.length (reference_coords k m) =? kind_ndim k)%nat && forallb (fun a =>
    Qeq_bool ((nth a (reference_coords k m) 0 + 1) * inject_Z (Z.of_nat (per k)))%Q (2 * inject_Z (Z.of_nat (offset k m a)))%Q
    && (offset k m a <=? per k)%nat) (seq 0 (kind_ndim k))) (seq 0 (kind_nnode k)).
Lemma offset_checked : forallb offset_check (targets 2 ++ targets 3) = true.
Proof. vm_compute. reflexivity. Qed.
Lemma offset_target nd k : (nd = 2 \/ nd = 3)%nat -> In k (targets nd) -> offset_check k = true.
Proof.
  intros Hn H. pose proof offset_checked as C. rewrite forallb_forall in C. apply C, in_app_iff. destruct Hn as [-> | ->]; auto.
Qed.
Lemma inject_nat n : Q2R (inject_Z (Z.of_nat n)) = INR n.
Proof. unfold Q2R, inject_Z. cbn [Qnum Qden]. rewrite <- INR_IZR_INZ. field. Qed.
Lemma ref_offset nd k m a : (nd = 2 \/ nd = 3)%nat -> In k (targets nd) -> (m < kind_nnode k)%nat -> (a < nd)%nat ->
  (1 + nth a (ref_coords k m) 0) / 2 = INR (offset k m a) / INR (per k) /\ (offset k m a <= per k)%nat.
Proof.
  intros Hn Hk Hm Ha. pose proof (offset_target nd k Hn Hk) as C. unfold offset_check in C. rewrite forallb_forall in C.
  specialize (C m). rewrite in_seq in C. specialize (C ltac:(lia)). apply andb_true_iff in C as [_ C].
  rewrite forallb_forall in C. specialize (C a). rewrite in_seq, (target_ndim nd k) in C by auto. specialize (C ltac:(lia)).
  apply andb_true_iff in C as [C1 C2]. apply Nat.leb_le in C2. split; [|exact C2].
  apply Qeq_bool_iff, Qeq_eqR in C1. rewrite !Q2R_mult, Q2R_plus, !inject_nat in C1.
  assert (E : Q2R (nth a (reference_coords k m) 0%Q) = nth a (ref_coords k m) 0).
  { unfold ref_coords. rewrite <- (map_nth Q2R). rewrite RMicromega.Q2R_0. reflexivity. }
  rewrite E in C1. rewrite RMicromega.Q2R_1 in C1. replace (Q2R 2) with 2 in C1 by (unfold Q2R; simpl; lra).
  assert (P : 0 < INR (per k)) by (apply lt_0_INR; pose proof (per_pos k); lia).
  apply (Rmult_eq_reg_r (2 * INR (per k))); [|lra]. field_simplify; lra.
Qed.
Lemma ref_length nd k m : (nd = 2 \/ nd = 3)%nat -> In k (targets nd) -> (m < kind_nnode k)%nat -> List.length (ref_coords k m) = nd.
Proof.
  intros Hn Hk Hm. pose proof (offset_target nd k Hn Hk) as C. unfold offset_check in C. rewrite forallb_forall in C.
  specialize (C m). rewrite in_seq in C. specialize (C ltac:(lia)). apply andb_true_iff in C as [C _]. apply Nat.eqb_eq in C.
  unfold ref_coords. rewrite map_length, C. apply target_ndim; auto.
Qed.

(* ---------------------------------------------------------------- one direction *)
Lemma line_S ds i : (i < List.length ds)%nat -> line ds (S i) = line ds i + nth i ds 0.
Proof.
  intros H. unfold line. assert (E : firstn (S i) ds = firstn i ds ++ [nth i ds 0]).
  { revert i H. induction ds as [|d ds IH]; intros i H; [simpl in H; lia|]. destruct i as [|i]; [reflexivity|].
    simpl in H. simpl. f_equal. apply IH. lia. }
  rewrite E, sum_app. simpl. lra.
Qed.
Lemma line_0 ds : line ds 0 = -1. Proof. unfold line. simpl. lra. Qed.
Lemma line_end ds : sum ds = 2 -> line ds (List.length ds) = 1.
Proof. intros H. unfold line. rewrite firstn_all, H. lra. Qed.
Lemma line_mono ds e : (forall d, In d ds -> e < d) -> 0 <= e -> forall j i, (i <= j <= List.length ds)%nat ->
  line ds i + INR (j - i) * e <= line ds j.
Proof.
  intros Hd He j. induction j as [|j IH]; intros i Hi.
  - replace i with 0%nat by lia. simpl. lra.
  - destruct (Nat.eq_dec i (S j)) as [->|N]; [rewrite Nat.sub_diag; simpl; lra|].
    specialize (IH i ltac:(lia)). rewrite line_S by lia. replace (S j - i)%nat with (S (j - i)) by lia. rewrite S_INR.
    specialize (Hd (nth j ds 0) ltac:(apply nth_In; lia)). lra.
Qed.
Lemma line_strict ds e : (forall d, In d ds -> e < d) -> 0 <= e -> forall j i, (i < j <= List.length ds)%nat -> line ds i + e < line ds j.
Proof.
  intros Hd He j i Hi. pose proof (line_mono ds e Hd He j (S i) ltac:(lia)) as M. rewrite line_S in M by lia.
  specialize (Hd (nth i ds 0) ltac:(apply nth_In; lia)).
  assert (0 <= INR (j - S i) * e) by (apply Rmult_le_pos; [apply pos_INR|auto]). lra.
Qed.

(* position o / n within division i *)
Definition grid_pos (ds : list R) (n i o : nat) : R := line ds i + nth i ds 0 * (INR o / INR n).
Section OneDirection.
Variables (ds : list R) (n : nat) (t : R).
Hypothesis Hn : (1 <= n)%nat.
Hypothesis Ht : 0 <= t.
Hypothesis Hd : forall d, In d ds -> INR n * t < d.
Let Pn : 1 <= INR n. Proof. apply (le_INR 1); auto. Qed.
Let Pnt : 0 <= INR n * t. Proof. apply Rmult_le_pos; lra. Qed.
Let dpos i : (i < List.length ds)%nat -> INR n * t < nth i ds 0. Proof. intros H. apply Hd, nth_In, H. Qed.
Lemma pos_low i o : (i < List.length ds)%nat -> (o <= n)%nat -> line ds i <= grid_pos ds n i o <= line ds (S i).
Proof.
  intros Hi Ho. unfold grid_pos. rewrite line_S by auto. specialize (dpos i Hi).
  assert (0 <= INR o / INR n <= 1) as [A B].
  { split; [apply Rmult_le_pos; [apply pos_INR|left; apply Rinv_0_lt_compat; lra]|].
    apply Rmult_le_reg_r with (INR n); [lra|]. unfold Rdiv. rewrite Rmult_assoc, Rinv_l, Rmult_1_r, Rmult_1_l by lra. apply le_INR; auto. }
  assert (0 <= nth i ds 0) by lra. split; [nra|]. assert (nth i ds 0 * (INR o / INR n) <= nth i ds 0 * 1) by (apply Rmult_le_compat_l; auto). lra.
Qed.
Lemma pos_step i o o' : (i < List.length ds)%nat -> (o < o')%nat -> grid_pos ds n i o + t < grid_pos ds n i o'.
Proof.
  intros Hi Ho. unfold grid_pos. specialize (dpos i Hi). assert (INR o + 1 <= INR o') by (rewrite <- S_INR; apply le_INR; lia).
  set (d := nth i ds 0) in *. assert (A : t < d / INR n). { apply Rmult_lt_reg_r with (INR n); [lra|]. unfold Rdiv. rewrite Rmult_assoc, Rinv_l, Rmult_1_r by lra. lra. }
  replace (d * (INR o / INR n)) with ((d / INR n) * INR o) by (field; lra). replace (d * (INR o' / INR n)) with ((d / INR n) * INR o') by (field; lra).
  assert (d / INR n * (INR o + 1) <= d / INR n * INR o') by (apply Rmult_le_compat_l; lra). lra.
Qed.
Lemma pos_full i : (i < List.length ds)%nat -> grid_pos ds n i n = line ds (S i).
Proof. intros H. unfold grid_pos. rewrite line_S by auto. field. lra. Qed.
Lemma pos_zero i : grid_pos ds n i 0 = line ds i.
Proof. unfold grid_pos. simpl. field. lra. Qed.
Lemma pos_lt i o i' o' : (i < List.length ds)%nat -> (i' < List.length ds)%nat -> (o <= n)%nat -> (o' <= n)%nat ->
  (n * i + o < n * i' + o')%nat -> grid_pos ds n i o + t < grid_pos ds n i' o'.
Proof.
  intros Hi Hi' Ho Ho' H. destruct (lt_eq_lt_dec i i') as [[L|E]|G].
  - destruct (pos_low i o Hi Ho) as [_ B]. destruct (pos_low i' o' Hi' Ho') as [A _].
    assert (M : line ds (S i) <= line ds i').
    { pose proof (line_mono ds (INR n * t) Hd Pnt i' (S i) ltac:(lia)). assert (0 <= INR (i' - S i) * (INR n * t)) by (apply Rmult_le_pos; [apply pos_INR|auto]). lra. }
    destruct (Nat.eq_dec o n) as [->|N1].
    + destruct (Nat.eq_dec o' 0) as [->|N2].
      * assert (S i < i')%nat by nia. pose proof (line_strict ds (INR n * t) Hd Pnt i' (S i) ltac:(lia)).
        assert (t <= INR n * t) by (assert (1 * t <= INR n * t) by (apply Rmult_le_compat_r; lra); lra). lra.
      * pose proof (pos_step i' 0 o' Hi' ltac:(lia)). rewrite pos_zero in *. lra.
    + pose proof (pos_step i o n Hi ltac:(lia)). rewrite pos_full in * by auto. lra.
  - subst i'. apply pos_step; auto. lia.
  - exfalso. nia.
Qed.
Lemma pos_eq i o i' o' : (i < List.length ds)%nat -> (i' < List.length ds)%nat -> (o <= n)%nat -> (o' <= n)%nat ->
  (n * i + o = n * i' + o')%nat -> grid_pos ds n i o = grid_pos ds n i' o'.
Proof.
  assert (G : forall i o i' o', (i < List.length ds)%nat -> (i' < List.length ds)%nat -> (o <= n)%nat -> (o' <= n)%nat ->
    (n * i + o = n * i' + o')%nat -> (i < i')%nat -> grid_pos ds n i o = grid_pos ds n i' o').
  { intros a c a' c' Ha Ha' Hc Hc' E L. assert (a' = S a) by nia. subst a'. assert (c = n /\ c' = 0)%nat as [-> ->] by nia.
    rewrite pos_full, pos_zero by auto. reflexivity. }
  intros Hi Hi' Ho Ho' E. destruct (lt_eq_lt_dec i i') as [[L|L]|L]; [apply G; auto| |symmetry; apply G; auto; lia].
  subst i'. f_equal. lia.
Qed.
Lemma pos_box i o : sum ds = 2 -> (i < List.length ds)%nat -> (o <= n)%nat -> -1 <= grid_pos ds n i o <= 1.
Proof.
  intros S2 Hi Ho. destruct (pos_low i o Hi Ho) as [A B]. pose proof (line_mono ds (INR n * t) Hd Pnt i 0 ltac:(lia)) as M1.
  pose proof (line_mono ds (INR n * t) Hd Pnt (List.length ds) (S i) ltac:(lia)) as M2. rewrite line_0 in M1. rewrite line_end in M2 by auto.
  assert (0 <= INR (i - 0) * (INR n * t)) by (apply Rmult_le_pos; [apply pos_INR|auto]).
  assert (0 <= INR (List.length ds - S i) * (INR n * t)) by (apply Rmult_le_pos; [apply pos_INR|auto]). lra.
Qed.
(* the ends *)
Lemma pos_first i o : (i < List.length ds)%nat -> (o <= n)%nat -> (i = 0 /\ o = 0)%nat \/ -1 + t < grid_pos ds n i o.
Proof.
  intros Hi Ho. destruct (Nat.eq_dec (n * i + o) 0) as [E|E]; [left; nia|right].
  replace (-1) with (grid_pos ds n 0 0) by (rewrite pos_zero, line_0; reflexivity). apply pos_lt; lia.
Qed.
Lemma pos_last i o : sum ds = 2 -> (i < List.length ds)%nat -> (o <= n)%nat ->
  (i = List.length ds - 1 /\ o = n)%nat \/ grid_pos ds n i o + t < 1.
Proof.
  intros S2 Hi Ho. destruct (Nat.eq_dec (n * i + o) (n * (List.length ds - 1) + n)) as [E|E]; [left; nia|right].
  assert (F : grid_pos ds n (List.length ds - 1) n = 1).
  { rewrite pos_full by lia. replace (S (List.length ds - 1)) with (List.length ds) by lia. apply line_end; auto. }
  rewrite <- F. apply pos_lt; try lia. nia.
Qed.
End OneDirection.

(* ---------------------------------------------------------------- all directions *)
Lemma tol_pos b (W : wf_block b) : 0 < tol b.
Proof.
  unfold tol. apply Rmult_lt_0_compat; [|lra]. apply sqrt_lt_R0. apply lt_0_INR. destruct (w_nd b W) as [-> | ->]; lia.
Qed.
Lemma tol_le b (W : wf_block b) : / 10000 <= tol b.
Proof.
  unfold tol. rewrite <- (Rmult_1_l (/ 10000)) at 1. apply Rmult_le_compat_r; [lra|]. rewrite <- sqrt_1. apply sqrt_le_1_alt.
  destruct (w_nd b W) as [-> | ->]; simpl; lra.
Qed.
Section Nodes.
Variables (b : block) (target : geokind).
Hypothesis W : wf_block b.
Hypothesis F : In target (targets (b_ndim b)).
Hypothesis S : spaced b target.
Let N := per target.
Lemma node_ksi_length idx m : List.length (node_ksi b target idx m) = b_ndim b.
Proof. unfold node_ksi. rewrite map_length, seq_length. reflexivity. Qed.
Lemma nth_node_ksi idx m a : (m < kind_nnode target)%nat -> (a < b_ndim b)%nat ->
  nth a (node_ksi b target idx m) 0 = grid_pos (widths b a) N (nth a idx 0%nat) (offset target m a).
Proof.
  intros Hm Ha. unfold node_ksi. rewrite (nth_map_in _ _ _ 0%nat) by (rewrite seq_length; auto). rewrite seq_nth by auto. cbn [Nat.add].
  rewrite (proj1 (ref_offset (b_ndim b) target m a (w_nd b W) F Hm Ha)). reflexivity.
Qed.
Lemma nth_lattice idx m a : (a < List.length idx)%nat -> nth a (lattice target idx m) 0%nat = (N * nth a idx 0 + offset target m a)%nat.
Proof. intros Ha. unfold lattice. rewrite (nth_map_in _ _ _ 0%nat) by (rewrite seq_length; auto). rewrite seq_nth by auto. reflexivity. Qed.
Lemma offset_le m a : (m < kind_nnode target)%nat -> (a < b_ndim b)%nat -> (offset target m a <= N)%nat.
Proof. intros Hm Ha. apply (ref_offset (b_ndim b) target m a (w_nd b W) F Hm Ha). Qed.

Lemma ksi_eq idx m idx' m' : valid_index b idx -> valid_index b idx' -> (m < kind_nnode target)%nat -> (m' < kind_nnode target)%nat ->
  lattice target idx m = lattice target idx' m' -> node_ksi b target idx m = node_ksi b target idx' m'.
Proof.
  intros [V1 V2] [V3 V4] Hm Hm' E. apply nth_ext with (d := 0) (d' := 0); [rewrite !node_ksi_length; auto|].
  intros a Ha. rewrite node_ksi_length in Ha. rewrite !nth_node_ksi by auto.
  apply pos_eq; try (apply offset_le; auto); try (rewrite (w_widths b W) by auto; auto).
  - apply per_pos.
  - rewrite <- !nth_lattice by lia. congruence.
Qed.
Lemma ksi_apart idx m idx' m' : valid_index b idx -> valid_index b idx' -> (m < kind_nnode target)%nat -> (m' < kind_nnode target)%nat ->
  lattice target idx m <> lattice target idx' m' ->
  exists a, (a < b_ndim b)%nat /\ tol b < Rabs (nth a (node_ksi b target idx m) 0 - nth a (node_ksi b target idx' m') 0).
Proof.
  intros [V1 V2] [V3 V4] Hm Hm' E.
  assert (exists a, (a < b_ndim b)%nat /\ nth a (lattice target idx m) 0%nat <> nth a (lattice target idx' m') 0%nat) as (a & Ha & D).
  { destruct (existsb (fun a => negb (nth a (lattice target idx m) 0 =? nth a (lattice target idx' m') 0)%nat) (seq 0 (b_ndim b))) eqn:X.
    - apply existsb_exists in X as (a & A & B). apply in_seq in A. exists a. split; [lia|]. apply negb_true_iff, Nat.eqb_neq in B. auto.
    - exfalso. apply E. apply nth_ext with (d := 0%nat) (d' := 0%nat); [unfold lattice; rewrite !map_length, !seq_length; congruence|].
      intros a Ha. unfold lattice in Ha. rewrite map_length, seq_length in Ha. rewrite V1 in Ha.
      assert (X' := proj2 (not_true_iff_false _) X). destruct (Nat.eq_dec (nth a (lattice target idx m) 0%nat) (nth a (lattice target idx' m') 0%nat)) as [Q|Q]; auto.
      exfalso. apply X'. apply existsb_exists. exists a. split; [apply in_seq; lia|]. apply negb_true_iff, Nat.eqb_neq; auto. }
  exists a. split; auto. rewrite !nth_lattice in D by lia. rewrite !nth_node_ksi by auto.
  assert (P := per_pos target). assert (T := tol_pos b W). assert (Sa := fun d Hd => S a d Ha Hd).
  assert (A1 := V2 a Ha). assert (A2 := V4 a Ha). rewrite <- (w_widths b W) in A1, A2 by auto.
  pose proof (offset_le m a Hm Ha). pose proof (offset_le m' a Hm' Ha).
  destruct (lt_eq_lt_dec (N * nth a idx 0 + offset target m a)%nat (N * nth a idx' 0 + offset target m' a)%nat) as [[L|L]|L]; [|lia|].
  - pose proof (pos_lt _ _ _ P (Rlt_le _ _ T) Sa _ _ _ _ A1 A2 H H0 L). rewrite Rabs_left1; unfold N in *; lra.
  - pose proof (pos_lt _ _ _ P (Rlt_le _ _ T) Sa _ _ _ _ A2 A1 H0 H L). rewrite Rabs_pos_eq; unfold N in *; lra.
Qed.
Lemma ksi_iff idx m idx' m' : valid_index b idx -> valid_index b idx' -> (m < kind_nnode target)%nat -> (m' < kind_nnode target)%nat ->
  (node_ksi b target idx m = node_ksi b target idx' m' <-> lattice target idx m = lattice target idx' m').
Proof.
  intros V V' Hm Hm'. split; [|apply ksi_eq; auto]. intros E. destruct (list_eq_dec Nat.eq_dec (lattice target idx m) (lattice target idx' m')) as [H|H]; auto.
  destruct (ksi_apart idx m idx' m' V V' Hm Hm' H) as (a & _ & D). rewrite E, Rminus_diag_eq, Rabs_R0 in D by auto. pose proof (tol_pos b W). lra.
Qed.
Lemma ksi_box idx m a : valid_index b idx -> (m < kind_nnode target)%nat -> (a < b_ndim b)%nat -> -1 <= nth a (node_ksi b target idx m) 0 <= 1.
Proof.
  intros [V1 V2] Hm Ha. rewrite nth_node_ksi by auto. apply (pos_box _ _ (tol b)); auto.
  - apply per_pos. - left; apply tol_pos; auto. - intros d Hd; apply (S a); auto. - apply (w_sum b W); auto.
  - rewrite (w_widths b W) by auto; auto. - apply offset_le; auto.
Qed.
Lemma ksi_low idx m a : valid_index b idx -> (m < kind_nnode target)%nat -> (a < b_ndim b)%nat ->
  (nth a idx 0 = 0 /\ offset target m a = 0)%nat /\ nth a (node_ksi b target idx m) 0 = -1 \/
  ~ (nth a idx 0 = 0 /\ offset target m a = 0)%nat /\ -1 + tol b < nth a (node_ksi b target idx m) 0.
Proof.
  intros [V1 V2] Hm Ha. rewrite nth_node_ksi by auto. assert (A1 := V2 a Ha). rewrite <- (w_widths b W) in A1 by auto.
  pose proof (tol_pos b W) as T. destruct (pos_first _ _ _ (per_pos target) (Rlt_le _ _ T) (fun d Hd => S a d Ha Hd) _ _ A1 (offset_le m a Hm Ha)) as [[E1 E2]|L].
  - left. split; auto. unfold N. rewrite E1, E2, pos_zero by apply per_pos. apply line_0.
  - destruct (Nat.eq_dec (nth a idx 0%nat) 0) as [E1|E1]; [|right; split; [tauto|exact L]].
    destruct (Nat.eq_dec (offset target m a) 0) as [E2|E2]; [|right; split; [tauto|exact L]].
    left. split; auto. unfold N. rewrite E1, E2, pos_zero by apply per_pos. apply line_0.
Qed.
Lemma ksi_high idx m a : valid_index b idx -> (m < kind_nnode target)%nat -> (a < b_ndim b)%nat ->
  (nth a idx 0 = ndivs b a - 1 /\ offset target m a = N)%nat /\ nth a (node_ksi b target idx m) 0 = 1 \/
  ~ (nth a idx 0 = ndivs b a - 1 /\ offset target m a = N)%nat /\ nth a (node_ksi b target idx m) 0 + tol b < 1.
Proof.
  intros [V1 V2] Hm Ha. rewrite nth_node_ksi by auto. assert (A1 := V2 a Ha). rewrite <- (w_widths b W) in A1 by auto.
  pose proof (tol_pos b W) as T.
  assert (Q : forall i, (i = ndivs b a - 1)%nat -> (i < List.length (widths b a))%nat -> grid_pos (widths b a) N i N = 1).
  { intros i -> Hi. rewrite pos_full; auto; [|apply per_pos].
    rewrite <- (w_widths b W) by auto. replace (Datatypes.S (List.length (widths b a) - 1)) with (List.length (widths b a)) by lia. apply line_end, (w_sum b W); auto. }
  destruct (pos_last _ _ _ (per_pos target) (Rlt_le _ _ T) (fun d Hd => S a d Ha Hd) _ _ (w_sum b W a Ha) A1 (offset_le m a Hm Ha)) as [[E1 E2]|L].
  - rewrite (w_widths b W) in E1 by auto. left. split; auto. fold N in E2. rewrite E2. apply Q; auto.
  - destruct (Nat.eq_dec (nth a idx 0%nat) (ndivs b a - 1)) as [E1|E1]; [|right; split; [tauto|exact L]].
    destruct (Nat.eq_dec (offset target m a) N) as [E2|E2]; [|right; split; [tauto|exact L]].
    left. split; auto. rewrite E2. apply Q; auto.
Qed.
End Nodes.
