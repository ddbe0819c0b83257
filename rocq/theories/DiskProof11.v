(* The A-version of the quarter disk with linear cells: the blocks fit together exactly. *)
From Coq Require Import String Reals List Lia Lra Bool Arith ZArith Permutation Sorted.
From Verif Require Import Base BaseFacts Kind GraphModel MeshModel MeshQuerySpec TopoModel TopoSpec TopoMaps TopoProof TopoFeat3 TopoFinal GeomModel GeomSpec GeomProof GridModel GridSpec GridProof SearchModel SearchSpec SearchProof SearchProof2
  JoinModel JoinSpec JoinProof JoinProof2 JoinProof3 PropJoin Expr ShapesModel ShapesSpec PadModel PadSpec PadProof PadProof2 PadProof3 BlockModel BlockSpec BlockProof BlockProof2 BlockProof3 BlockProof10 PropBlock StructModel StructSpec StructProof StructProof4 RingSpec RingProof2 BlocksSpec BlocksProof BlocksProof2 BlocksProof3 BlocksProof4 BlocksProof5 BlocksProof6 BlocksProof7 BlocksProof8 BlocksProof9 ExactSpec ExactProof DiskModel DiskSpec DiskProof DiskProof2 DiskProof3 ShapesProof DiskProof4 PosSpec ExactProof2 StructProof6 DiskProof5 DiskProof6 DiskProof7 DiskProof8 DiskProof9 DiskProof10.
Import ListNotations.
Local Open Scope list_scope.
Local Open Scope R_scope.

Lemma coord_euclid a x y : List.length x = List.length y -> (a < 3)%nat -> (List.length x = 2 \/ List.length x = 3)%nat -> Rabs (nth a x 0 - nth a y 0) <= GeomSpec.euclid x y.
Proof.
  intros L La L3. rewrite <- sqrt_Rsqr_abs. unfold GeomSpec.euclid. apply sqrt_le_1_alt. unfold Rsqr.
  destruct x as [|x0 [|x1 [|x2 [|? ?]]]]; cbn in L3; try lia; destruct y as [|y0 [|y1 [|y2 [|? ?]]]]; try discriminate L; destruct a as [|[|[|a]]]; try lia; cbn [nth sqdist];
    repeat match goal with |- context [?z * ?z] => lazymatch goal with _ : 0 <= z * z |- _ => fail | _ => pose proof (Rle_0_sqr z : 0 <= z * z) end end; lra.
Qed.
Definition cx (c : nat) : bool := (c =? 1)%nat || (c =? 2)%nat.
Definition cy (c : nat) : bool := (2 <=? c)%nat.
Definition one (b : bool) (n : nat) : nat := if b then n else 0%nat.
Lemma off_qua4 k : (k < 4)%nat -> offset Qua4 k 0 = one (cx k) 1 /\ offset Qua4 k 1 = one (cy k) 1.
Proof. intros H. destruct k as [|[|[|[|k]]]]; [..|lia]; vm_compute; auto. Qed.
Lemma off_hex8 k : (k < 8)%nat -> exists c t, (c < 4)%nat /\ k = (c + one t 4)%nat /\ offset Hex8 k 0 = one (cx c) 1 /\ offset Hex8 k 1 = one (cy c) 1 /\ offset Hex8 k 2 = one t 1.
Proof.
  intros H. assert (E : (k = 0 \/ k = 1 \/ k = 2 \/ k = 3 \/ k = 4 \/ k = 5 \/ k = 6 \/ k = 7)%nat) by lia.
  decompose [or] E; subst k; [exists 0%nat, false|exists 1%nat, false|exists 2%nat, false|exists 3%nat, false|exists 0%nat, true|exists 1%nat, true|exists 2%nat, true|exists 3%nat, true]; (split; [lia|]); (split; [reflexivity|]); vm_compute; auto.
Qed.
Lemma cxy c c' : (c < 4)%nat -> (c' < 4)%nat -> cx c = cx c' -> cy c = cy c' -> c = c'.
Proof. intros H H'. destruct c as [|[|[|[|c]]]]; [..|lia]; (destruct c' as [|[|[|[|c']]]]; [..|lia]); cbn; intros; congruence. Qed.
Lemma spot_one n x (b b' : bool) : (1 <= n)%nat -> (x < n)%nat -> (1 * x + one b' 1 = one b n)%nat -> b' = b /\ x = one b (n - 1).
Proof. intros Hn Hx E. destruct b, b'; cbn [one] in *; split; try reflexivity; lia. Qed.

Section Whole.
Variable r : R.
Hypothesis Hr : 0 < r.
Variables (na nb : nat).
Hypothesis Ha : (1 <= na)%nat.
Hypothesis Hb : (1 <= nb)%nat.
Variables (h : R) (nz : nat).
Hypothesis Hh : 0 < h.
Hypothesis Hz : (1 <= nz)%nat.
Variable nd : nat.
Hypothesis Hnd : (nd = 2 \/ nd = 3)%nat.
Variables (e d : R).
Hypothesis Hd : 0 < d.
Hypothesis He : e < r / 10 * d.
Hypothesis Hda : d <= / INR na.
Hypothesis Hdb : d <= / INR nb.
Hypothesis He0 : 0 <= e.
Hypothesis Hez : nd = 3%nat -> e < h * / INR nz.
Definition disk_n : list region := if (nd =? 2)%nat then disk2 r na nb else disk3 r na nb h nz.
Definition at_lat (b : nat) (L : list nat) (y : list R) : Prop :=
  let i := nth 0 L 0%nat in let j := nth 1 L 0%nat in let w := nth 2 L 0%nat in
  List.length L = nd /\ List.length y = nd /\ (b < 3)%nat /\ (i <= div_x na nb b)%nat /\ (j <= div_y na nb b)%nat /\ (w <= nz)%nat /\
  pt2 r b (frac_s na nb b i j) (frac_t na b i j) [nth 0 y 0; nth 1 y 0] /\ nth 2 y 0 = h * (INR w / INR nz).
Lemma node_n b g idx k y : nth_error disk_n b = Some g -> is_node nd (lin nd) g idx k y -> at_lat b (lattice (lin nd) idx k) y.
Proof.
  intros Eg Nd. pose proof Nd as (_ & _ & Ly & _). unfold at_lat. unfold disk_n, lin in *. destruct Hnd as [E2|E3].
  - rewrite E2 in *. cbn [Nat.eqb] in *. destruct (disk2_at r na nb Ha Hb b g Eg) as (Lb & _). destruct (node_2d r Hr na nb Ha Hb b g idx k y Eg Nd) as (i & j & -> & A & B & P). cbn [nth]. destruct y as [|y0 [|y1 [|? ?]]]; try discriminate Ly. cbn [nth].
    do 5 (split; [assumption || reflexivity|]). split; [lia|]. split; [exact P|]. rewrite frac_0. ring.
  - rewrite E3 in *. cbn [Nat.eqb] in *. destruct (disk3_at r na nb Ha Hb h nz Hz b g Eg) as (Lb & _). destruct (node_3d r Hr na nb Ha Hb h nz Hz b g idx k y Eg Nd) as (i & j & l & -> & A & B & C & Z & P). cbn [nth].
    do 6 (split; [assumption || reflexivity|]). split; [exact P|exact Z].
Qed.
Lemma apart b b' L L' y y' : at_lat b L y -> at_lat b' L' y' ->
  y = y' /\ nth 2 L 0%nat = nth 2 L' 0%nat /\ matched na b b' (nth 0 L 0%nat) (nth 1 L 0%nat) (nth 0 L' 0%nat) (nth 1 L' 0%nat) \/ e < GeomSpec.euclid y y'.
Proof.
  intros (LL & Ly & Lb & Li & Lj & Lw & P & Z) (LL' & Ly' & Lb' & Li' & Lj' & Lw' & P' & Z').
  destruct (plane_apart r Hr na nb Ha Hb e d Hd He Hda Hdb b b' _ _ _ _ [nth 0 y 0; nth 1 y 0] [nth 0 y' 0; nth 1 y' 0] Lb Lb' eq_refl eq_refl Li Lj Li' Lj' P P') as [(E & M)|G].
  - destruct (Nat.eq_dec (nth 2 L 0%nat) (nth 2 L' 0%nat)) as [W|W].
    + left. split; [|split; [exact W|exact M]]. injection E as E0 E1. rewrite W, <- Z' in Z.
      clear - Hnd Ly Ly' E0 E1 Z. destruct Hnd as [En|En]; rewrite En in Ly, Ly'; destruct y as [|? [|? [|? [|? ?]]]]; try discriminate Ly; destruct y' as [|? [|? [|? [|? ?]]]]; try discriminate Ly'; cbn in *; congruence.
    + right. assert (N3 : nd = 3%nat). { destruct Hnd as [E2|E3]; [|exact E3]. exfalso. apply W. rewrite !nth_overflow by lia. reflexivity. }
      eapply Rlt_le_trans; [apply Hez; exact N3|]. eapply Rle_trans; [|apply (coord_euclid 2); [congruence|lia|lia]]. rewrite Z, Z', <- Rmult_minus_distr_l, Rabs_mult, Rabs_right by lra. apply Rmult_le_compat_l; [lra|]. apply frac_gap; [exact Hz|lra|exact W].
  - right. apply gap_dist2 in G. cbn [nth] in G. eapply Rlt_le_trans; [exact G|]. apply (dist2_euclid nd); assumption.
Qed.
Lemma lat_eq (L L' : list nat) : List.length L = nd -> List.length L' = nd -> (forall a, (a < 3)%nat -> nth a L 0%nat = nth a L' 0%nat) -> L = L'.
Proof. intros E E' H. apply (nth_ext _ _ 0%nat 0%nat); [congruence|]. intros a La. apply H. lia. Qed.
Lemma separated_n : separated nd e (lin nd) disk_n.
Proof.
  intros g g' idx k y idx' k' y' I I' N N'. apply In_nth_error in I as (b & Eb). apply In_nth_error in I' as (b' & Eb').
  destruct (apart b b' _ _ y y' (node_n b g idx k y Eb N) (node_n b' g' idx' k' y' Eb' N')) as [(E & _)|G]; auto.
Qed.
Lemma not_far y : ~ e < GeomSpec.euclid y y.
Proof. rewrite euclid_refl. lra. Qed.
Lemma one_to_one_n : one_to_one nd (lin nd) disk_n.
Proof.
  intros g idx k idx' k' y I N N'. apply In_nth_error in I as (b & Eb). pose proof (node_n b g idx k y Eb N) as A. pose proof (node_n b g idx' k' y Eb N') as A'.
  destruct (apart b b _ _ y y A A') as [(_ & W & M & _)|G]; [|destruct (not_far y G)]. destruct (M eq_refl) as (E0 & E1). apply lat_eq; [apply A|apply A'|].
  intros a La. destruct a as [|[|[|a]]]; [exact E0|exact E1|exact W|lia].
Qed.

(* corners of the blocks *)
Definition spot (b c : nat) (t : bool) : list nat := [one (cx c) (div_x na nb b); one (cy c) (div_y na nb b)] ++ (if (nd =? 2)%nat then [] else [one t nz]).
Definition spot_idx (b c : nat) (t : bool) : list nat := [one (cx c) (div_x na nb b - 1); one (cy c) (div_y na nb b - 1)] ++ (if (nd =? 2)%nat then [] else [one t (nz - 1)]).
Definition spot_k (c : nat) (t : bool) : nat := (c + one t 4)%nat.
Lemma divs_n b g : nth_error disk_n b = Some g -> (b < 3)%nat /\ divs g = [div_x na nb b; div_y na nb b] ++ (if (nd =? 2)%nat then [] else [nz]).
Proof.
  unfold disk_n. intros Eg. destruct Hnd as [E2|E2]; rewrite E2 in *; cbn [Nat.eqb] in *.
  - destruct (disk2_at r na nb Ha Hb b g Eg) as (Lb & l & -> & _). split; [exact Lb|]. apply divs_piece.
  - destruct (disk3_at r na nb Ha Hb h nz Hz b g Eg) as (Lb & l & -> & _). split; [exact Lb|]. apply divs_piece.
Qed.
Lemma one_lt t n : (1 <= n)%nat -> (one t (n - 1) < n)%nat.
Proof. intros H. destruct t; cbn [one]; lia. Qed.
Lemma one_add t n : (1 <= n)%nat -> (1 * one t (n - 1) + one t 1 = one t n)%nat.
Proof. intros H. destruct t; cbn [one]; lia. Qed.
Lemma spot_ok b c t g : nth_error disk_n b = Some g -> (c < 4)%nat -> (nd = 2%nat -> t = false) ->
  in_region g (spot_idx b c t) /\ (spot_k c t < corners nd)%nat /\ lattice (lin nd) (spot_idx b c t) (spot_k c t) = spot b c t.
Proof.
  intros Eg Hc Ht. destruct (divs_n b g Eg) as (Lb & Dv). destruct (div_pos na nb Ha Hb b) as (Px & Py). unfold in_region, spot_idx, spot, spot_k, lin. rewrite Dv. destruct Hnd as [E2|E3].
  - rewrite (Ht E2). rewrite E2. cbn [Nat.eqb app one]. rewrite Nat.add_0_r. split; [repeat constructor; apply one_lt; assumption|]. split; [exact Hc|].
    destruct (off_qua4 c Hc) as (O0 & O1). unfold lattice. cbn [List.length seq map nth]. rewrite O0, O1. change (per Qua4) with 1%nat. rewrite !one_add by assumption. reflexivity.
  - rewrite E3. cbn [Nat.eqb app]. split; [repeat constructor; apply one_lt; assumption|]. assert (Hk : (c + one t 4 < 8)%nat) by (destruct t; cbn [one]; lia). split; [exact Hk|].
    destruct (off_hex8 _ Hk) as (c' & t' & Hc' & Ek & O0 & O1 & O2). assert (c' = c /\ t' = t) as (-> & ->) by (destruct t, t'; cbn [one] in Ek; split; try reflexivity; lia).
    unfold lattice. cbn [List.length seq map nth]. rewrite O0, O1, O2. change (per Hex8) with 1%nat. rewrite !one_add by assumption. reflexivity.
Qed.
Lemma spot_unique b c t g idx k : nth_error disk_n b = Some g -> (c < 4)%nat -> (nd = 2%nat -> t = false) -> in_region g idx -> (k < corners nd)%nat -> lattice (lin nd) idx k = spot b c t ->
  idx = spot_idx b c t /\ k = spot_k c t.
Proof.
  intros Eg Hc Ht Ix Hk. destruct (divs_n b g Eg) as (Lb & Dv). destruct (div_pos na nb Ha Hb b) as (Px & Py). unfold in_region in Ix. rewrite Dv in Ix. unfold spot_idx, spot, spot_k, lin. destruct Hnd as [E2|E3].
  - rewrite (Ht E2). rewrite E2 in *. cbn [Nat.eqb app one] in *. inversion Ix as [|x ? ? ? X Ix1]; subst. inversion Ix1 as [|x1 ? ? ? X1 Ix2]; subst. inversion Ix2; subst.
    destruct (off_qua4 k Hk) as (O0 & O1). unfold lattice. cbn [List.length seq map nth]. rewrite O0, O1. change (per Qua4) with 1%nat. intros Q. injection Q as Q0 Q1.
    apply spot_one in Q0 as (B0 & ->); [|assumption..]. apply spot_one in Q1 as (B1 & ->); [|assumption..]. rewrite Nat.add_0_r. split; [reflexivity|apply cxy; assumption].
  - rewrite E3 in *. cbn [Nat.eqb app one] in *. inversion Ix as [|x ? ? ? X Ix1]; subst. inversion Ix1 as [|x1 ? ? ? X1 Ix2]; subst. inversion Ix2 as [|x2 ? ? ? X2 Ix3]; subst. inversion Ix3; subst.
    destruct (off_hex8 k Hk) as (c' & t' & Hc' & Ek & O0 & O1 & O2). unfold lattice. cbn [List.length seq map nth]. rewrite O0, O1, O2. change (per Hex8) with 1%nat. intros Q. injection Q as Q0 Q1 Q2.
    apply spot_one in Q0 as (B0 & ->); [|assumption..]. apply spot_one in Q1 as (B1 & ->); [|assumption..]. apply spot_one in Q2 as (-> & ->); [|assumption..]. split; [reflexivity|]. rewrite Ek. f_equal. apply cxy; assumption.
Qed.
Lemma len_n : List.length disk_n = 3%nat.
Proof. unfold disk_n. destruct (nd =? 2)%nat; reflexivity. Qed.
Lemma has_block b : (b < 3)%nat -> exists g, nth_error disk_n b = Some g.
Proof. intros H. destruct (nth_error disk_n b) as [g|] eqn:E; [exists g; reflexivity|]. apply nth_error_None in E. rewrite len_n in E. lia. Qed.
Lemma first_nth n b g : nth_error (firstn n disk_n) b = Some g -> (b < n)%nat /\ nth_error disk_n b = Some g.
Proof.
  intros E. assert (L : (b < List.length (firstn n disk_n))%nat) by (apply nth_error_Some; congruence). rewrite firstn_length in L. split; [lia|]. rewrite <- (firstn_skipn n disk_n), nth_error_app1; [exact E|rewrite firstn_length; lia].
Qed.
Lemma nth_first n b : (b < n)%nat -> (b < 3)%nat -> nth_error (firstn n disk_n) b = nth_error disk_n b.
Proof. intros H H3. rewrite <- (firstn_skipn n disk_n) at 2. rewrite nth_error_app1; [reflexivity|]. rewrite firstn_length, len_n. lia. Qed.
Lemma outer_spot n b c t s a : (1 <= n <= 2)%nat -> (b < n)%nat -> (c < 4)%nat -> (nd = 2%nat -> t = false) -> (b = 0%nat -> n = 1%nat \/ cx c = false) -> (b = 1%nat -> cx c = true) ->
  (forall y b' L' y', at_lat b (spot b c t) y -> (b' < n)%nat -> at_lat b' L' y' -> s * nth a y 0 <= s * nth a y' 0) -> outermost nd (lin nd) (firstn n disk_n) s a.
Proof.
  intros Hn Hbn Hc Ht H0 H1 Bd. destruct (has_block b ltac:(lia)) as (g & Eg). destruct (spot_ok b c t g Eg Hc Ht) as (Ix & Hk & EL). exists b, g, (spot_idx b c t), (spot_k c t). split.
  - split; [rewrite nth_first by lia; exact Eg|]. split; [exact Ix|]. split; [exact Hk|]. intros b' g' idx' k' y Eg' Hk' N N'. apply first_nth in Eg' as (Lb' & Eg').
    pose proof (node_n b g _ _ y Eg N) as A. pose proof (node_n b' g' _ _ y Eg' N') as A'. rewrite EL in A. destruct (apart _ _ _ _ _ _ A A') as [(_ & W & M0 & M1 & M2)|G]; [|destruct (not_far y G)].
    assert (E : b' = b).
    { cbn [spot nth app] in M1, M2. destruct (Nat.eq_dec b' b) as [E|E]; [exact E|exfalso]. assert (Bc : (b = 0 /\ b' = 1 \/ b = 1 /\ b' = 0)%nat) by lia. destruct Bc as [(B & B')|(B & B')].
      - destruct (M1 B B') as (X & _). destruct (H0 B) as [Q|Q]; [lia|]. rewrite Q in X. cbn [one] in X. lia.
      - destruct (M2 B B') as (X & _). rewrite (H1 B), B in X. cbn [one div_x] in X. lia. }
    subst b'. rewrite Eg in Eg'. injection Eg' as <-. split; [reflexivity|]. destruct (M0 eq_refl) as (E0 & E1).
    apply (spot_unique b c t g idx' k' Eg Hc Ht); [apply N'|exact Hk'|]. symmetry. apply lat_eq; [apply A|apply A'|]. intros a' La. destruct a' as [|[|[|a']]]; [exact E0|exact E1|exact W|lia].
  - intros y g' idx' k' y' N I' N'. apply In_nth_error in I' as (b' & Eb'). apply first_nth in Eb' as (Lb' & Eb'). pose proof (node_n b g _ _ y Eg N) as A. rewrite EL in A. eapply Bd; [exact A|exact Lb'|]. eapply node_n; eassumption.
Qed.

(* coordinates *)
Lemma lat_box b L y : at_lat b L y -> (b < 2)%nat -> 0 <= nth 0 y 0 /\ 0 <= nth 1 y 0 /\ 0 <= nth 2 y 0 <= h /\ (b = 0%nat -> nth 0 y 0 <= r / 2 /\ nth 1 y 0 <= r / 2) /\ (b = 1%nat -> nth 0 y 0 <= r /\ nth 1 y 0 <= r * / sqrt 2).
Proof.
  intros (_ & _ & _ & Li & Lj & Lw & P & Z) Lb. assert (Bz : 0 <= nth 2 y 0 <= h) by (rewrite Z; pose proof (frac_unit _ nz Hz Lw) as U; unfold unit01 in U; nra).
  destruct b as [|[|b]]; [| |lia]; cbn [div_x div_y pt2 frac_s frac_t] in *.
  - pose proof (core_box r Hr _ _ (frac_unit _ na Ha Li) (frac_unit _ na Ha Lj)) as B. rewrite <- P in B. cbn [nth] in B. repeat split; try lra; intros; lia.
  - pose proof (right_box r Hr _ _ _ (frac_unit _ nb Hb Li) (frac_unit _ na Ha Lj) P) as B. cbn [nth] in B. repeat split; try lra; intros; lia.
Qed.
Lemma frac_self n : (1 <= n)%nat -> INR n / INR n = 1.
Proof. intros H. apply frac_1; lia. Qed.
Lemma at_core c t y : (c < 4)%nat -> at_lat 0%nat (spot 0%nat c t) y -> [nth 0 y 0; nth 1 y 0] = core_pt r (if cx c then 1 else 0) (if cy c then 1 else 0).
Proof.
  intros Hc (_ & _ & _ & _ & _ & _ & P & _). cbn [spot app nth pt2 frac_s frac_t div_x div_y] in P. rewrite P. f_equal; [destruct (cx c)|destruct (cy c)]; cbn [one]; first [apply frac_self; assumption|apply frac_0].
Qed.
Lemma at_right c t y : (c < 4)%nat -> cx c = true -> at_lat 1%nat (spot 1%nat c t) y -> right_at r 1 (if cy c then 1 else 0) [nth 0 y 0; nth 1 y 0].
Proof.
  intros Hc E (_ & _ & _ & _ & _ & _ & P & _). cbn [spot app nth pt2 frac_s frac_t div_x div_y] in P. rewrite E in P. cbn [one] in P. rewrite (frac_self nb Hb) in P. destruct (cy c); cbn [one] in P; [rewrite (frac_self na Ha) in P|rewrite frac_0 in P]; exact P.
Qed.
Lemma at_z b c t y : nd = 3%nat -> at_lat b (spot b c t) y -> nth 2 y 0 = if t then h else 0.
Proof.
  intros E3 (_ & _ & _ & _ & _ & _ & _ & Z). rewrite Z. unfold spot. rewrite E3. cbn [Nat.eqb app nth]. destruct t; cbn [one]; [rewrite (frac_self nz Hz)|rewrite frac_0]; ring.
Qed.
Lemma corner_00 t y : at_lat 0%nat (spot 0%nat 0 t) y -> nth 0 y 0 = 0 /\ nth 1 y 0 = 0.
Proof. intros A. apply at_core in A; [|lia]. cbn [cx cy Nat.eqb orb Nat.leb] in A. injection A as A B. split; lra. Qed.
Lemma corner_10 t y : at_lat 0%nat (spot 0%nat 1 t) y -> nth 0 y 0 = r / 2.
Proof. intros A. apply at_core in A; [|lia]. cbn [cx cy Nat.eqb orb Nat.leb] in A. injection A as A B. lra. Qed.
Lemma corner_01 t y : at_lat 0%nat (spot 0%nat 3 t) y -> nth 1 y 0 = r / 2.
Proof. intros A. apply at_core in A; [|lia]. cbn [cx cy Nat.eqb orb Nat.leb] in A. injection A as A B. lra. Qed.
Lemma corner_11 t y : at_lat 0%nat (spot 0%nat 2 t) y -> 0 < nth 0 y 0 /\ 0 < nth 1 y 0.
Proof. intros A. apply at_core in A; [|lia]. cbn [cx cy Nat.eqb orb Nat.leb] in A. injection A as A B. destruct (numbers r Hr) as (Nc & _). split; lra. Qed.
Lemma rim_10 t y : at_lat 1%nat (spot 1%nat 1 t) y -> nth 0 y 0 = r.
Proof. intros A. apply at_right in A; [|lia|reflexivity]. cbn [cy Nat.leb] in A. apply right_0 in A; [|exact Hr]. injection A as A B. exact A. Qed.
Lemma rim_11 t y : at_lat 1%nat (spot 1%nat 2 t) y -> nth 1 y 0 = r * / sqrt 2.
Proof. intros A. apply at_right in A; [|lia|reflexivity]. cbn [cy Nat.leb] in A. apply right_diag in A; [|exact Hr|unfold unit01; lra]. injection A as A B. lra. Qed.

Lemma outer_min n a : (1 <= n <= 2)%nat -> (a < nd)%nat -> outermost nd (lin nd) (firstn n disk_n) 1 a.
Proof.
  intros Hn La. apply (outer_spot n 0 0 false); try lia; try (intros; auto; fail). intros y b' L' y' A Lb' A'. pose proof (lat_box b' L' y' A' ltac:(lia)) as (B0 & B1 & (B2 & _) & _). destruct (corner_00 _ _ A) as (C0 & C1).
  destruct a as [|[|[|a]]]; [lra|lra| |lia]. assert (E3 : nd = 3%nat) by lia. rewrite (at_z _ _ _ _ E3 A). lra.
Qed.
Lemma outer_z n : nd = 3%nat -> (1 <= n <= 2)%nat -> outermost nd (lin nd) (firstn n disk_n) (-1) 2%nat.
Proof.
  intros E3 Hn. apply (outer_spot n 0 0 true); try lia; [intros _; right; reflexivity|]. intros y b' L' y' A Lb' A'. pose proof (lat_box b' L' y' A' ltac:(lia)) as (_ & _ & (_ & B2) & _). rewrite (at_z _ _ _ _ E3 A). lra.
Qed.
Lemma outer_1 a : (a < 2)%nat -> outermost nd (lin nd) (firstn 1 disk_n) (-1) a.
Proof.
  intros La. destruct a as [|[|a]]; [| |lia].
  - apply (outer_spot 1 0 1 false); try lia; try (intros; auto; fail). intros y b' L' y' A Lb' A'. assert (b' = 0%nat) by lia. subst b'. pose proof (lat_box 0 L' y' A' ltac:(lia)) as (_ & _ & _ & B & _). rewrite (corner_10 _ _ A). destruct (B eq_refl). lra.
  - apply (outer_spot 1 0 3 false); try lia; try (intros; auto; fail). intros y b' L' y' A Lb' A'. assert (b' = 0%nat) by lia. subst b'. pose proof (lat_box 0 L' y' A' ltac:(lia)) as (_ & _ & _ & B & _). rewrite (corner_01 _ _ A). destruct (B eq_refl). lra.
Qed.
Lemma outer_2 a : (a < 2)%nat -> outermost nd (lin nd) (firstn 2 disk_n) (-1) a.
Proof.
  intros La. destruct (numbers r Hr) as (_ & Nq & _). destruct a as [|[|a]]; [| |lia].
  - apply (outer_spot 2 1 1 false); try lia; try (intros; auto; fail). intros y b' L' y' A Lb' A'. pose proof (lat_box b' L' y' A' ltac:(lia)) as (_ & _ & _ & B & B'). rewrite (rim_10 _ _ A). assert (E : (b' = 0 \/ b' = 1)%nat) by lia. destruct E as [E|E]; [destruct (B E)|destruct (B' E)]; lra.
  - apply (outer_spot 2 1 2 false); try lia; try (intros; auto; fail). intros y b' L' y' A Lb' A'. pose proof (lat_box b' L' y' A' ltac:(lia)) as (_ & _ & _ & B & B'). rewrite (rim_11 _ _ A). assert (E : (b' = 0 \/ b' = 1)%nat) by lia. destruct E as [E|E]; [destruct (B E)|destruct (B' E)]; lra.
Qed.
Lemma corners_lt k : (k < corners nd)%nat -> (k < kind_nnode (lin nd))%nat.
Proof. unfold lin. destruct Hnd as [E|E]; rewrite E; exact (fun H => H). Qed.
Lemma wide_n n a : (1 <= n <= 2)%nat -> (a < nd)%nat -> wide nd (lin nd) (firstn n disk_n) a.
Proof.
  intros Hn La. destruct (has_block 0 ltac:(lia)) as (g & Eg). set (t := negb (nd =? 2)%nat). assert (Ht : nd = 2%nat -> t = false) by (intros E; unfold t; rewrite E; reflexivity).
  destruct (spot_ok 0 0 false g Eg ltac:(lia) (fun _ => eq_refl)) as (Ix & Hk & EL). destruct (spot_ok 0 2 t g Eg ltac:(lia) Ht) as (Ix' & Hk' & EL').
  assert (Ig : In g (firstn n disk_n)) by (apply (nth_error_In _ 0); rewrite nth_first by lia; exact Eg).
  exists g, (spot_idx 0 0 false), (spot_k 0 false), g, (spot_idx 0 2 t), (spot_k 2 t). do 2 (split; [exact Ig|]). split; [exact Ix|]. split; [exact Ix'|]. do 2 (split; [apply corners_lt; assumption|]).
  intros y y' N N'. pose proof (node_n _ _ _ _ _ Eg N) as A. pose proof (node_n _ _ _ _ _ Eg N') as A'. rewrite EL in A. rewrite EL' in A'. destruct (corner_00 _ _ A). destruct (corner_11 _ _ A').
  destruct a as [|[|[|a]]]; [lra|lra| |lia]. assert (E3 : nd = 3%nat) by lia. rewrite (at_z _ _ _ _ E3 A), (at_z _ _ _ _ E3 A'). unfold t. rewrite E3. cbn [Nat.eqb negb]. lra.
Qed.
Lemma enclosing_n : enclosing nd (lin nd) disk_n.
Proof.
  intros n a Hn La. rewrite len_n in Hn. split; [apply outer_min; lia|]. split; [|apply wide_n; lia].
  destruct (Nat.eq_dec a 2) as [->|E]; [apply outer_z; lia|]. assert (En : (n = 1 \/ n = 2)%nat) by lia. destruct En as [-> | ->]; [apply outer_1|apply outer_2]; lia.
Qed.
End Whole.
