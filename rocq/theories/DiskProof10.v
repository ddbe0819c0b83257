(* The nodes of the A-version of the quarter disk with linear cells: coinciding or far apart. *)
From Coq Require Import String Reals List Lia Lra Bool Arith ZArith Permutation Sorted.
From Verif Require Import Base BaseFacts Kind GraphModel MeshModel MeshQuerySpec TopoModel TopoSpec TopoMaps TopoProof TopoFeat3 TopoFinal GeomModel GeomSpec GeomProof GridModel GridSpec GridProof SearchModel SearchSpec SearchProof SearchProof2
  JoinModel JoinSpec JoinProof JoinProof2 JoinProof3 PropJoin Expr ShapesModel ShapesSpec PadModel PadSpec PadProof PadProof2 PadProof3 BlockModel BlockSpec BlockProof BlockProof2 BlockProof3 BlockProof10 PropBlock StructModel StructSpec StructProof StructProof4 RingSpec RingProof2 BlocksSpec BlocksProof BlocksProof2 BlocksProof3 BlocksProof4 BlocksProof5 BlocksProof6 BlocksProof7 BlocksProof8 BlocksProof9 ExactSpec ExactProof DiskModel DiskSpec DiskProof DiskProof2 DiskProof3 ShapesProof DiskProof4 PosSpec ExactProof2 StructProof6 DiskProof5 DiskProof6 DiskProof7 DiskProof8 DiskProof9.
Import ListNotations.
Local Open Scope list_scope.
Local Open Scope R_scope.

Lemma frac_gap i i' n d : (1 <= n)%nat -> d <= / INR n -> i <> i' -> d <= Rabs (INR i / INR n - INR i' / INR n).
Proof.
  intros Hn Hd Hi. assert (P : 0 < INR n) by (apply lt_0_INR; lia). apply (Rle_trans _ _ _ Hd). replace (INR i / INR n - INR i' / INR n) with ((INR i - INR i') * / INR n) by (field; lra).
  rewrite Rabs_mult, (Rabs_right (/ INR n)) by (apply Rle_ge, Rlt_le, Rinv_0_lt_compat, P). rewrite <- (Rmult_1_l (/ INR n)) at 1. apply Rmult_le_compat_r; [apply Rlt_le, Rinv_0_lt_compat, P|].
  destruct (Nat.lt_total i i') as [L|[L|L]]; [|lia|]; apply le_INR in L; rewrite S_INR in L; [rewrite Rabs_left by lra|rewrite Rabs_right by lra]; lra.
Qed.
Lemma frac_below i n d : (1 <= n)%nat -> d <= / INR n -> (i < n)%nat -> d <= 1 - INR i / INR n.
Proof.
  intros Hn Hd Hi. pose proof (frac_gap i n n d Hn Hd ltac:(lia)) as G. pose proof (frac_unit i n Hn ltac:(lia)) as (_ & U). assert (E : INR n / INR n = 1) by (apply frac_1; lia). rewrite E, Rabs_left1 in G by lra. lra.
Qed.
Lemma frac_above i n d : (1 <= n)%nat -> d <= / INR n -> (0 < i)%nat -> (i <= n)%nat -> d <= INR i / INR n.
Proof.
  intros Hn Hd Hi Hj. pose proof (frac_gap i 0 n d Hn Hd ltac:(lia)) as G. pose proof (frac_unit i n Hn Hj) as (U & _). cbn [INR] in G. unfold Rdiv in G at 2. rewrite Rmult_0_l, Rminus_0_r, Rabs_right in G by lra. exact G.
Qed.
Lemma frac_0 n : INR 0 / INR n = 0.
Proof. cbn [INR]. unfold Rdiv. ring. Qed.
Lemma gap_flip e y y' : gap e (flip y) (flip y') -> gap e y y'.
Proof. intros (a & b & N & G). exists b, a. split; [lra|]. unfold flip in G. cbn [nth] in G. rewrite Rplus_comm in G. exact G. Qed.
Lemma flip_flip y : List.length y = 2%nat -> flip (flip y) = y.
Proof. destruct y as [|? [|? [|? ?]]]; intros H; try discriminate H. reflexivity. Qed.
Lemma no_gap e y : 0 <= e -> ~ gap e y y.
Proof. intros He (a & b & N & G). rewrite (Rminus_diag_eq (nth 0 y 0)), (Rminus_diag_eq (nth 1 y 0)), !Rmult_0_r, Rplus_0_l, Rabs_R0 in G by reflexivity. lra. Qed.

Section Plane.
Variable r : R.
Hypothesis Hr : 0 < r.
Variables (na nb : nat).
Hypothesis Ha : (1 <= na)%nat.
Hypothesis Hb : (1 <= nb)%nat.
Variables (e d : R).
Hypothesis Hd : 0 < d.
Hypothesis He : e < r / 10 * d.
Hypothesis Hda : d <= / INR na.
Hypothesis Hdb : d <= / INR nb.
Let pt b i j y := pt2 r b (frac_s na nb b i j) (frac_t na b i j) y.
Definition matched (b b' i j i' j' : nat) : Prop :=
  (b = b' -> i = i' /\ j = j') /\ (b = 0 -> b' = 1 -> i = na /\ i' = 0)%nat /\ (b = 1 -> b' = 0 -> i = 0 /\ i' = na)%nat.

Lemma core_core i j i' j' y y' : (i <= na)%nat -> (j <= na)%nat -> (i' <= na)%nat -> (j' <= na)%nat -> pt 0%nat i j y -> pt 0%nat i' j' y' ->
  i = i' /\ j = j' /\ y = y' \/ gap e y y'.
Proof.
  intros Li Lj Li' Lj'. unfold pt. cbn [pt2 frac_s frac_t]. intros -> ->.
  destruct (Nat.eq_dec i i') as [E|E]; [destruct (Nat.eq_dec j j') as [E'|E']|].
  - left. subst. auto.
  - right. apply (gap_core r Hr) with (d := d); auto using frac_unit. right. apply frac_gap; assumption.
  - right. apply (gap_core r Hr) with (d := d); auto using frac_unit. left. apply frac_gap; assumption.
Qed.
Lemma right_right i j i' j' y y' : (i <= nb)%nat -> (j <= na)%nat -> (i' <= nb)%nat -> (j' <= na)%nat -> pt 1%nat i j y -> pt 1%nat i' j' y' ->
  i = i' /\ j = j' /\ y = y' \/ gap e y y'.
Proof.
  intros Li Lj Li' Lj'. unfold pt. cbn [pt2 frac_s frac_t]. intros P P'.
  assert (Q : INR i / INR nb <> INR i' / INR nb -> d <= Rabs (INR i / INR nb - INR i' / INR nb)). { intros N. apply frac_gap; try assumption. intros ->. apply N. reflexivity. }
  destruct (Nat.eq_dec i i') as [E|E]; [destruct (Nat.eq_dec j j') as [E'|E']|].
  - left. subst. repeat split. eapply right_unique; eassumption.
  - right. eapply (gap_right_at r Hr) with (d := d); try eassumption; auto using frac_unit. right. apply frac_gap; assumption.
  - right. eapply (gap_right_at r Hr) with (d := d); try eassumption; auto using frac_unit. left. apply frac_gap; assumption.
Qed.
Lemma core_right i j i' j' y y' : (i <= na)%nat -> (j <= na)%nat -> (i' <= nb)%nat -> (j' <= na)%nat -> pt 0%nat i j y -> pt 1%nat i' j' y' ->
  i = na /\ i' = 0%nat /\ y = y' \/ gap e y y'.
Proof.
  intros Li Lj Li' Lj'. unfold pt. cbn [pt2 frac_s frac_t]. intros -> P.
  destruct (Nat.eq_dec i na) as [E|E]; [destruct (Nat.eq_dec i' 0) as [E'|E']; [destruct (Nat.eq_dec j j') as [E2|E2]|]|].
  - left. subst i i' j'. repeat split. assert (E1 : INR na / INR na = 1) by (apply frac_1; lia). rewrite E1 in *. rewrite frac_0 in P. destruct P as [(_ & ->)|(X & _)]; [|lra]. unfold core_pt, right_pt. cbn [inner outer nth]. f_equal; [ring|f_equal; ring].
  - right. eapply (gap_core_right r Hr) with (d := d); try eassumption; auto using frac_unit. right. right. subst i i'. split; [apply frac_gap; assumption|]. split; [apply frac_1; lia|apply frac_0].
  - right. eapply (gap_core_right r Hr) with (d := d); try eassumption; auto using frac_unit. right. left. apply frac_above; try assumption. lia.
  - right. eapply (gap_core_right r Hr) with (d := d); try eassumption; auto using frac_unit. left. apply frac_below; try assumption. lia.
Qed.
Lemma right_top i j i' j' y y' : (i <= nb)%nat -> (j <= na)%nat -> (i' <= na)%nat -> (j' <= nb)%nat -> List.length y' = 2%nat -> pt 1%nat i j y -> pt 2%nat i' j' y' -> y = y' \/ gap e y y'.
Proof.
  intros Li Lj Li' Lj' Ly. unfold pt. cbn [pt2 frac_s frac_t]. intros P P'.
  destruct (Nat.eq_dec j na) as [E|E]; [destruct (Nat.eq_dec i' na) as [E'|E']; [destruct (Nat.eq_dec i j') as [E2|E2]|]|].
  - left. subst j i' j'. assert (E1 : INR na / INR na = 1) by (apply frac_1; lia). rewrite E1 in *. apply (right_diag r Hr) in P; [|auto using frac_unit]. apply (right_diag r Hr) in P'; [|auto using frac_unit].
    rewrite <- (flip_flip y' Ly), P'. rewrite P. reflexivity.
  - right. eapply (gap_right_top r Hr) with (d := d); try eassumption; auto using frac_unit. right. right. subst j i'. split; [apply frac_gap; assumption|]. split; apply frac_1; lia.
  - right. eapply (gap_right_top r Hr) with (d := d); try eassumption; auto using frac_unit. right. left. apply frac_below; try assumption. lia.
  - right. eapply (gap_right_top r Hr) with (d := d); try eassumption; auto using frac_unit. left. apply frac_below; try assumption. lia.
Qed.
Lemma core_flip i j y : pt 0%nat i j y -> pt 0%nat j i (flip y).
Proof. unfold pt. cbn [pt2 frac_s frac_t]. intros ->. unfold core_pt, flip. cbn [nth]. f_equal; [ring|f_equal; ring]. Qed.
Lemma top_flip i j y : pt 2%nat i j y -> pt 1%nat j i (flip y).
Proof. exact (fun H => H). Qed.
Lemma flip_inj y y' : List.length y = 2%nat -> List.length y' = 2%nat -> flip y = flip y' -> y = y'.
Proof. intros L L' E. rewrite <- (flip_flip y L), <- (flip_flip y' L'), E. reflexivity. Qed.

Lemma plane_apart b b' i j i' j' y y' : (b < 3)%nat -> (b' < 3)%nat -> List.length y = 2%nat -> List.length y' = 2%nat ->
  (i <= div_x na nb b)%nat -> (j <= div_y na nb b)%nat -> (i' <= div_x na nb b')%nat -> (j' <= div_y na nb b')%nat -> pt b i j y -> pt b' i' j' y' ->
  y = y' /\ matched b b' i j i' j' \/ gap e y y'.
Proof.
  intros Lb Lb' Ly Ly'. destruct b as [|[|[|b]]]; [| | |lia]; (destruct b' as [|[|[|b']]]; [| | |lia]); cbn [div_x div_y]; intros Li Lj Li' Lj' P P'.
  - destruct (core_core i j i' j' y y' Li Lj Li' Lj' P P') as [(-> & -> & ->)|G]; [left; split; [reflexivity|repeat split; lia]|right; exact G].
  - destruct (core_right i j i' j' y y' Li Lj Li' Lj' P P') as [(-> & -> & ->)|G]; [left; split; [reflexivity|repeat split; lia]|right; exact G].
  - destruct (core_right j i j' i' (flip y) (flip y') Lj Li Lj' Li' (core_flip _ _ _ P) (top_flip _ _ _ P')) as [(-> & -> & E)|G]; [left; split; [apply flip_inj; assumption|repeat split; lia]|right; apply gap_flip; exact G].
  - destruct (core_right i' j' i j y' y Li' Lj' Li Lj P' P) as [(-> & -> & ->)|G]; [left; split; [reflexivity|repeat split; lia]|right; apply gap_sym; exact G].
  - destruct (right_right i j i' j' y y' Li Lj Li' Lj' P P') as [(-> & -> & ->)|G]; [left; split; [reflexivity|repeat split; lia]|right; exact G].
  - destruct (right_top i j i' j' y y' Li Lj Li' Lj' Ly' P P') as [->|G]; [left; split; [reflexivity|repeat split; lia]|right; exact G].
  - destruct (core_right j' i' j i (flip y') (flip y) Lj' Li' Lj Li (core_flip _ _ _ P') (top_flip _ _ _ P)) as [(-> & -> & E)|G]; [left; split; [apply flip_inj; auto|repeat split; lia]|right; apply gap_sym, gap_flip; exact G].
  - destruct (right_top i' j' i j y' y Li' Lj' Li Lj Ly P' P) as [->|G]; [left; split; [reflexivity|repeat split; lia]|right; apply gap_sym; exact G].
  - destruct (right_right j i j' i' (flip y) (flip y') Lj Li Lj' Li' (top_flip _ _ _ P) (top_flip _ _ _ P')) as [(-> & -> & E)|G]; [left; split; [apply flip_inj; assumption|repeat split; lia]|right; apply gap_flip; exact G].
Qed.
End Plane.
