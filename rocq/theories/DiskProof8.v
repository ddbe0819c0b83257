(* Distances between the nodes of the A-version of the quarter disk with linear cells. *)
From Coq Require Import String Reals List Lia Lra Bool Arith ZArith Permutation Sorted.
From Verif Require Import Base BaseFacts Kind GraphModel MeshModel MeshQuerySpec TopoModel TopoSpec TopoMaps TopoProof TopoFeat3 TopoFinal GeomModel GeomSpec GeomProof GridModel GridSpec GridProof SearchModel SearchSpec SearchProof SearchProof2
  JoinModel JoinSpec JoinProof JoinProof2 JoinProof3 PropJoin Expr ShapesModel ShapesSpec PadModel PadSpec PadProof PadProof2 PadProof3 BlockModel BlockSpec BlockProof BlockProof2 BlockProof3 BlockProof10 PropBlock StructModel StructSpec StructProof StructProof4 RingSpec RingProof2 BlocksSpec BlocksProof BlocksProof2 BlocksProof3 BlocksProof4 BlocksProof5 BlocksProof6 BlocksProof7 BlocksProof8 BlocksProof9 ExactSpec ExactProof DiskModel DiskSpec DiskProof DiskProof2 DiskProof3 ShapesProof DiskProof4 PosSpec ExactProof2 StructProof6 DiskProof5 DiskProof6 DiskProof7.
Import ListNotations.
Local Open Scope list_scope.
Local Open Scope R_scope.

Definition gap (e : R) (y y' : list R) : Prop := exists a b, a * a + b * b <= 1 /\ e < Rabs (a * (nth 0 y 0 - nth 0 y' 0) + b * (nth 1 y 0 - nth 1 y' 0)).
Lemma gap_sym e y y' : gap e y y' -> gap e y' y.
Proof. intros (a & b & H & L). exists a, b. split; [exact H|]. rewrite <- Rabs_Ropp. replace (- (a * (nth 0 y' 0 - nth 0 y 0) + b * (nth 1 y' 0 - nth 1 y 0))) with (a * (nth 0 y 0 - nth 0 y' 0) + b * (nth 1 y 0 - nth 1 y' 0)) by ring. exact L. Qed.
Lemma gap_dist2 e y y' : gap e y y' -> e < dist2 (nth 0 y 0 - nth 0 y' 0) (nth 1 y 0 - nth 1 y' 0).
Proof.
  intros (a & b & H & L). eapply Rlt_le_trans; [exact L|]. set (u := nth 0 y 0 - nth 0 y' 0). set (v := nth 1 y 0 - nth 1 y' 0). unfold dist2. rewrite <- sqrt_Rsqr_abs. apply sqrt_le_1_alt. unfold Rsqr.
  pose proof (Rle_0_sqr (a * v - b * u)) as P. unfold Rsqr in P. assert (0 <= u ^ 2 + v ^ 2) by nra.
  assert (E : (a * u + b * v) * (a * u + b * v) + (a * v - b * u) * (a * v - b * u) = (a * a + b * b) * (u ^ 2 + v ^ 2)) by ring. nra.
Qed.
Lemma lin_low a b A B u v : 0 <= A -> A <= a -> Rabs b <= B -> Rabs v <= Rabs u -> (A - B) * Rabs u <= Rabs (a * u + b * v).
Proof.
  intros HA Ha Hb Hv. pose proof (Rabs_triang_inv (a * u) (- (b * v))) as T. rewrite Rabs_Ropp, !Rabs_mult in T. replace (a * u - - (b * v)) with (a * u + b * v) in T by ring.
  rewrite (Rabs_right a) in T by lra. pose proof (Rabs_pos u). pose proof (Rabs_pos v). pose proof (Rabs_pos b).
  assert (A * Rabs u <= a * Rabs u) by (apply Rmult_le_compat_r; lra). assert (Rabs b * Rabs v <= B * Rabs u) by (apply Rmult_le_compat; lra). lra.
Qed.

Section Unit.
Variable r : R.
Hypothesis Hr : 0 < r.
Let k := / sqrt 2.
Let c := 115 / 200 * (r * k).   (* corner of the core *)
Let q := r * k.
Let h := r / 2.
Definition unit01 (s : R) := 0 <= s <= 1.
(* inner and outer line *)
Definition inner (t : R) : list R := [h - (h - c) * t; c * t].
Definition outer (t : R) : list R := [r - (r - q) * t; q * t].
Definition core_pt (s t : R) : list R := [h * s - (h - c) * s * t; h * t - (h - c) * s * t].
Definition right_pt (s t : R) : list R := [(1 - s) * nth 0 (inner t) 0 + s * nth 0 (outer t) 0; (1 - s) * nth 1 (inner t) 0 + s * nth 1 (outer t) 0].
Definition rim_pt (t : R) (y : list R) : Prop := exists n1 n2 l, y = [r * n1; r * n2] /\ n1 * n1 + n2 * n2 = 1 /\ 0 < l <= r /\ nth 0 (outer t) 0 = l * n1 /\ nth 1 (outer t) 0 = l * n2.
Definition right_at (s t : R) (y : list R) : Prop := s < 1 /\ y = right_pt s t \/ s = 1 /\ rim_pt t y.

Lemma kk : 7 / 10 < k < 71 / 100 /\ 2 * (k * k) = 1. Proof. destruct k_bounds as (A & B). fold k in A, B. split; [exact A|lra]. Qed.
Lemma numbers : 4 / 10 * r < c < 41 / 100 * r /\ 7 / 10 * r < q < 71 / 100 * r /\ h = r / 2 /\ c = 115 / 200 * q /\ 2 * (q * q) = r * r.
Proof. destruct kk as (A & B). unfold c, q, h. repeat split; try nra. Qed.

(* core and core *)
Lemma gap_core s t s' t' : unit01 s -> unit01 t -> unit01 s' -> unit01 t' -> forall e d, 0 < d -> e < r / 10 * d -> d <= Rabs (s - s') \/ d <= Rabs (t - t') -> gap e (core_pt s t) (core_pt s' t').
Proof.
  intros Hs Ht Hs' Ht' e d Hd He D. unfold unit01 in *. destruct numbers as (Nc & Nq & Nh & _ & _).
  destruct (Rle_or_lt (Rabs (t - t')) (Rabs (s - s'))) as [L|L].
  - exists 1, 0. split; [lra|]. cbn [core_pt nth]. eapply Rlt_le_trans; [exact He|]. assert (D' : d <= Rabs (s - s')) by (destruct D; lra).
    match goal with |- _ <= Rabs ?z => replace z with ((h - (h - c) * ((t + t') / 2)) * (s - s') + (- ((h - c) * ((s + s') / 2))) * (t - t')) by field end.
    eapply Rle_trans; [|apply (lin_low _ _ c (h - c)); [lra| | |exact L]].
    + pose proof (Rabs_pos (s - s')). nra.
    + nra.
    + rewrite Rabs_Ropp, Rabs_right by nra. nra.
  - exists 0, 1. split; [lra|]. cbn [core_pt nth]. eapply Rlt_le_trans; [exact He|]. assert (D' : d <= Rabs (t - t')) by (destruct D; lra).
    match goal with |- _ <= Rabs ?z => replace z with ((h - (h - c) * ((s + s') / 2)) * (t - t') + (- ((h - c) * ((t + t') / 2))) * (s - s')) by field end.
    eapply Rle_trans; [|apply (lin_low _ _ c (h - c)); [lra| | |lra]].
    + pose proof (Rabs_pos (t - t')). nra.
    + nra.
    + rewrite Rabs_Ropp, Rabs_right by nra. nra.
Qed.
(* right and right, not on the rim *)
Lemma gap_right s t s' t' : unit01 s -> unit01 t -> unit01 s' -> unit01 t' -> forall e d, 0 < d -> e < r / 10 * d -> d <= Rabs (s - s') \/ d <= Rabs (t - t') -> gap e (right_pt s t) (right_pt s' t').
Proof.
  intros Hs Ht Hs' Ht' e d Hd He D. unfold unit01 in *. destruct numbers as (Nc & Nq & Nh & Ncq & _).
  set (T := (t + t') / 2). set (S := (s + s') / 2). assert (HT : 0 <= T <= 1) by (unfold T; lra). assert (HS : 0 <= S <= 1) by (unfold S; lra).
  destruct (Rle_or_lt (Rabs (t - t')) (Rabs (s - s'))) as [L|L].
  - exists (12 / 13), (5 / 13). split; [lra|]. cbn [right_pt inner outer nth]. eapply Rlt_le_trans; [exact He|]. assert (D' : d <= Rabs (s - s')) by (destruct D; lra).
    match goal with |- _ <= Rabs ?z => replace z with ((12 / 13 * (r - h - (r - q - (h - c)) * T) + 5 / 13 * ((q - c) * T)) * (s - s') + (12 / 13 * - ((1 - S) * (h - c) + S * (r - q)) + 5 / 13 * ((1 - S) * c + S * q)) * (t - t')) by (unfold T, S; field) end.
    eapply Rle_trans; [|apply (lin_low _ _ (38 / 100 * r) (8 / 100 * r)); [lra| | |exact L]].
    + pose proof (Rabs_pos (s - s')). nra.
    + assert (0 <= (1 - T) * r /\ 0 <= T * r) by nra. nra.
    + apply Rabs_le. assert (0 <= (1 - S) * r /\ 0 <= S * r) by nra. split; nra.
  - exists 0, 1. split; [lra|]. cbn [right_pt inner outer nth]. eapply Rlt_le_trans; [exact He|]. assert (D' : d <= Rabs (t - t')) by (destruct D; lra).
    match goal with |- _ <= Rabs ?z => replace z with (((1 - S) * c + S * q) * (t - t') + ((q - c) * T) * (s - s')) by (unfold T, S; field) end.
    eapply Rle_trans; [|apply (lin_low _ _ c (q - c)); [lra| | |lra]].
    + pose proof (Rabs_pos (t - t')). assert (r / 10 <= c - (q - c)) by lra. nra.
    + nra.
    + rewrite Rabs_right by nra. nra.
Qed.
(* rim *)
Lemma gap_rim_rim t t' y y' : unit01 t -> unit01 t' -> rim_pt t y -> rim_pt t' y' -> forall e d, 0 < d -> e < r / 10 * d -> d <= Rabs (t - t') -> gap e y y'.
Proof.
  intros Ht Ht' (n1 & n2 & l & -> & N & Hl & X & Y) (m1 & m2 & l' & -> & M & Hl' & X' & Y') e d Hd He D. unfold unit01 in *. destruct numbers as (Nc & Nq & Nh & Ncq & _).
  exists (- n2), n1. split; [lra|]. cbn [nth]. eapply Rlt_le_trans; [exact He|]. cbn [outer nth] in X, Y, X', Y'.
  replace (- n2 * (r * n1 - r * m1) + n1 * (r * n2 - r * m2)) with (r * (n2 * m1 - n1 * m2)) by ring. rewrite Rabs_mult, Rabs_right by lra.
  assert (E : l * l' * (n2 * m1 - n1 * m2) = r * q * (t - t')). { replace (l * l' * (n2 * m1 - n1 * m2)) with ((l * n2) * (l' * m1) - (l * n1) * (l' * m2)) by ring. rewrite <- X, <- Y, <- X', <- Y'. ring. }
  apply (f_equal Rabs) in E. rewrite !Rabs_mult in E. rewrite (Rabs_right l), (Rabs_right l'), (Rabs_right r), (Rabs_right q) in E by lra. set (w := Rabs (n2 * m1 - n1 * m2)) in *. set (v := Rabs (t - t')) in *.
  assert (Hw : 0 <= w) by apply Rabs_pos. assert (l * l' <= r * r) by (apply Rmult_le_compat; lra). assert (l * l' * w <= r * r * w) by (apply Rmult_le_compat_r; assumption).
  assert (Lo : q * v <= r * w) by (apply (Rmult_le_reg_l r); [exact Hr|]; lra). assert (r / 10 * d <= q * v) by (apply Rmult_le_compat; lra). lra.
Qed.
Lemma unit_dot n1 n2 : n1 * n1 + n2 * n2 = 1 -> k * (n1 + n2) <= 1 /\ n1 <= 1.
Proof.
  intros N. destruct kk as (_ & K2). pose proof (Rle_0_sqr (k - n1)) as A. pose proof (Rle_0_sqr (k - n2)) as B. pose proof (Rle_0_sqr (n1 - 1)) as C. pose proof (Rle_0_sqr n2) as D. unfold Rsqr in *. split; lra.
Qed.
Lemma dot_inner n1 n2 t : n1 * n1 + n2 * n2 = 1 -> unit01 t -> n1 * nth 0 (inner t) 0 + n2 * nth 1 (inner t) 0 <= 115 / 200 * r.
Proof.
  intros N Ht. unfold unit01 in Ht. destruct kk as (Kb & K2). cbn [inner nth]. destruct (unit_dot n1 n2 N) as (A & B). unfold c, h.
  replace (n1 * (r / 2 - (r / 2 - 115 / 200 * (r * k)) * t) + n2 * (115 / 200 * (r * k) * t)) with (r / 2 * n1 * (1 - t) + 115 / 200 * r * (k * (n1 + n2)) * t) by field.
  assert (r / 2 * n1 * (1 - t) <= 115 / 200 * r * (1 - t)) by (apply Rmult_le_compat_r; nra). assert (115 / 200 * r * (k * (n1 + n2)) * t <= 115 / 200 * r * t) by (apply Rmult_le_compat_r; nra). lra.
Qed.
Lemma dot_outer n1 n2 t : n1 * n1 + n2 * n2 = 1 -> unit01 t -> n1 * nth 0 (outer t) 0 + n2 * nth 1 (outer t) 0 <= r.
Proof.
  intros N Ht. unfold unit01 in Ht. destruct kk as (Kb & K2). cbn [outer nth]. destruct (unit_dot n1 n2 N) as (A & B). unfold q.
  replace (n1 * (r - (r - r * k) * t) + n2 * (r * k * t)) with (r * n1 * (1 - t) + r * (k * (n1 + n2)) * t) by ring.
  assert (r * n1 * (1 - t) <= r * (1 - t)) by (apply Rmult_le_compat_r; nra). assert (r * (k * (n1 + n2)) * t <= r * t) by (apply Rmult_le_compat_r; nra). lra.
Qed.
Lemma gap_rim_right s t t' y : unit01 s -> unit01 t -> rim_pt t' y -> forall e d, 0 < d -> e < r / 10 * d -> d <= 1 - s -> gap e y (right_pt s t).
Proof.
  intros Hs Ht (n1 & n2 & l & -> & N & _) e d Hd He D. unfold unit01 in *. exists n1, n2. split; [lra|]. cbn [nth right_pt]. eapply Rlt_le_trans; [exact He|].
  pose proof (dot_inner n1 n2 t N Ht) as A. pose proof (dot_outer n1 n2 t N Ht) as B. set (p0 := nth 0 (inner t) 0) in *. set (p1 := nth 1 (inner t) 0) in *. set (q0 := nth 0 (outer t) 0) in *. set (q1 := nth 1 (outer t) 0) in *.
  rewrite Rabs_right.
  - replace (n1 * (r * n1 - ((1 - s) * p0 + s * q0)) + n2 * (r * n2 - ((1 - s) * p1 + s * q1))) with (r * (n1 * n1 + n2 * n2) - (1 - s) * (n1 * p0 + n2 * p1) - s * (n1 * q0 + n2 * q1)) by ring. rewrite N. nra.
  - replace (n1 * (r * n1 - ((1 - s) * p0 + s * q0)) + n2 * (r * n2 - ((1 - s) * p1 + s * q1))) with (r * (n1 * n1 + n2 * n2) - (1 - s) * (n1 * p0 + n2 * p1) - s * (n1 * q0 + n2 * q1)) by ring. rewrite N. nra.
Qed.
Lemma gap_right_at s t s' t' y y' : unit01 s -> unit01 t -> unit01 s' -> unit01 t' -> right_at s t y -> right_at s' t' y' -> forall e d, 0 < d -> e < r / 10 * d -> d <= Rabs (s - s') \/ d <= Rabs (t - t') ->
  (s <> s' -> d <= Rabs (s - s')) -> gap e y y'.
Proof.
  intros Hs Ht Hs' Ht' [(S1 & ->)|(-> & Rm)] [(S1' & ->)|(-> & Rm')] e d Hd He D Ds.
  - eapply gap_right; eassumption.
  - apply gap_sym. eapply gap_rim_right; try eassumption. specialize (Ds ltac:(lra)). rewrite Rabs_left in Ds by lra. lra.
  - eapply gap_rim_right; try eassumption. specialize (Ds ltac:(lra)). rewrite Rabs_right in Ds by lra. lra.
  - eapply gap_rim_rim; [exact Ht|exact Ht'|exact Rm|exact Rm'|exact Hd|exact He|]. rewrite Rminus_diag_eq, Rabs_R0 in D by reflexivity. destruct D; lra.
Qed.
Lemma rim_unique t y y' : rim_pt t y -> rim_pt t y' -> y = y'.
Proof.
  intros (n1 & n2 & l & -> & N & Hl & X & Y) (m1 & m2 & l' & -> & M & Hl' & X' & Y'). rewrite X in X'. rewrite Y in Y'.
  assert (E : l * l = l' * l') by (transitivity (l * l * (n1 * n1 + n2 * n2)); [rewrite N; ring|]; transitivity (l' * l' * (m1 * m1 + m2 * m2)); [|rewrite M; ring]; transitivity ((l * n1) * (l * n1) + (l * n2) * (l * n2)); [ring|]; rewrite X', Y'; ring).
  assert (E' : l = l') by nra. subst l'. assert (n1 = m1) by (apply (Rmult_eq_reg_l l); lra). assert (n2 = m2) by (apply (Rmult_eq_reg_l l); lra). congruence.
Qed.
Lemma right_unique s t y y' : right_at s t y -> right_at s t y' -> y = y'.
Proof. intros [(S1 & ->)|(E & A)] [(S2 & ->)|(E' & B)]; [reflexivity|lra|lra|eapply rim_unique; eassumption]. Qed.

(* core and right: the line between them *)
Definition line (y : list R) : R := c / h * (nth 0 y 0 - h) + (h - c) / h * nth 1 y 0.
Lemma line_core s t : unit01 s -> unit01 t -> line (core_pt s t) <= - (6 / 10 * h) * (1 - s).
Proof.
  intros Hs Ht. unfold unit01 in *. destruct numbers as (Nc & Nq & Nh & Ncq & _). unfold line. cbn [core_pt nth].
  assert (Hh : 0 < h) by lra. apply (Rmult_le_reg_r h); [exact Hh|].
  replace ((c / h * (h * s - (h - c) * s * t - h) + (h - c) / h * (h * t - (h - c) * s * t)) * h) with (- (1 - s) * ((1 - t) * (c * h) + t * (h * (2 * c - h)))) by (field; lra).
  assert (A : 6 / 10 * h * h <= c * h) by nra. assert (B : 6 / 10 * h * h <= h * (2 * c - h)) by nra. assert (C : 6 / 10 * h * h <= (1 - t) * (c * h) + t * (h * (2 * c - h))) by nra.
  assert ((1 - s) * (6 / 10 * h * h) <= (1 - s) * ((1 - t) * (c * h) + t * (h * (2 * c - h)))) by (apply Rmult_le_compat_l; lra). lra.
Qed.
Lemma line_outer t : unit01 t -> 58 / 100 * h <= line (outer t).
Proof.
  intros Ht. unfold unit01 in *. destruct numbers as (Nc & Nq & Nh & Ncq & _). unfold line. cbn [outer nth]. assert (Hh : 0 < h) by lra. apply (Rmult_le_reg_r h); [exact Hh|].
  replace ((c / h * (r - (r - q) * t - h) + (h - c) / h * (q * t)) * h) with ((1 - t) * (c * (r - h)) + t * (c * (q - h) + (h - c) * q)) by (field; lra).
  assert (A : 58 / 100 * h * h <= c * (r - h)) by nra. assert (B : 58 / 100 * h * h <= c * (q - h) + (h - c) * q) by nra. nra.
Qed.
Lemma line_inner t : line (inner t) = 0.
Proof. destruct numbers as (Nc & Nq & Nh & Ncq & _). unfold line. cbn [inner nth]. field. lra. Qed.
Lemma line_right s t y : unit01 s -> unit01 t -> right_at s t y -> 58 / 100 * h * s <= line y.
Proof.
  intros Hs Ht H. pose proof (line_outer t Ht) as O. destruct numbers as (Nc & Nq & Nh & Ncq & _). unfold unit01 in *. assert (Hh : 0 < h) by lra. destruct H as [(_ & ->)|(-> & n1 & n2 & l & -> & N & Hl & X & Y)].
  - replace (line (right_pt s t)) with ((1 - s) * line (inner t) + s * line (outer t)) by (unfold line; cbn [right_pt nth]; field; lra). rewrite line_inner. nra.
  - eapply Rle_trans; [rewrite Rmult_1_r; exact O|]. unfold line. rewrite X, Y. cbn [nth]. cbn [outer nth] in X, Y.
    assert (n1p : 0 < n1) by nra. assert (n2p : 0 <= n2) by nra. assert (P1 : 0 < c / h) by (apply Rdiv_lt_0_compat; lra). assert (P2 : 0 < (h - c) / h) by (apply Rdiv_lt_0_compat; lra).
    assert (l * n1 <= r * n1) by (apply Rmult_le_compat_r; lra). assert (l * n2 <= r * n2) by (apply Rmult_le_compat_r; lra).
    apply Rplus_le_compat; apply Rmult_le_compat_l; lra.
Qed.
Lemma gap_core_right s t s' t' y : unit01 s -> unit01 t -> unit01 s' -> unit01 t' -> right_at s' t' y -> forall e d, 0 < d -> e < r / 10 * d -> d <= 1 - s \/ d <= s' \/ d <= Rabs (t - t') /\ s = 1 /\ s' = 0 -> gap e (core_pt s t) y.
Proof.
  intros Hs Ht Hs' Ht' Ra e d Hd He D. pose proof (line_core s t Hs Ht) as A. pose proof (line_right s' t' y Hs' Ht' Ra) as B. destruct numbers as (Nc & Nq & Nh & Ncq & _). unfold unit01 in *. assert (Hh : 0 < h) by lra.
  destruct D as [D|D].
  2: destruct D as [D|(D & -> & ->)].
  3: { exists 0, 1. split; [lra|]. destruct Ra as [(_ & ->)|(X & _)]; [|lra]. cbn [core_pt right_pt inner outer nth]. eapply Rlt_le_trans; [exact He|].
       match goal with |- _ <= Rabs ?z => replace z with (c * (t - t')) by ring end. rewrite Rabs_mult, (Rabs_right c) by lra. apply Rmult_le_compat; lra. }
  all: exists (c / h), ((h - c) / h); split.
  1, 3: apply (Rmult_le_reg_r (h * h)); [nra|]; replace ((c / h * (c / h) + (h - c) / h * ((h - c) / h)) * (h * h)) with (c * c + (h - c) * (h - c)) by (field; lra); nra.
  all: eapply Rlt_le_trans; [exact He|]; rewrite <- Rabs_Ropp; eapply Rle_trans; [|apply Rle_abs].
  all: match goal with |- _ <= ?z => replace z with (line y - line (core_pt s t)) by (unfold line; field; lra) end; nra.
Qed.
(* right and its mirror image *)
Definition flip (y : list R) : list R := [nth 1 y 0; nth 0 y 0].
Lemma diag_right s t y : unit01 s -> unit01 t -> right_at s t y -> h * (1 - t) <= nth 0 y 0 - nth 1 y 0.
Proof.
  intros Hs Ht H. destruct numbers as (Nc & Nq & Nh & Ncq & _). unfold unit01 in *. destruct H as [(_ & ->)|(-> & n1 & n2 & l & -> & N & Hl & X & Y)].
  - cbn [right_pt inner outer nth]. match goal with |- _ <= ?z => replace z with ((1 - t) * ((1 - s) * h + s * r)) by ring end. rewrite (Rmult_comm h). apply Rmult_le_compat_l; nra.
  - cbn [nth]. cbn [outer nth] in X, Y. assert (l * (n1 - n2) = r * (1 - t)) by (replace (l * (n1 - n2)) with (l * n1 - l * n2) by ring; rewrite <- X, <- Y; ring). assert (0 <= n1 - n2) by nra. assert (l * (n1 - n2) <= r * (n1 - n2)) by (apply Rmult_le_compat_r; lra). nra.
Qed.
Lemma right_diag s y : unit01 s -> right_at s 1 y -> y = [(1 - s) * c + s * q; (1 - s) * c + s * q].
Proof.
  intros Hs [(_ & ->)|(-> & n1 & n2 & l & -> & N & Hl & X & Y)].
  - unfold right_pt. cbn [inner outer nth]. f_equal; [ring|f_equal; ring].
  - cbn [outer nth] in X, Y. destruct numbers as (Nc & Nq & Nh & Ncq & Q2). assert (E1 : q = l * n1) by lra. assert (E2 : q = l * n2) by lra.
    assert (l * l = r * r) by (transitivity (l * l * (n1 * n1 + n2 * n2)); [rewrite N; ring|]; rewrite <- Q2; transitivity ((l * n1) * (l * n1) + (l * n2) * (l * n2)); [ring|]; rewrite <- E1, <- E2; ring). assert (l = r) by nra. subst l. f_equal; [lra|f_equal; lra].
Qed.
Lemma gap_right_top s t s' t' y y' : unit01 s -> unit01 t -> unit01 s' -> unit01 t' -> right_at s t y -> right_at s' t' (flip y') -> forall e d, 0 < d -> e < r / 10 * d -> d <= 1 - t \/ d <= 1 - t' \/ d <= Rabs (s - s') /\ t = 1 /\ t' = 1 -> gap e y y'.
Proof.
  intros Hs Ht Hs' Ht' Ra Rb e d Hd He D. pose proof (diag_right s t y Hs Ht Ra) as A. pose proof (diag_right s' t' (flip y') Hs' Ht' Rb) as B. cbn [flip nth] in B. destruct numbers as (Nc & Nq & Nh & Ncq & _). unfold unit01 in *.
  destruct D as [D|D].
  2: destruct D as [D|(D & -> & ->)].
  3: { apply right_diag in Ra; [|exact Hs]. apply right_diag in Rb; [|exact Hs']. unfold flip in Rb. injection Rb as R1 R0. subst y. exists 1, 0. split; [lra|]. cbn [nth]. rewrite R0. eapply Rlt_le_trans; [exact He|].
       match goal with |- _ <= Rabs ?z => replace z with ((q - c) * (s - s')) by ring end. rewrite Rabs_mult, (Rabs_right (q - c)) by lra. apply Rmult_le_compat; lra. }
  all: exists (7 / 10), (- (7 / 10)); split; [lra|]; eapply Rlt_le_trans; [exact He|]; eapply Rle_trans; [|apply Rle_abs].
  all: match goal with |- _ <= ?z => replace z with (7 / 10 * ((nth 0 y 0 - nth 1 y 0) + (nth 1 y' 0 - nth 0 y' 0))) by ring end; nra.
Qed.

(* bounds *)
Lemma core_box s t : unit01 s -> unit01 t -> 0 <= nth 0 (core_pt s t) 0 <= r / 2 /\ 0 <= nth 1 (core_pt s t) 0 <= r / 2.
Proof.
  intros Hs Ht. unfold unit01 in *. destruct numbers as (Nc & Nq & Nh & Ncq & Q2). cbn [core_pt nth]. fold h.
  replace (h * s - (h - c) * s * t) with (s * ((1 - t) * h + t * c)) by ring. replace (h * t - (h - c) * s * t) with (t * ((1 - s) * h + s * c)) by ring.
  assert (A : 0 <= (1 - t) * h + t * c <= h) by nra. assert (B : 0 <= (1 - s) * h + s * c <= h) by nra. split; nra.
Qed.
Lemma right_box s t y : unit01 s -> unit01 t -> right_at s t y -> 0 <= nth 0 y 0 <= r /\ 0 <= nth 1 y 0 <= r * / sqrt 2.
Proof.
  intros Hs Ht Ra. unfold unit01 in *. destruct numbers as (Nc & Nq & Nh & Ncq & Q2). change (r * / sqrt 2) with q. pose proof (diag_right s t y Hs Ht Ra) as D. destruct Ra as [(S1 & ->)|(S1 & n1 & n2 & l & -> & N & L & X & Y)].
  - cbn [right_pt inner outer nth] in *. assert (A : 0 <= h - (h - c) * t <= r) by nra. assert (B : 0 <= r - (r - q) * t <= r) by nra. assert (C1 : 0 <= c * t <= q) by nra. assert (C2 : 0 <= q * t <= q) by nra. split; nra.
  - cbn [nth] in *. cbn [outer nth] in X, Y. assert (n1p : 0 < n1) by nra. assert (n2p : 0 <= n2) by nra. assert (n21 : n2 <= n1) by nra. assert (n11 : n1 <= 1) by nra.
    assert (n22 : 2 * (n2 * n2) <= 1) by nra. assert (A : 2 * (r * n2 * (r * n2)) <= 2 * (q * q)). { rewrite Q2. replace (2 * (r * n2 * (r * n2))) with (r * r * (2 * (n2 * n2))) by ring. nra. } split; [split; nra|]. split; [nra|]. apply Rnot_lt_le. intros F. assert (0 <= q) by lra. nra.
Qed.
Lemma right_0 y : right_at 1 0 y -> y = [r; 0].
Proof.
  intros [(S1 & _)|(_ & n1 & n2 & l & -> & N & L & X & Y)]; [lra|]. cbn [outer nth] in X, Y. destruct numbers as (Nc & Nq & Nh & Ncq & Q2). assert (E2 : n2 = 0) by nra. subst n2. assert (E1 : n1 = 1) by nra. subst n1. f_equal; [ring|f_equal; ring].
Qed.
End Unit.

