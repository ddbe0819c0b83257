(* Triangle and tetrahedron coordinates are the affine weights; areas and angles of triangles. *)
From Coq Require Import String List Arith Bool Reals Lra Lia Psatz.
From Verif Require Import Base BaseFacts GeomModel GeomSpec GeomProof.
Import ListNotations.
Open Scope R_scope.

Lemma long2 (a : list R) : (2 <= List.length a)%nat -> exists x y l, a = x :: y :: l.
Proof. destruct a as [|x [|y l]]; simpl; try lia. eauto. Qed.
Lemma long3 (a : list R) : (3 <= List.length a)%nat -> exists x y z l, a = x :: y :: z :: l.
Proof. destruct a as [|x [|y [|z l]]]; simpl; try lia. eauto. Qed.
Lemma long4 (a : list R) : (4 <= List.length a)%nat -> exists x y z t l, a = x :: y :: z :: t :: l.
Proof. destruct a as [|x [|y [|z [|t l]]]]; simpl; try lia. eauto 6. Qed.

(* ---- triangle ---- *)
Definition area2 (a0 a1 b0 b1 c0 c1 : R) : R := a0 * (b1 - c1) + b0 * (c1 - a1) + c0 * (a1 - b1).
Lemma independent_area a0 a1 la b0 b1 lb c0 c1 lc :
  independent 2 [a0 :: a1 :: la; b0 :: b1 :: lb; c0 :: c1 :: lc] <-> area2 a0 a1 b0 b1 c0 c1 <> 0.
Proof.
  unfold independent, area2. split.
  - intros H Z.
    assert (K : exists s t, (s <> 0 \/ t <> 0) /\ s * (b0 - a0) + t * (c0 - a0) = 0 /\ s * (b1 - a1) + t * (c1 - a1) = 0).
    { destruct (Req_dec (b0 - a0) 0) as [E|E]; [destruct (Req_dec (c0 - a0) 0) as [F|F]; [destruct (Req_dec (b1 - a1) 0) as [G|G]|]|].
      - exists 1, 0. split; [left; lra|]. rewrite E, G. lra.
      - exists (c1 - a1), (- (b1 - a1)). split; [right; lra|]. rewrite E, F. split; [lra|ring].
      - exists (c0 - a0), (- (b0 - a0)). split; [left; auto|]. split; [ring|]. lra.
      - exists (c0 - a0), (- (b0 - a0)). split; [right; lra|]. split; [ring|]. lra. }
    destruct K as (s & t & N & P & Q).
    assert (X : forall x, In x [- s - t; s; t] -> x = 0).
    { apply H; [reflexivity|unfold total; simpl; ring|]. intros [|[|i]] L; simpl; try lia; lra. }
    destruct N as [N|N]; apply N, X; simpl; auto.
  - intros NZ w L T S. destruct w as [|w0 [|w1 [|w2 [|]]]]; try discriminate.
    pose proof (S 0%nat ltac:(lia)) as S0. pose proof (S 1%nat ltac:(lia)) as S1. simpl in S0, S1. unfold total in T. simpl in T.
    assert (X0 : w0 * (a0 * (b1 - c1) + b0 * (c1 - a1) + c0 * (a1 - b1)) = 0).
    { assert (E : w2 = - w0 - w1) by lra. subst w2.
      assert (U : w0 * (a0 - c0) + w1 * (b0 - c0) = 0) by lra. assert (V : w0 * (a1 - c1) + w1 * (b1 - c1) = 0) by lra.
      replace (w0 * (a0 * (b1 - c1) + b0 * (c1 - a1) + c0 * (a1 - b1)))
        with ((w0 * (a0 - c0) + w1 * (b0 - c0)) * (b1 - c1) - (w0 * (a1 - c1) + w1 * (b1 - c1)) * (b0 - c0)) by ring.
      rewrite U, V. ring. }
    assert (X1 : w1 * (a0 * (b1 - c1) + b0 * (c1 - a1) + c0 * (a1 - b1)) = 0).
    { assert (E : w2 = - w0 - w1) by lra. subst w2.
      assert (U : w0 * (a0 - c0) + w1 * (b0 - c0) = 0) by lra. assert (V : w0 * (a1 - c1) + w1 * (b1 - c1) = 0) by lra.
      replace (w1 * (a0 * (b1 - c1) + b0 * (c1 - a1) + c0 * (a1 - b1)))
        with ((w0 * (a1 - c1) + w1 * (b1 - c1)) * (a0 - c0) - (w0 * (a0 - c0) + w1 * (b0 - c0)) * (a1 - c1)) by ring.
      rewrite U, V. ring. }
    apply Rmult_integral in X0. apply Rmult_integral in X1.
    assert (w0 = 0) by tauto. assert (w1 = 0) by tauto. intros x [<-|[<-|[<-|[]]]]; lra.
Qed.

(* weights of an independent family are unique *)
Lemma weights_unique n pts p w w' : independent n pts -> affine_weights n pts p w -> affine_weights n pts p w' -> w' = w.
Proof.
  intros I (L & T & W) (L' & T' & W').
  set (d := map (fun xy => fst xy - snd xy) (combine w w')).
  assert (LL : List.length w' = List.length w) by congruence.
  assert (A : forall u v, List.length v = List.length u -> total (map (fun xy => fst xy - snd xy) (combine u v)) = total u - total v).
  { unfold total. induction u as [|x u IH]; intros [|y v] E; try discriminate; simpl; [ring|]. rewrite IH by auto. ring. }
  assert (B : forall q u v i, List.length v = List.length u -> wsum (map (fun xy => fst xy - snd xy) (combine u v)) q i = wsum u q i - wsum v q i).
  { induction q as [|x q IH]; intros [|y u] [|z v] i E; try discriminate; simpl; try ring. rewrite IH by auto. ring. }
  assert (Z : forall x, In x d -> x = 0).
  { apply I.
    - unfold d. rewrite map_length, combine_length, LL, Nat.min_id. exact L.
    - unfold d. rewrite A by auto. lra.
    - intros i Hi. unfold d. rewrite B by auto. rewrite W, W' by auto. ring. }
  unfold d in Z. clear -Z LL. revert w' LL Z. induction w as [|x w IH]; intros [|y w'] E Z; try discriminate; auto.
  simpl in Z. f_equal; [|apply IH; auto]. specialize (Z (x - y) (or_introl eq_refl)). lra.
Qed.

Lemma triangle_coords_ok zeta xa xb xc xp : (3 <= List.length zeta)%nat -> (2 <= List.length xa)%nat -> (2 <= List.length xb)%nat ->
  (2 <= List.length xc)%nat -> (2 <= List.length xp)%nat -> independent 2 [xa; xb; xc] ->
  exists w, triangle_coords zeta xa xb xc xp = Ok (w ++ skipn 3 zeta) /\ affine_weights 2 [xa; xb; xc] xp w.
Proof.
  intros Lz La Lb Lc Lp I.
  apply long2 in La as (a0 & a1 & la & ->). apply long2 in Lb as (b0 & b1 & lb & ->). apply long2 in Lc as (c0 & c1 & lc & ->).
  apply long2 in Lp as (p0 & p1 & lp & ->). apply long3 in Lz as (z0 & z1 & z2 & lz & ->).
  apply independent_area in I. unfold area2 in I.
  eexists [_; _; _]. split; [unfold triangle_coords; simpl; reflexivity|].
  split; [reflexivity|]. split; [unfold total; simpl; field; exact I|].
  intros [|[|i]] H; simpl; try lia; field; exact I.
Qed.
Lemma in_triangle_iff w l : List.length w = 3%nat -> exists r, in_triangle (w ++ l) = Ok r /\ (r = true <-> forall x, In x w -> 0 <= x).
Proof.
  intros L. apply len3 in L as (x & y & z & ->). unfold in_triangle. simpl.
  destruct (Rltb x 0) eqn:A; [apply Rltb_iff in A; eexists; split; [reflexivity|]; split; [discriminate|intros H; specialize (H x ltac:(auto)); lra]|].
  destruct (Rltb y 0) eqn:B; [apply Rltb_iff in B; eexists; split; [reflexivity|]; split; [discriminate|intros H; specialize (H y ltac:(auto)); lra]|].
  destruct (Rltb z 0) eqn:C; [apply Rltb_iff in C; eexists; split; [reflexivity|]; split; [discriminate|intros H; specialize (H z ltac:(auto)); lra]|].
  apply Rltb_false in A, B, C. eexists; split; [reflexivity|]. split; auto. intros _ t [<-|[<-|[<-|[]]]]; auto.
Qed.
Lemma inside_weights n pts p w : independent n pts -> affine_weights n pts p w ->
  (convex_combination n pts p <-> forall x, In x w -> 0 <= x).
Proof.
  intros I W. split; [|intros H; exists w; auto]. intros (w' & W' & H). now rewrite <- (weights_unique n pts p w w' I W W').
Qed.

(* ---- tetrahedron ---- *)
Definition vol6 (x1 y1 z1 x2 y2 z2 x3 y3 z3 x4 y4 z4 : R) : R :=
  (x2 - x1) * ((y2 - y3) * (z3 - z4) - (y3 - y4) * (z2 - z3))
        + (x3 - x2) * ((y3 - y4) * (z1 - z2) - (y1 - y2) * (z3 - z4))
        + (x4 - x3) * ((y1 - y2) * (z2 - z3) - (y2 - y3) * (z1 - z2)).

(* a singular 3x3 matrix (columns u, v, w) has a non-trivial kernel *)
Lemma kernel3 u0 u1 u2 v0 v1 v2 w0 w1 w2 :
  u0 * (v1 * w2 - v2 * w1) - v0 * (u1 * w2 - u2 * w1) + w0 * (u1 * v2 - u2 * v1) = 0 ->
  exists r s t, (r <> 0 \/ s <> 0 \/ t <> 0) /\ r * u0 + s * v0 + t * w0 = 0 /\ r * u1 + s * v1 + t * w1 = 0 /\ r * u2 + s * v2 + t * w2 = 0.
Proof.
  intros D.
  assert (K : forall r s t, r * u0 + s * v0 + t * w0 = 0 -> r * u1 + s * v1 + t * w1 = 0 -> r * u2 + s * v2 + t * w2 = 0 ->
     (exists r s t, (r <> 0 \/ s <> 0 \/ t <> 0) /\ r * u0 + s * v0 + t * w0 = 0 /\ r * u1 + s * v1 + t * w1 = 0 /\ r * u2 + s * v2 + t * w2 = 0)
     \/ (r = 0 /\ s = 0 /\ t = 0)).
  { intros r s t A B C. destruct (Req_dec r 0) as [->|R0]; [destruct (Req_dec s 0) as [->|S0]; [destruct (Req_dec t 0) as [->|T0]|]|]; auto; left.
    - exists 0, 0, t; auto. - exists 0, s, t; auto. - exists r, s, t; auto. }
  (* the cofactors of each row *)
  destruct (K (v1 * w2 - v2 * w1) (u2 * w1 - u1 * w2) (u1 * v2 - u2 * v1)) as [Q|(A1 & A2 & A3)]; [lra|ring|ring|exact Q|].
  destruct (K (v0 * w2 - v2 * w0) (u2 * w0 - u0 * w2) (u0 * v2 - u2 * v0)) as [Q|(B1 & B2 & B3)]; [ring|lra|ring|exact Q|].
  destruct (K (v0 * w1 - v1 * w0) (u1 * w0 - u0 * w1) (u0 * v1 - u1 * v0)) as [Q|(C1 & C2 & C3)]; [ring|ring|lra|exact Q|].
  (* rank one *)
  destruct (K v0 (- u0) 0) as [Q|(E0 & F0 & _)]; [ring|lra|lra|exact Q|].
  destruct (K v1 (- u1) 0) as [Q|(E1 & F1 & _)]; [lra|ring|lra|exact Q|].
  destruct (K v2 (- u2) 0) as [Q|(E2 & F2 & _)]; [lra|lra|ring|exact Q|].
  exists 1, 0, 0. split; [left; lra|]. rewrite E0, E1, E2. replace u0 with 0 by lra. replace u1 with 0 by lra. replace u2 with 0 by lra. lra.
Qed.

Lemma independent_vol x1 y1 z1 l1 x2 y2 z2 l2 x3 y3 z3 l3 x4 y4 z4 l4 :
  independent 3 [x1 :: y1 :: z1 :: l1; x2 :: y2 :: z2 :: l2; x3 :: y3 :: z3 :: l3; x4 :: y4 :: z4 :: l4] <->
  vol6 x1 y1 z1 x2 y2 z2 x3 y3 z3 x4 y4 z4 <> 0.
Proof.
  unfold independent, vol6. split.
  - intros H Z.
    destruct (kernel3 (x2 - x1) (y2 - y1) (z2 - z1) (x3 - x1) (y3 - y1) (z3 - z1) (x4 - x1) (y4 - y1) (z4 - z1)) as (r & s & t & N & P & Q & U); [lra|].
    assert (X : forall x, In x [- r - s - t; r; s; t] -> x = 0).
    { apply H; [reflexivity|unfold total; simpl; ring|]. intros [|[|[|i]]] L; simpl; try lia; lra. }
    destruct N as [N|[N|N]]; apply N, X; simpl; auto.
  - intros NZ w L T S. destruct w as [|w1 [|w2 [|w3 [|w4 [|]]]]]; try discriminate.
    pose proof (S 0%nat ltac:(lia)) as S0. pose proof (S 1%nat ltac:(lia)) as S1. pose proof (S 2%nat ltac:(lia)) as S2. simpl in S0, S1, S2. unfold total in T. simpl in T.
    assert (E : w1 = - w2 - w3 - w4) by lra.
    set (u0 := x2 - x1) in *. set (u1 := y2 - y1) in *. set (u2 := z2 - z1) in *.
    set (v0 := x3 - x1) in *. set (v1 := y3 - y1) in *. set (v2 := z3 - z1) in *.
    set (t0 := x4 - x1) in *. set (t1 := y4 - y1) in *. set (t2 := z4 - z1) in *.
    assert (A : w2 * u0 + w3 * v0 + w4 * t0 = 0) by (unfold u0, v0, t0; subst w1; lra).
    assert (B : w2 * u1 + w3 * v1 + w4 * t1 = 0) by (unfold u1, v1, t1; subst w1; lra).
    assert (C : w2 * u2 + w3 * v2 + w4 * t2 = 0) by (unfold u2, v2, t2; subst w1; lra).
    set (D := u0 * (v1 * t2 - v2 * t1) - v0 * (u1 * t2 - u2 * t1) + t0 * (u1 * v2 - u2 * v1)).
    assert (ND : D <> 0).
    { intros Z. apply NZ. rewrite <- Z. unfold D, u0, u1, u2, v0, v1, v2, t0, t1, t2. ring. }
    assert (X2 : w2 * D = 0).
    { replace (w2 * D) with ((w2 * u0 + w3 * v0 + w4 * t0) * (v1 * t2 - v2 * t1) - (w2 * u1 + w3 * v1 + w4 * t1) * (v0 * t2 - v2 * t0) + (w2 * u2 + w3 * v2 + w4 * t2) * (v0 * t1 - v1 * t0)) by (unfold D; ring).
      rewrite A, B, C. ring. }
    assert (X3 : w3 * D = 0).
    { replace (w3 * D) with (- ((w2 * u0 + w3 * v0 + w4 * t0) * (u1 * t2 - u2 * t1) - (w2 * u1 + w3 * v1 + w4 * t1) * (u0 * t2 - u2 * t0) + (w2 * u2 + w3 * v2 + w4 * t2) * (u0 * t1 - u1 * t0))) by (unfold D; ring).
      rewrite A, B, C. ring. }
    assert (X4 : w4 * D = 0).
    { replace (w4 * D) with ((w2 * u0 + w3 * v0 + w4 * t0) * (u1 * v2 - u2 * v1) - (w2 * u1 + w3 * v1 + w4 * t1) * (u0 * v2 - u2 * v0) + (w2 * u2 + w3 * v2 + w4 * t2) * (u0 * v1 - u1 * v0)) by (unfold D; ring).
      rewrite A, B, C. ring. }
    apply Rmult_integral in X2. apply Rmult_integral in X3. apply Rmult_integral in X4.
    assert (w2 = 0) by tauto. assert (w3 = 0) by tauto. assert (w4 = 0) by tauto. intros x [<-|[<-|[<-|[<-|[]]]]]; lra.
Qed.

Lemma tetrahedron_coords_ok zeta xa xb xc xd xp : (4 <= List.length zeta)%nat -> (3 <= List.length xa)%nat -> (3 <= List.length xb)%nat ->
  (3 <= List.length xc)%nat -> (3 <= List.length xd)%nat -> (3 <= List.length xp)%nat -> independent 3 [xa; xb; xc; xd] ->
  exists w, tetrahedron_coords zeta xa xb xc xd xp = Ok (w ++ skipn 4 zeta) /\ affine_weights 3 [xa; xb; xc; xd] xp w.
Proof.
  intros Lz La Lb Lc Ld Lp I.
  apply long3 in La as (x1 & y1 & z1 & l1 & ->). apply long3 in Lb as (x2 & y2 & z2 & l2 & ->).
  apply long3 in Lc as (x3 & y3 & z3 & l3 & ->). apply long3 in Ld as (x4 & y4 & z4 & l4 & ->).
  apply long3 in Lp as (x & y & z & lp & ->). apply long4 in Lz as (e0 & e1 & e2 & e3 & le & ->).
  apply independent_vol in I. unfold vol6 in I.
  eexists [_; _; _; _]. split; [unfold tetrahedron_coords; simpl; reflexivity|].
  split; [reflexivity|]. split; [unfold total; simpl; field; exact I|].
  intros [|[|[|i]]] H; simpl; try lia; field; exact I.
Qed.
Lemma in_tetrahedron_iff w l : List.length w = 4%nat -> exists r, in_tetrahedron (w ++ l) = Ok r /\ (r = true <-> forall x, In x w -> 0 <= x).
Proof.
  intros L. destruct w as [|x [|y [|z [|t [|]]]]]; try discriminate. unfold in_tetrahedron. simpl.
  destruct (Rltb x 0) eqn:A; [apply Rltb_iff in A; eexists; split; [reflexivity|]; split; [discriminate|intros H; specialize (H x ltac:(auto)); lra]|].
  destruct (Rltb y 0) eqn:B; [apply Rltb_iff in B; eexists; split; [reflexivity|]; split; [discriminate|intros H; specialize (H y ltac:(auto)); lra]|].
  destruct (Rltb z 0) eqn:C; [apply Rltb_iff in C; eexists; split; [reflexivity|]; split; [discriminate|intros H; specialize (H z ltac:(auto)); lra]|].
  destruct (Rltb t 0) eqn:D; [apply Rltb_iff in D; eexists; split; [reflexivity|]; split; [discriminate|intros H; specialize (H t ltac:(auto)); lra]|].
  apply Rltb_false in A, B, C, D. eexists; split; [reflexivity|]. split; auto. intros _ s [<-|[<-|[<-|[<-|[]]]]]; auto.
Qed.

(* ---- angles ---- *)
Lemma angle_facts u v : 0 < ux u * ux u + uy u * uy u -> 0 < ux v * ux v + uy v * uy v ->
  let lu := sqrt (ux u * ux u + uy u * uy u) in let lv := sqrt (ux v * ux v + uy v * uy v) in
  0 < lu /\ 0 < lv /\ 0 <= angle_between u v <= PI /\
  cos (angle_between u v) = (ux u * ux v + uy u * uy v) / (lu * lv) /\
  sin (angle_between u v) = Rabs (cross u v) / (lu * lv).
Proof.
  intros Hu Hv. cbv zeta.
  assert (Pu : 0 < sqrt (ux u * ux u + uy u * uy u)) by now apply sqrt_lt_R0.
  assert (Pv : 0 < sqrt (ux v * ux v + uy v * uy v)) by now apply sqrt_lt_R0.
  assert (Su : sqrt (ux u * ux u + uy u * uy u) * sqrt (ux u * ux u + uy u * uy u) = ux u * ux u + uy u * uy u) by (apply sqrt_sqrt; lra).
  assert (Sv : sqrt (ux v * ux v + uy v * uy v) * sqrt (ux v * ux v + uy v * uy v) = ux v * ux v + uy v * uy v) by (apply sqrt_sqrt; lra).
  unfold angle_between. set (lu := sqrt (ux u * ux u + uy u * uy u)) in *. set (lv := sqrt (ux v * ux v + uy v * uy v)) in *.
  rewrite !(proj2 (Rltb_iff _ _)) by auto. simpl.
  set (d := ux u * ux v + uy u * uy v). set (c := cross u v).
  assert (Lag : d * d + c * c = (lu * lv) * (lu * lv)).
  { replace (lu * lv * (lu * lv)) with ((lu * lu) * (lv * lv)) by ring. rewrite Su, Sv. unfold d, c, cross. ring. }
  assert (Pl : 0 < lu * lv) by now apply Rmult_lt_0_compat.
  set (m := lu * lv) in *.
  assert (Sq : d / m * (d / m) + Rabs c / m * (Rabs c / m) = 1).
  { assert (CC : Rabs c * Rabs c = c * c) by (rewrite <- Rabs_mult; apply Rabs_right; pose proof (sq0 c); lra).
    replace (d / m * (d / m) + Rabs c / m * (Rabs c / m)) with ((d * d + Rabs c * Rabs c) / (m * m)) by (field; lra).
    rewrite CC, Lag. field. lra. }
  assert (S0 : 0 <= Rabs c / m) by (apply Rmult_le_pos; [apply Rabs_pos|left; now apply Rinv_0_lt_compat]).
  assert (Bd : -1 <= d / m <= 1).
  { pose proof (sq0 (Rabs c / m)). split; nra. }
  split; [auto|]. split; [auto|]. split; [apply acos_bound|]. split; [apply cos_acos; exact Bd|].
  rewrite sin_acos by exact Bd. replace (1 - (d / m)²) with (Rabs c / m * (Rabs c / m)) by (unfold Rsqr; lra). now apply sqrt_square.
Qed.

Lemma angles_sum A B C : 0 <= A <= PI -> 0 <= B <= PI -> 0 <= C <= PI -> ~ (A = PI /\ B = PI) ->
  cos (A + B) = - cos C -> sin (A + B) = sin C -> A + B + C = PI.
Proof.
  intros HA HB HC N HCo HS.
  destruct (Rle_lt_dec (A + B) PI) as [L|L].
  - assert (X : A + B = PI - C); [|lra].
    assert (Y : cos (A + B) = cos (PI - C)) by (rewrite Rtrigo_facts.cos_pi_minus; exact HCo).
    destruct (Rtotal_order (A + B) (PI - C)) as [Q|[Q|Q]]; auto; exfalso.
    + pose proof (cos_decreasing_1 (A + B) (PI - C)). lra.
    + pose proof (cos_decreasing_1 (PI - C) (A + B)). lra.
  - exfalso. pose proof (sin_ge_0 C ltac:(lra) ltac:(lra)).
    assert (A + B < 2 * PI).
    { destruct (Req_dec A PI), (Req_dec B PI); try tauto; lra. }
    pose proof (sin_lt_0 (A + B) L). lra.
Qed.

Lemma internal_angles_sum t : ta t <> tb t -> tb t <> tc t -> tc t <> ta t ->
  let '(A, B, C) := internal_angles t in 0 <= A <= PI /\ 0 <= B <= PI /\ 0 <= C <= PI /\ A + B + C = PI.
Proof.
  destruct t as [[a0 a1] [b0 b1] [c0 c1]]. simpl. intros N1 N2 N3.
  assert (NE : forall p0 p1 q0 q1, mkPoint2d p0 p1 <> mkPoint2d q0 q1 -> 0 < (q0 - p0) * (q0 - p0) + (q1 - p1) * (q1 - p1)).
  { intros p0 p1 q0 q1 H. pose proof (sq0 (q0 - p0)) as X. pose proof (sq0 (q1 - p1)) as Y.
    destruct (Rle_lt_dec ((q0 - p0) * (q0 - p0) + (q1 - p1) * (q1 - p1)) 0) as [L|L]; auto. exfalso. apply H.
    assert (X0 : (q0 - p0) * (q0 - p0) = 0) by lra. assert (Y0 : (q1 - p1) * (q1 - p1) = 0) by lra.
    apply Rmult_integral in X0. apply Rmult_integral in Y0. f_equal; lra. }
  apply NE in N1. apply NE in N2. apply NE in N3. clear NE.
  unfold internal_angles. cbn [ta tb tc].
  set (ab := from_points (mkPoint2d a0 a1) (mkPoint2d b0 b1)). set (ac := from_points (mkPoint2d a0 a1) (mkPoint2d c0 c1)).
  set (ba := from_points (mkPoint2d b0 b1) (mkPoint2d a0 a1)). set (bc := from_points (mkPoint2d b0 b1) (mkPoint2d c0 c1)).
  set (ca := from_points (mkPoint2d c0 c1) (mkPoint2d a0 a1)). set (cb := from_points (mkPoint2d c0 c1) (mkPoint2d b0 b1)).
  destruct (angle_facts ab ac) as (P1 & P2 & RA & CA & SA); [unfold ab; simpl; lra|unfold ac; simpl; lra|].
  destruct (angle_facts ba bc) as (P3 & P4 & RB & CB & SB); [unfold ba; simpl; lra|unfold bc; simpl; lra|].
  destruct (angle_facts ca cb) as (P5 & P6 & RC & CC & SC); [unfold ca; simpl; lra|unfold cb; simpl; lra|].
  split; [exact RA|]. split; [exact RB|]. split; [exact RC|].
  set (lc := sqrt (ux ab * ux ab + uy ab * uy ab)) in *.
  set (lb := sqrt (ux ac * ux ac + uy ac * uy ac)) in *.
  set (la := sqrt (ux bc * ux bc + uy bc * uy bc)) in *.
  assert (E1 : sqrt (ux ba * ux ba + uy ba * uy ba) = lc) by (unfold lc, ba, ab; simpl; f_equal; ring). rewrite E1 in *.
  assert (E2 : sqrt (ux ca * ux ca + uy ca * uy ca) = lb) by (unfold lb, ca, ac; simpl; f_equal; ring). rewrite E2 in *.
  assert (E3 : sqrt (ux cb * ux cb + uy cb * uy cb) = la) by (unfold la, cb, bc; simpl; f_equal; ring). rewrite E3 in *.
  assert (Sc : lc * lc = (b0 - a0) * (b0 - a0) + (b1 - a1) * (b1 - a1)) by (unfold lc; rewrite sqrt_sqrt; unfold ab; simpl; lra).
  assert (Sb : lb * lb = (c0 - a0) * (c0 - a0) + (c1 - a1) * (c1 - a1)) by (unfold lb; rewrite sqrt_sqrt; unfold ac; simpl; lra).
  assert (Sa : la * la = (c0 - b0) * (c0 - b0) + (c1 - b1) * (c1 - b1)) by (unfold la; rewrite sqrt_sqrt; unfold bc; simpl; lra).
  set (K := Rabs (cross ab ac)).
  assert (K1 : Rabs (cross ba bc) = K).
  { unfold K. replace (cross ba bc) with (- cross ab ac); [apply Rabs_Ropp|]. unfold cross, ba, bc, ab, ac. simpl. ring. }
  assert (K2 : Rabs (cross ca cb) = K).
  { unfold K. replace (cross ca cb) with (cross ab ac); [auto|]. unfold cross, ca, cb, ab, ac. simpl. ring. }
  assert (KK : K * K = cross ab ac * cross ab ac).
  { unfold K. rewrite <- Rabs_mult. apply Rabs_right. pose proof (sq0 (cross ab ac)). lra. }
  rewrite K1 in SB. rewrite K2 in SC. fold K in SA.
  set (A := angle_between ab ac) in *. set (B := angle_between ba bc) in *. set (C := angle_between ca cb) in *.
  apply angles_sum; auto.
  - intros (EA & EB). rewrite EA, cos_PI in CA. rewrite EB, cos_PI in CB.
    assert (QA : ux ab * ux ac + uy ab * uy ac = - (lc * lb)) by (apply (Rmult_eq_reg_r (/ (lc * lb))); [unfold Rdiv in CA; rewrite <- CA; field; lra|apply Rinv_neq_0_compat; nra]).
    assert (QB : ux ba * ux bc + uy ba * uy bc = - (lc * la)) by (apply (Rmult_eq_reg_r (/ (lc * la))); [unfold Rdiv in CB; rewrite <- CB; field; lra|apply Rinv_neq_0_compat; nra]).
    assert (S : ux ab * ux ac + uy ab * uy ac + (ux ba * ux bc + uy ba * uy bc) = lc * lc) by (rewrite Sc; unfold ab, ac, ba, bc; simpl; ring).
    pose proof (Rmult_lt_0_compat lc lb P1 P2). pose proof (Rmult_lt_0_compat lc la P1 P4). pose proof (Rmult_lt_0_compat lc lc P1 P1). lra.
  - rewrite cos_plus, CA, CB, SA, SB, CC.
    apply (Rmult_eq_reg_r (lc * lc * (lb * la))); [|pose proof (Rmult_lt_0_compat lc lc P1 P1); pose proof (Rmult_lt_0_compat lb la P2 P4); nra].
    set (da := ux ab * ux ac + uy ab * uy ac). set (db := ux ba * ux bc + uy ba * uy bc). set (dc := ux ca * ux cb + uy ca * uy cb).
    transitivity (da * db - K * K); [field; lra|]. transitivity (- dc * (lc * lc)); [|field; lra].
    rewrite KK, Sc. unfold da, db, dc, cross, ab, ac, ba, bc, ca, cb. simpl. ring.
  - rewrite sin_plus, CA, CB, SA, SB, SC.
    apply (Rmult_eq_reg_r (lc * lc * (lb * la))); [|pose proof (Rmult_lt_0_compat lc lc P1 P1); pose proof (Rmult_lt_0_compat lb la P2 P4); nra].
    set (da := ux ab * ux ac + uy ab * uy ac). set (db := ux ba * ux bc + uy ba * uy bc).
    transitivity (K * (da + db)); [field; lra|]. transitivity (K * (lc * lc)); [|field; lra].
    rewrite Sc. unfold da, db, ab, ac, ba, bc. simpl. ring.
Qed.

(* ---- signed area ---- *)
Definition pt (p : point2d) : list R := [px p; py p].
Lemma area_coords t : triangle_signed_area t = area2 (px (ta t)) (py (ta t)) (px (tb t)) (py (tb t)) (px (tc t)) (py (tc t)) / 2.
Proof. unfold triangle_signed_area, area2, cross. simpl. field. Qed.
Lemma area_base_height t d : ta t <> tb t -> distance_to (on_line (pt (ta t)) (pt (tb t))) (pt (tc t)) d ->
  Rabs (triangle_signed_area t) = euclid (pt (ta t)) (pt (tb t)) * d / 2.
Proof.
  destruct t as [[a0 a1] [b0 b1] [c0 c1]]. cbn [ta tb tc]. intros N D.
  assert (P0 : 0 < sqdist (pt (mkPoint2d b0 b1)) (pt (mkPoint2d a0 a1))).
  { pose proof (sqdist_nonneg (pt (mkPoint2d b0 b1)) (pt (mkPoint2d a0 a1))) as NN.
    destruct (Rle_lt_dec (sqdist (pt (mkPoint2d b0 b1)) (pt (mkPoint2d a0 a1))) 0) as [L|L]; auto.
    exfalso. apply N. assert (E : pt (mkPoint2d b0 b1) = pt (mkPoint2d a0 a1)) by (apply sqdist_zero; [reflexivity|lra]).
    unfold pt in E. simpl in E. now injection E as -> ->. }
  set (A := pt (mkPoint2d a0 a1)) in *. set (B := pt (mkPoint2d b0 b1)) in *. set (C := pt (mkPoint2d c0 c1)) in *.
  pose proof (foot_distance A B C eq_refl eq_refl P0) as F. rewrite (distance_unique _ _ _ _ D F).
  unfold triangle_signed_area. cbn [ta tb tc]. unfold Rdiv. rewrite Rabs_mult, (Rabs_right (/ 2)) by lra. f_equal.
  rewrite (euclid_sym A B). unfold euclid. rewrite <- sqrt_mult_alt by lra. rewrite <- sqrt_Rsqr_abs. f_equal.
  rewrite sq_line_pt by reflexivity. unfold foot_t.
  transitivity (sqdist B A * sqdist C A - dotd A B C * dotd A B C); [|field; lra].
  unfold Rsqr, cross, dotd, A, B, C, pt. simpl. ring.
Qed.
Lemma sub_pos p0 p1 q0 q1 : mkPoint2d p0 p1 <> mkPoint2d q0 q1 -> 0 < (q0 - p0) * (q0 - p0) + (q1 - p1) * (q1 - p1).
Proof.
  intros H. pose proof (sq0 (q0 - p0)) as X. pose proof (sq0 (q1 - p1)) as Y.
  destruct (Rle_lt_dec ((q0 - p0) * (q0 - p0) + (q1 - p1) * (q1 - p1)) 0) as [L|L]; auto. exfalso. apply H.
  assert (X0 : (q0 - p0) * (q0 - p0) = 0) by lra. assert (Y0 : (q1 - p1) * (q1 - p1) = 0) by lra.
  apply Rmult_integral in X0. apply Rmult_integral in Y0. f_equal; lra.
Qed.
Lemma angle_cos_sin a b c : a <> b -> c <> a ->
  let '(A, _, _) := internal_angles (mkTri a b c) in
  (px b - px a) * (px c - px a) + (py b - py a) * (py c - py a) = euclid (pt a) (pt b) * euclid (pt a) (pt c) * cos A /\
  2 * Rabs (triangle_signed_area (mkTri a b c)) = euclid (pt a) (pt b) * euclid (pt a) (pt c) * sin A.
Proof.
  destruct a as [a0 a1], b as [b0 b1], c as [c0 c1]. intros N1 N2. unfold internal_angles. cbn [ta tb tc].
  assert (N2' : mkPoint2d a0 a1 <> mkPoint2d c0 c1) by (intros H; apply N2; auto).
  apply sub_pos in N1. apply sub_pos in N2'.
  set (ab := from_points (mkPoint2d a0 a1) (mkPoint2d b0 b1)). set (ac := from_points (mkPoint2d a0 a1) (mkPoint2d c0 c1)).
  destruct (angle_facts ab ac) as (P1 & P2 & RA & CA & SA); [unfold ab; simpl; lra|unfold ac; simpl; lra|].
  rewrite CA, SA.
  assert (E1 : euclid (pt (mkPoint2d a0 a1)) (pt (mkPoint2d b0 b1)) = sqrt (ux ab * ux ab + uy ab * uy ab)) by (unfold euclid, pt, ab; simpl; f_equal; ring).
  assert (E2 : euclid (pt (mkPoint2d a0 a1)) (pt (mkPoint2d c0 c1)) = sqrt (ux ac * ux ac + uy ac * uy ac)) by (unfold euclid, pt, ac; simpl; f_equal; ring).
  rewrite E1, E2. split; [unfold ab, ac at 1; simpl; field; unfold ab, ac in *; simpl in *; lra|].
  unfold triangle_signed_area. cbn [ta tb tc]. fold (from_points (mkPoint2d a0 a1) (mkPoint2d b0 b1)) (from_points (mkPoint2d a0 a1) (mkPoint2d c0 c1)). fold ab ac.
  unfold Rdiv. rewrite Rabs_mult, (Rabs_right (/ 2)) by lra. field. lra.
Qed.
Lemma angle_between_sym u v : angle_between u v = angle_between v u.
Proof.
  unfold angle_between. rewrite (andb_comm (Rltb 0 (sqrt (ux u * ux u + uy u * uy u)))).
  rewrite (Rmult_comm (sqrt (ux u * ux u + uy u * uy u))), (Rmult_comm (ux u) (ux v)), (Rmult_comm (uy u) (uy v)). reflexivity.
Qed.
Lemma angles_rotate a b c : let '(A, B, C) := internal_angles (mkTri a b c) in internal_angles (mkTri b c a) = (B, C, A).
Proof.
  unfold internal_angles. cbn [ta tb tc]. rewrite (angle_between_sym (from_points b c)), (angle_between_sym (from_points c b)). reflexivity.
Qed.
