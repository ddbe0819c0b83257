(* Blocks of the quarter disks and plates: none is flat, no node of their round sides is close to the centre. *)
From Coq Require Import String Reals List Lia Lra Bool Arith ZArith Permutation Sorted.
From Verif Require Import Base BaseFacts Kind GraphModel MeshModel MeshQuerySpec TopoModel TopoSpec TopoMaps TopoProof TopoFeat3 TopoFinal GeomModel GeomSpec GeomProof GridModel GridSpec GridProof SearchModel SearchSpec SearchProof SearchProof2
  JoinModel JoinSpec JoinProof JoinProof2 JoinProof3 PropJoin Expr ShapesModel ShapesSpec PadModel PadSpec PadProof PadProof2 PadProof3 BlockModel BlockSpec BlockProof BlockProof2 BlockProof3 BlockProof10 PropBlock StructModel StructSpec StructProof StructProof4 RingSpec RingProof2 BlocksSpec BlocksProof BlocksProof2 BlocksProof3 BlocksProof4 BlocksProof5 BlocksProof6 BlocksProof7 BlocksProof8 BlocksProof9 ExactSpec ExactProof DiskModel DiskSpec DiskProof DiskProof2 DiskProof3 ShapesProof DiskProof4 PosSpec ExactProof2 StructProof6 DiskProof5.
Import ListNotations.
Local Open Scope list_scope.
Local Open Scope R_scope.

Lemma k_bounds : 7 / 10 < / sqrt 2 < 71 / 100 /\ / sqrt 2 * / sqrt 2 = / 2.
Proof.
  assert (H : 14 / 10 < sqrt 2 < 142 / 100 /\ sqrt 2 * sqrt 2 = 2).
  { split; [|apply sqrt_sqrt; lra]. split.
    - rewrite <- (sqrt_square (14 / 10)) by lra. apply sqrt_lt_1_alt. lra.
    - rewrite <- (sqrt_square (142 / 100)) by lra. apply sqrt_lt_1_alt. lra. }
  destruct H as ((A & B) & C). assert (E : / sqrt 2 = sqrt 2 / 2) by (field_simplify_eq; [nra|lra]). rewrite E. split; [lra|nra].
Qed.
Lemma sc_bounds : let C := cos (PI / 8) in let S := sin (PI / 8) in C * C + S * S = 1 /\ C * C - S * S = / sqrt 2 /\ 2 * S * C = / sqrt 2 /\ 38 / 100 < S < 39 / 100 /\ 92 / 100 < C < 1.
Proof.
  intros C S. assert (E1 : C * C + S * S = 1) by (pose proof (sin2_cos2 (PI / 8)) as X; unfold Rsqr in X; unfold C, S; lra).
  assert (E2 : C * C - S * S = / sqrt 2) by (replace (/ sqrt 2) with (1 / sqrt 2) by (unfold Rdiv; ring); rewrite <- cos_PI4; replace (PI / 4) with (2 * (PI / 8)) by field; rewrite cos_2a; reflexivity).
  assert (E3 : 2 * S * C = / sqrt 2) by (replace (/ sqrt 2) with (1 / sqrt 2) by (unfold Rdiv; ring); rewrite <- sin_PI4; replace (PI / 4) with (2 * (PI / 8)) by field; rewrite sin_2a; reflexivity).
  pose proof PI_RGT_0 as Pp. assert (Sp : 0 < S) by (apply sin_gt_0; lra). assert (Cp : 0 < C) by (apply cos_gt_0; lra).
  destruct k_bounds as (Kb & _). repeat (split; [assumption|]).
  assert (P1 : S * S = (1 - / sqrt 2) / 2) by lra. assert (P2 : C * C = (1 + / sqrt 2) / 2) by lra.
  assert (K2 : 707 / 1000 < / sqrt 2 < 708 / 1000). { pose proof (proj2 k_bounds) as K2. split; nra. }
  split; split; nra.
Qed.

(* ---- not flat ---- *)
Lemma det_core_a r : center_det (core_a r) = r ^ 2 * (115 / 800 * (/ sqrt 2) / 2).
Proof. rewrite core_a_eq. unfold center_det, mid_of, SQRT_2. cbn. field. exact sqrt2_nz. Qed.
Lemma det_right_a r : center_det (right_a r) = r ^ 2 * (/ sqrt 2 * (1 - 115 / 400) / 8).
Proof. rewrite right_a_eq. unfold center_det, mid_of, SQRT_2. cbn. field. exact sqrt2_nz. Qed.
Lemma det_top_a r : center_det (top_a r) = r ^ 2 * (/ sqrt 2 * (1 - 115 / 400) / 8).
Proof. rewrite top_a_eq. unfold center_det, mid_of, SQRT_2. cbn. field. exact sqrt2_nz. Qed.
Lemma flat_a r cs : In cs [core_a r; right_a r; top_a r] -> r ^ 2 / 20 <= center_det cs.
Proof.
  destruct k_bounds as (Kb & _). pose proof (pow2_ge_0 r) as P. cbn [In]. intros [<-|[<-|[<-|[]]]]; rewrite ?det_core_a, ?det_right_a, ?det_top_a; unfold Rdiv at 1; apply Rmult_le_compat_l; try assumption; lra.
Qed.
Lemma det_core_b a : a ^ 2 / 10 <= center_det (core_b a).
Proof.
  destruct sc_bounds as (E1 & E2 & E3 & Sb & Cb). destruct k_bounds as (Kb & _). unfold core_b, center_det, mid_of, polar. cbn [List.length Nat.eqb nth Nat.add]. rewrite cos_0, sin_0, cos_PI2, sin_PI2.
  change (3 * PI / 8) with (3 * PI / 8). replace (cos (3 * PI / 8)) with (sin (PI / 8)) by (rewrite <- cos_shift; f_equal; field). replace (sin (3 * PI / 8)) with (cos (PI / 8)) by (rewrite <- sin_shift; f_equal; field).
  set (C := cos (PI / 8)) in *. set (S := sin (PI / 8)) in *.
  replace (((a * C - a / 2 * 0) * (a * C - a / 2 * 0) - (a * S - a / 2 * 1) * (a * S - a / 2 * 1)) / 4) with (a ^ 2 * ((C * C - S * S + S - / 4) / 4)) by field. rewrite E2. unfold Rdiv at 1. apply Rmult_le_compat_l; [apply pow2_ge_0|lra].
Qed.
Lemma det_part r0 r1 t0 : center_det (ring_part r0 r1 t0 (t0 + PI / 4)) = (r1 ^ 2 - r0 ^ 2) * sin (PI / 8) / 4.
Proof.
  unfold ring_part, center_det, mid_of, polar. cbn [List.length Nat.eqb nth Nat.add]. set (t := (t0 + (t0 + PI / 4)) / 2).
  assert (A : t0 = t - PI / 8) by (unfold t; field). assert (B : t0 + PI / 4 = t + PI / 8) by (unfold t; field). rewrite B. rewrite A. clearbody t. clear A B t0.
  rewrite cos_minus, sin_minus, cos_plus, sin_plus. pose proof (sin2_cos2 t) as X. unfold Rsqr in X. set (c := cos t) in *. set (s := sin t) in *. set (C := cos (PI / 8)). set (S := sin (PI / 8)).
  transitivity ((r1 ^ 2 - r0 ^ 2) * S / 4 * (s * s + c * c)); [field|rewrite X; ring].
Qed.
Lemma det_part' r0 r1 t0 : center_det (ring_part' r0 r1 t0 (t0 + PI / 4)) = (r1 ^ 2 - r0 ^ 2) * sin (PI / 8) / 4.
Proof.
  unfold ring_part', center_det, mid_of, polar. cbn [List.length Nat.eqb nth Nat.add]. set (t := (t0 + (t0 + PI / 4)) / 2).
  assert (A : t0 = t - PI / 8) by (unfold t; field). assert (B : t0 + PI / 4 = t + PI / 8) by (unfold t; field). rewrite B. rewrite A. clearbody t. clear A B t0.
  rewrite cos_minus, sin_minus, cos_plus, sin_plus. pose proof (sin2_cos2 t) as X. unfold Rsqr in X. set (c := cos t) in *. set (s := sin t) in *. set (C := cos (PI / 8)). set (S := sin (PI / 8)).
  transitivity ((r1 ^ 2 - r0 ^ 2) * S / 4 * (s * s + c * c)); [field|rewrite X; ring].
Qed.
Lemma det_far r l cs : 0 <= r <= l -> In cs [far_1 r l; far_2 r l] -> (l - r) * l / 8 <= center_det cs.
Proof.
  intros H I. destruct sc_bounds as (E1 & E2 & E3 & Sb & Cb). destruct k_bounds as (Kb & _).
  assert (E : center_det cs = ((l - r * cos (PI / 8)) * (r * / sqrt 2 + l) + (l / 2 - r * sin (PI / 8)) * r * (1 - / sqrt 2)) / 8).
  { destruct I as [<-|[<-|[]]]; rewrite ?far_1_eq, ?far_2_eq; unfold center_det, mid_of, SIN_PI_BY_8, COS_PI_BY_8, COS_PI_BY_4, ONE_BY_SQRT_2; cbn; rewrite ?cos_PI4; field; exact sqrt2_nz. }
  rewrite E. set (C := cos (PI / 8)) in *. set (S := sin (PI / 8)) in *. set (k := / sqrt 2) in *.
  assert (A1 : (l - r) * l <= (l - r * C) * (r * k + l)). { apply Rmult_le_compat; [lra|lra|nra|nra]. }
  assert (A2 : 0 <= (l / 2 - r * S) * r * (1 - k)). { apply Rmult_le_pos; [apply Rmult_le_pos; [nra|lra]|lra]. }
  lra.
Qed.

(* ---- extruded blocks: the map of the plane, and the height ---- *)
Lemma interp_at k ksi m : nth m (calc_interp k ksi) 0 = eval (env ksi) (nth m (kind_interp k) (C (QArith_base.inject_Z 0))).
Proof. unfold calc_interp. apply nth_map_eval. Qed.
Lemma spread_extrude h cs x y z : List.length cs = 4%nat \/ List.length cs = 8%nat -> (forall p, In p cs -> List.length p = 2%nat) ->
  spread 3 (extrude h cs) [x; y; z] 0 = spread 2 cs [x; y] 0 /\ spread 3 (extrude h cs) [x; y; z] 1 = spread 2 cs [x; y] 1 /\ spread 3 (extrude h cs) [x; y; z] 2 = h * (1 + z) / 2.
Proof.
  intros L P. assert (Two : forall x, In x cs -> exists u v, x = [u; v]). { intros p I. specialize (P p I). destruct p as [|u [|v [|? ?]]]; try discriminate P. eauto. } clear P.
  destruct L as [L|L].
  - destruct cs as [|c0 [|c1 [|c2 [|c3 [|? ?]]]]]; try discriminate L.
    destruct (Two c0 ltac:(cbn; tauto)) as (u0 & v0 & ->), (Two c1 ltac:(cbn; tauto)) as (u1 & v1 & ->), (Two c2 ltac:(cbn; tauto)) as (u2 & v2 & ->), (Two c3 ltac:(cbn; tauto)) as (u3 & v3 & ->). clear Two L.
    unfold spread, blend, extrude. cbn [firstn skipn map app List.length corners Nat.eqb seq linear_kind]. rewrite !ref_hex8, !ref_qua4 by lia. cbn [nth map fold_right sum]. repeat split; cbn; field.
  - destruct cs as [|c0 [|c1 [|c2 [|c3 [|c4 [|c5 [|c6 [|c7 [|? ?]]]]]]]]]; try discriminate L.
    destruct (Two c0 ltac:(cbn; tauto)) as (u0 & v0 & ->), (Two c1 ltac:(cbn; tauto)) as (u1 & v1 & ->), (Two c2 ltac:(cbn; tauto)) as (u2 & v2 & ->), (Two c3 ltac:(cbn; tauto)) as (u3 & v3 & ->).
    destruct (Two c4 ltac:(cbn; tauto)) as (u4 & v4 & ->), (Two c5 ltac:(cbn; tauto)) as (u5 & v5 & ->), (Two c6 ltac:(cbn; tauto)) as (u6 & v6 & ->), (Two c7 ltac:(cbn; tauto)) as (u7 & v7 & ->). clear Two L.
    unfold spread, extrude. cbn [firstn skipn map app List.length corners Nat.eqb seq]. change (bkind 2) with Qua8. change (bkind 3) with Hex20. rewrite !interp_at. repeat split; cbn; unfold Q2R; cbn; field.
Qed.

(* ---- reference coordinates of the nodes of a block with equal divisions ---- *)
Section Lattice.
Variables (nd : nat) (target : geokind).
Hypothesis Hnd : (nd = 2 \/ nd = 3)%nat.
Hypothesis Kt : In target (targets nd).
Variables (cs : mat) (dv : list nat) (sides : list (nat * condition)) (idx : list nat) (k : nat).
Hypothesis Ld : List.length dv = nd.
Hypothesis Ix : in_region (piece cs dv sides) idx.
Hypothesis Hk : (k < kind_nnode target)%nat.
Let g := piece cs dv sides.
Lemma idx_len : List.length idx = nd.
Proof. unfold in_region in Ix. rewrite divs_piece in Ix. rewrite <- Ld. apply Forall2_nth in Ix as (L & _). exact L. Qed.
Lemma idx_lt a : (a < nd)%nat -> (nth a idx 0 < nth a dv 0)%nat.
Proof.
  intros Ha. pose proof idx_len as Li. pose proof Ix as F. unfold in_region in F. rewrite divs_piece in F. apply Forall2_nth in F as (L & F).
  apply (F a); apply nth_error_nth'; [rewrite Li|rewrite Ld]; exact Ha.
Qed.
Lemma ksi_len : List.length (region_ksi g target idx k) = nd.
Proof. unfold region_ksi, g, piece. cbn [g_weights]. rewrite map_length, seq_length, map_length. exact Ld. Qed.
Lemma lattice_le a : (a < nd)%nat -> (nth a (lattice target idx k) 0 <= per target * nth a dv 0)%nat.
Proof.
  intros Ha. unfold lattice. rewrite nth_map_seq by (rewrite idx_len; exact Ha). pose proof (idx_lt a Ha) as L. destruct (ref_offset nd target k a Hnd Kt Hk Ha) as (_ & O). nia.
Qed.
Lemma lattice_pos : (1 <= per target)%nat. Proof. destruct target; cbn; lia. Qed.
Lemma piece_ksi a : (a < nd)%nat -> nth a (region_ksi g target idx k) 0 = tick (-1) 1 (per target * nth a dv 0)%nat (nth a (lattice target idx k) 0%nat).
Proof.
  intros Ha. unfold region_ksi, g, piece. cbn [g_weights]. rewrite nth_map_seq by (rewrite map_length, Ld; exact Ha).
  assert (Nw : nth a (map (repeat 1) dv) [] = repeat 1 (nth a dv 0%nat)). { change (@nil R) with (repeat 1 0). apply map_nth. } rewrite Nw.
  pose proof (idx_lt a Ha) as L. rewrite !cut_ones by lia. destruct (ref_offset nd target k a Hnd Kt Hk Ha) as (E & O). unfold stretch. rewrite E.
  unfold lattice. rewrite nth_map_seq by (rewrite idx_len; exact Ha). unfold tick. rewrite plus_INR, !mult_INR, S_INR. pose proof lattice_pos as P. assert (0 < INR (per target)) by (apply lt_0_INR; lia). assert (0 < INR (nth a dv 0%nat)) by (apply lt_0_INR; lia). field. lra.
Qed.
Lemma ksi_box a : (a < nd)%nat -> -1 <= nth a (region_ksi g target idx k) 0 <= 1.
Proof.
  intros Ha. rewrite piece_ksi by exact Ha. pose proof (lattice_le a Ha) as L. pose proof (idx_lt a Ha) as I. pose proof lattice_pos as P. unfold tick. set (n := (per target * nth a dv 0)%nat) in *.
  assert (Hn : 0 < INR n) by (apply lt_0_INR; unfold n; nia). apply le_INR in L. pose proof (pos_INR (nth a (lattice target idx k) 0%nat)) as Q.
  assert (0 <= INR (nth a (lattice target idx k) 0%nat) / INR n <= 1). { split; [apply Rmult_le_pos; [exact Q|apply Rlt_le, Rinv_0_lt_compat, Hn]|]. apply (Rmult_le_reg_r (INR n)); [exact Hn|]. unfold Rdiv. rewrite Rmult_assoc, Rinv_l by lra. lra. } lra.
Qed.
End Lattice.

(* ---- round sides are not close to the centre ---- *)
Definition far_side (cs : mat) (s : nat) (rho : R) : Prop := forall x y, -1 <= x <= 1 -> -1 <= y <= 1 -> at_side 2 s [x; y] -> rho <= dist2 (spread 2 cs [x; y] 0) (spread 2 cs [x; y] 1).
Lemma off_2d target cs dv sides : In target (targets 2) -> List.length dv = 2%nat ->
  (forall s c, In (s, c) sides -> exists r, c = circle r /\ far_side cs s (/ 10000000)) -> off_center 2 target (piece cs dv sides).
Proof.
  intros Kt Ld H idx k s c Ix Hk I A. cbn [g_sides piece] in I. destruct (H s c I) as (r & -> & F).
  pose proof (ksi_len 2 target cs dv sides idx k Ld) as Lk. pose proof (ksi_box 2 target (or_introl eq_refl) Kt cs dv sides idx k Ld Ix Hk) as B. unfold region_node, region_map. cbn [piece g_nodes].
  destruct (region_ksi (piece cs dv sides) target idx k) as [|x [|y [|? ?]]]; try discriminate Lk. specialize (F x y (B 0%nat ltac:(lia)) (B 1%nat ltac:(lia)) A).
  cbn [too_near circle near_2d seq map nth]. rewrite !Rminus_0_r. lra.
Qed.
Lemma off_3d target h cs dv sides s2 : In target (targets 3) -> List.length dv = 3%nat -> List.length cs = 4%nat \/ List.length cs = 8%nat -> (forall p, In p cs -> List.length p = 2%nat) ->
  (forall s c, In (s, c) sides -> (forall x y z, at_side 3 s [x; y; z] -> at_side 2 (s2 s) [x; y]) /\ exists r, c = cylinder r /\ far_side cs (s2 s) (/ 10000000)) -> off_center 3 target (piece (extrude h cs) dv sides).
Proof.
  intros Kt Ld Lc Pc H idx k s c Ix Hk I A. cbn [g_sides piece] in I. destruct (H s c I) as (S2 & r & -> & F).
  pose proof (ksi_len 3 target (extrude h cs) dv sides idx k Ld) as Lk. pose proof (ksi_box 3 target (or_intror eq_refl) Kt (extrude h cs) dv sides idx k Ld Ix Hk) as B. unfold region_node, region_map. cbn [piece g_nodes].
  destruct (region_ksi (piece (extrude h cs) dv sides) target idx k) as [|x [|y [|z [|? ?]]]]; try discriminate Lk. specialize (F x y (B 0%nat ltac:(lia)) (B 1%nat ltac:(lia)) (S2 x y z A)).
  cbn [too_near cylinder near_3d seq map nth]. destruct (spread_extrude h cs x y z Lc Pc) as (-> & -> & _). rewrite !Rminus_0_r. lra.
Qed.
(* a point is at least as far as its projection *)
Lemma dist2_dot u v c s rho : c * c + s * s = 1 -> 0 <= rho -> rho <= u * c + v * s -> rho <= dist2 u v.
Proof.
  intros E Hr H. unfold dist2. rewrite <- (sqrt_square rho) by exact Hr. apply sqrt_le_1_alt. assert (A : rho * rho <= (u * c + v * s) * (u * c + v * s)) by (apply Rmult_le_compat; lra).
  assert (B : u ^ 2 + v ^ 2 = (u * c + v * s) * (u * c + v * s) + (u * s - v * c) * (u * s - v * c)) by (transitivity ((u ^ 2 + v ^ 2) * (c * c + s * s)); [rewrite E; ring|ring]).
  pose proof (Rle_0_sqr (u * s - v * c)) as P. unfold Rsqr in P. lra.
Qed.
Lemma far_right_a r : / 1000000 <= r -> far_side (right_a r) 1 (/ 10000000).
Proof.
  intros Hr x y Hx Hy A. unfold at_side in A. cbn in A. subst x. destruct k_bounds as (Kb & Ke). set (k := / sqrt 2) in *.
  apply (dist2_dot _ _ 1 0); [ring|lra|]. rewrite right_a_eq. unfold spread, blend. cbn [List.length corners Nat.eqb seq map linear_kind]. rewrite !ref_qua4 by lia. cbn [nth map fold_right sum]. unfold SQRT_2, Rdiv. fold k. match goal with |- _ <= ?z => replace z with (r * ((1 - y) / 2 + k * ((1 + y) / 2))) by field end. assert (7 / 10 <= (1 - y) / 2 + k * ((1 + y) / 2)) by nra. nra.
Qed.
Lemma far_top_a r : / 1000000 <= r -> far_side (top_a r) 2 (/ 10000000).
Proof.
  intros Hr x y Hx Hy A. unfold at_side in A. cbn in A. subst y. destruct k_bounds as (Kb & Ke). set (k := / sqrt 2) in *.
  apply (dist2_dot _ _ 0 1); [ring|lra|]. rewrite top_a_eq. unfold spread, blend. cbn [List.length corners Nat.eqb seq map linear_kind]. rewrite !ref_qua4 by lia. cbn [nth map fold_right sum]. unfold SQRT_2, Rdiv. fold k. match goal with |- _ <= ?z => replace z with (r * ((1 - x) / 2 + k * ((1 + x) / 2))) by field end. assert (7 / 10 <= (1 - x) / 2 + k * ((1 + x) / 2)) by nra. nra.
Qed.
(* the arc through three points *)
Lemma arc_dist rho t e : 0 <= rho -> -1 <= e <= 1 ->
  9 / 10 * rho <= dist2 ((e * e - e) / 2 * (rho * cos (t - PI / 8)) + (e * e + e) / 2 * (rho * cos (t + PI / 8)) + (1 - e * e) * (rho * cos t))
    ((e * e - e) / 2 * (rho * sin (t - PI / 8)) + (e * e + e) / 2 * (rho * sin (t + PI / 8)) + (1 - e * e) * (rho * sin t)).
Proof.
  intros Hr He. destruct sc_bounds as (_ & _ & _ & Sb & Cb). pose proof (sin2_cos2 t) as X. unfold Rsqr in X. apply (dist2_dot _ _ (cos t) (sin t)); [lra|lra|].
  rewrite cos_minus, sin_minus, cos_plus, sin_plus. set (C := cos (PI / 8)) in *. set (S := sin (PI / 8)) in *. set (c := cos t) in *. set (s := sin t) in *.
  match goal with |- _ <= ?z => replace z with (rho * (s * s + c * c) * (1 - e * e * (1 - C))) by field end. rewrite X, Rmult_1_r. rewrite Rmult_comm. apply Rmult_le_compat_l; [exact Hr|].
  assert (0 <= e * e <= 1) by nra. nra.
Qed.
Lemma far_arc cs s rho t q0 q1 qm : List.length cs = 8%nat -> In (s, q0, q1, qm) [(1, 1, 2, 5); (2, 3, 2, 6); (3, 0, 3, 7)]%nat -> / 1000000 <= rho ->
  nth q0 cs [] = polar rho (t - PI / 8) /\ nth q1 cs [] = polar rho (t + PI / 8) \/ nth q0 cs [] = polar rho (t + PI / 8) /\ nth q1 cs [] = polar rho (t - PI / 8) -> nth qm cs [] = polar rho t -> far_side cs s (/ 10000000).
Proof.
  intros L I Hr Q Qm x y Hx Hy A.
  assert (D : forall e, -1 <= e <= 1 -> (forall i, (i < 2)%nat -> spread 2 cs [x; y] i = (e * e - e) / 2 * nth i (nth q0 cs []) 0 + (e * e + e) / 2 * nth i (nth q1 cs []) 0 + (1 - e * e) * nth i (nth qm cs []) 0) -> / 10000000 <= dist2 (spread 2 cs [x; y] 0) (spread 2 cs [x; y] 1)).
  { intros e He Sp. rewrite !Sp by lia. rewrite Qm. destruct Q as [(-> & ->)|(-> & ->)].
    - eapply Rle_trans; [|apply (arc_dist rho t e); lra]. lra.
    - assert (He' : -1 <= - e <= 1) by lra. pose proof (arc_dist rho t (- e) ltac:(lra) He') as X. eapply Rle_trans; [|eapply Rle_trans; [exact X|]]; [lra|]. right. unfold polar. cbn [nth]. f_equal; field. }
  unfold at_side in A.
  destruct cs as [|c0 [|c1 [|c2 [|c3 [|c4 [|c5 [|c6 [|c7 [|? ?]]]]]]]]]; try discriminate L.
  assert (Sp : forall i, spread 2 [c0; c1; c2; c3; c4; c5; c6; c7] [x; y] i = sum (map (fun m => nth m (calc_interp Qua8 [x; y]) 0 * nth i (nth m [c0; c1; c2; c3; c4; c5; c6; c7] []) 0) (seq 0 8))) by reflexivity.
  destruct I as [I|[I|[I|[]]]]; injection I as <- <- <- <-; cbn in A.
  - subst x. apply (D y Hy). intros i Hi. rewrite Sp. cbn [seq map sum]. rewrite !interp_at. cbn. unfold Q2R. cbn. field.
  - subst y. apply (D x Hx). intros i Hi. rewrite Sp. cbn [seq map sum]. rewrite !interp_at. cbn. unfold Q2R. cbn. field.
  - subst x. apply (D y Hy). intros i Hi. rewrite Sp. cbn [seq map sum]. rewrite !interp_at. cbn. unfold Q2R. cbn. field.
Qed.
