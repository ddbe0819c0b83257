(* Properties of /repo/src/geometry: C32, C33, C56. *)
From Coq Require Import String List Arith Bool Reals Lra Lia.
From Verif Require Import Base BaseFacts GeomModel GeomSpec GeomProof GeomSimplex.
Import ListNotations.
Open Scope R_scope.

(* ------------------------------------------------------------------ C32 *)
Theorem C32_triangle_coords : forall zeta xa xb xc xp,
  (3 <= List.length zeta)%nat -> (2 <= List.length xa)%nat -> (2 <= List.length xb)%nat -> (2 <= List.length xc)%nat -> (2 <= List.length xp)%nat ->
  independent 2 [xa; xb; xc] ->
  exists w, triangle_coords zeta xa xb xc xp = Ok (w ++ skipn 3 zeta) /\ affine_weights 2 [xa; xb; xc] xp w /\
    (forall w', affine_weights 2 [xa; xb; xc] xp w' -> w' = w).
Proof.
  intros zeta xa xb xc xp Lz La Lb Lc Lp I. destruct (triangle_coords_ok zeta xa xb xc xp Lz La Lb Lc Lp I) as (w & E & W).
  exists w. split; [exact E|]. split; [exact W|]. intros w' W'. exact (weights_unique _ _ _ _ _ I W W').
Qed.
Print Assumptions C32_triangle_coords.

Theorem C32_in_triangle : forall zeta xa xb xc xp,
  (3 <= List.length zeta)%nat -> (2 <= List.length xa)%nat -> (2 <= List.length xb)%nat -> (2 <= List.length xc)%nat -> (2 <= List.length xp)%nat ->
  independent 2 [xa; xb; xc] ->
  exists r, (let! zeta' := triangle_coords zeta xa xb xc xp in in_triangle zeta') = Ok r /\
    (r = true <-> convex_combination 2 [xa; xb; xc] xp).
Proof.
  intros zeta xa xb xc xp Lz La Lb Lc Lp I. destruct (triangle_coords_ok zeta xa xb xc xp Lz La Lb Lc Lp I) as (w & -> & W).
  simpl. destruct (in_triangle_iff w (skipn 3 zeta) (proj1 W)) as (r & E & Q). exists r. split; [exact E|].
  rewrite (inside_weights _ _ _ _ I W). exact Q.
Qed.
Print Assumptions C32_in_triangle.
(* clockwise and counterclockwise triangles meet the hypothesis *)
Example C32_triangle_ex : independent 2 [[0; 0]; [3; 1]; [1; 2]] /\ independent 2 [[1; 2]; [3; 1]; [0; 0]] /\
  convex_combination 2 [[0; 0]; [3; 1]; [1; 2]] [1; 1] /\ ~ convex_combination 2 [[0; 0]; [3; 1]; [1; 2]] [3; 2].
Proof.
  assert (I : independent 2 [[0; 0]; [3; 1]; [1; 2]]) by (apply independent_area; unfold area2; lra).
  split; [exact I|]. split; [apply independent_area; unfold area2; lra|]. split.
  - exists [2/5; 1/5; 2/5]. split; [split; [reflexivity|]; split; [unfold total; simpl; lra|]|].
    + intros [|[|i]] H; simpl; try lia; lra.
    + intros x [<-|[<-|[<-|[]]]]; lra.
  - intros H.
    assert (W : affine_weights 2 [[0; 0]; [3; 1]; [1; 2]] [3; 2] [-2/5; 4/5; 3/5]).
    { split; [reflexivity|]. split; [unfold total; simpl; lra|]. intros [|[|i]] Hi; simpl; try lia; lra. }
    pose proof (proj1 (inside_weights _ _ _ _ I W) H (-2/5) (or_introl eq_refl)). lra.
Qed.

Theorem C32_tetrahedron_coords : forall zeta xa xb xc xd xp,
  (4 <= List.length zeta)%nat -> (3 <= List.length xa)%nat -> (3 <= List.length xb)%nat -> (3 <= List.length xc)%nat -> (3 <= List.length xd)%nat -> (3 <= List.length xp)%nat ->
  independent 3 [xa; xb; xc; xd] ->
  exists w, tetrahedron_coords zeta xa xb xc xd xp = Ok (w ++ skipn 4 zeta) /\ affine_weights 3 [xa; xb; xc; xd] xp w /\
    (forall w', affine_weights 3 [xa; xb; xc; xd] xp w' -> w' = w).
Proof.
  intros zeta xa xb xc xd xp Lz La Lb Lc Ld Lp I. destruct (tetrahedron_coords_ok zeta xa xb xc xd xp Lz La Lb Lc Ld Lp I) as (w & E & W).
  exists w. split; [exact E|]. split; [exact W|]. intros w' W'. exact (weights_unique _ _ _ _ _ I W W').
Qed.
Print Assumptions C32_tetrahedron_coords.

Theorem C32_in_tetrahedron : forall zeta xa xb xc xd xp,
  (4 <= List.length zeta)%nat -> (3 <= List.length xa)%nat -> (3 <= List.length xb)%nat -> (3 <= List.length xc)%nat -> (3 <= List.length xd)%nat -> (3 <= List.length xp)%nat ->
  independent 3 [xa; xb; xc; xd] ->
  exists r, (let! zeta' := tetrahedron_coords zeta xa xb xc xd xp in in_tetrahedron zeta') = Ok r /\
    (r = true <-> convex_combination 3 [xa; xb; xc; xd] xp).
Proof.
  intros zeta xa xb xc xd xp Lz La Lb Lc Ld Lp I. destruct (tetrahedron_coords_ok zeta xa xb xc xd xp Lz La Lb Lc Ld Lp I) as (w & -> & W).
  simpl. destruct (in_tetrahedron_iff w (skipn 4 zeta) (proj1 W)) as (r & E & Q). exists r. split; [exact E|].
  rewrite (inside_weights _ _ _ _ I W). exact Q.
Qed.
Print Assumptions C32_in_tetrahedron.
Example C32_tetrahedron_ex : independent 3 [[0; 0; 0]; [1; 0; 0]; [0; 2; 0]; [0; 0; 3]] /\ independent 3 [[1; 0; 0]; [0; 0; 0]; [0; 2; 0]; [0; 0; 3]] /\
  convex_combination 3 [[0; 0; 0]; [1; 0; 0]; [0; 2; 0]; [0; 0; 3]] [1/4; 1/2; 3/4].
Proof.
  split; [apply independent_vol; unfold vol6; lra|]. split; [apply independent_vol; unfold vol6; lra|].
  exists [1/4; 1/4; 1/4; 1/4]. split; [split; [reflexivity|]; split; [unfold total; simpl; lra|]|].
  - intros [|[|[|i]]] H; simpl; try lia; lra.
  - intros x [<-|[<-|[<-|[<-|[]]]]]; lra.
Qed.

(* ------------------------------------------------------------------ C33 *)
(* two points: the Euclidean distance, or an error if the space dimensions do not match *)
Theorem C33_point_point : forall a b,
  ((List.length a = 2 \/ List.length a = 3)%nat -> List.length b = List.length a -> point_point_distance a b = Ok (euclid a b)) /\
  (~ ((List.length a = 2 \/ List.length a = 3)%nat /\ List.length b = List.length a) -> exists m, point_point_distance a b = Err m).
Proof. intros a b. split; [exact (ppd_ok a b)|exact (ppd_err a b)]. Qed.
Print Assumptions C33_point_point.
Example C33_point_point_ex : euclid [1; 2] [4; 6] = 5.
Proof. unfold euclid. simpl. rewrite <- (sqrt_square 5) by lra. f_equal. ring. Qed.

(* line: the distance to the nearest of its points *)
Theorem C33_point_line : forall a b c,
  ((List.length a = 2 \/ List.length a = 3)%nat -> List.length b = List.length a -> List.length c = List.length a -> EPSILON < sqdist b a ->
   exists d, point_line_distance a b c = Ok d /\ distance_to (on_line a b) c d) /\
  (~ ((List.length a = 2 \/ List.length a = 3)%nat /\ List.length b = List.length a /\ List.length c = List.length a /\ EPSILON < sqdist b a) ->
   exists m, point_line_distance a b c = Err m).
Proof. intros a b c. split; [exact (line_distance a b c)|exact (pld_err a b c)]. Qed.
Print Assumptions C33_point_line.

(* circle: the magnitude is the distance to the nearest of its points, negative inside *)
Theorem C33_point_circle : forall center radius p, 0 <= radius ->
  (List.length center = 2%nat -> List.length p = 2%nat ->
   exists d, point_circle_distance center radius p = Ok d /\
     distance_to (on_circle center radius) p (Rabs d) /\ (d < 0 <-> euclid center p < radius)) /\
  (~ (List.length center = 2%nat /\ List.length p = 2%nat) -> exists m, point_circle_distance center radius p = Err m).
Proof.
  intros center radius p HR. split; [intros L M; exact (circle_distance center radius p L M HR)|exact (circle_err center radius p)].
Qed.
Print Assumptions C33_point_circle.

(* cylinder: the magnitude is the distance to the nearest of its points, negative inside *)
Theorem C33_point_cylinder : forall a b radius p, 0 <= radius ->
  (List.length a = 3%nat -> List.length b = 3%nat -> List.length p = 3%nat -> EPSILON < sqdist b a ->
   exists d0 d, point_cylinder_distance a b radius p = Ok d /\ distance_to (on_line a b) p d0 /\
     distance_to (on_cylinder a b radius) p (Rabs d) /\ (d < 0 <-> d0 < radius)) /\
  (~ (List.length a = 3%nat /\ List.length b = 3%nat /\ List.length p = 3%nat /\ EPSILON < sqdist b a) ->
   exists m, point_cylinder_distance a b radius p = Err m).
Proof.
  intros a b radius p HR. split; [intros La Lb Lp HE; exact (cylinder_distance a b radius p La Lb Lp HR HE)|exact (cylinder_err a b radius p)].
Qed.
Print Assumptions C33_point_cylinder.
Example C33_ex : EPSILON < sqdist [1; 1; 1] [0; 0; 0] /\ EPSILON < sqdist [2; 0] [1; 0].
Proof.
  assert (E : EPSILON < 1).
  { unfold EPSILON. rewrite <- Rinv_1. apply Rinv_lt_contravar; [|apply Rlt_pow_R1; [lra|lia]]. rewrite Rmult_1_l. apply pow_lt. lra. }
  simpl. lra.
Qed.

(* ------------------------------------------------------------------ C56 *)
(* the area is half the base times the height *)
Theorem C56_area_magnitude : forall t d, ta t <> tb t ->
  distance_to (on_line (pt (ta t)) (pt (tb t))) (pt (tc t)) d ->
  Rabs (triangle_signed_area t) = euclid (pt (ta t)) (pt (tb t)) * d / 2.
Proof. exact area_base_height. Qed.
Print Assumptions C56_area_magnitude.
Example C56_area_magnitude_ex : let t := mkTri (mkPoint2d 0 0) (mkPoint2d 4 0) (mkPoint2d 2 3) in
  ta t <> tb t /\ distance_to (on_line (pt (ta t)) (pt (tb t))) (pt (tc t)) 3 /\ triangle_signed_area t = 6.
Proof.
  cbv zeta. split; [intros H; injection H; lra|]. split; [|unfold triangle_signed_area, cross; simpl; lra].
  unfold pt. cbn [ta tb tc px py]. pose proof (foot_distance [0; 0] [4; 0] [2; 3] eq_refl eq_refl) as F.
  assert (P : 0 < sqdist [4; 0] [0; 0]) by (simpl; lra). specialize (F P).
  assert (E : euclid [2; 3] (line_pt [0; 0] [4; 0] (foot_t [0; 0] [4; 0] [2; 3])) = 3).
  { transitivity (sqrt (3 * 3)); [|apply sqrt_square; lra]. unfold euclid. f_equal. unfold foot_t, dotd. simpl. field. }
  rewrite E in F. exact F.
Qed.

(* its sign is the orientation: kept by rotating the vertices, changed by swapping two of them, zero iff they are collinear *)
Theorem C56_area_sign : forall a b c,
  triangle_signed_area (mkTri b c a) = triangle_signed_area (mkTri a b c) /\
  triangle_signed_area (mkTri b a c) = - triangle_signed_area (mkTri a b c) /\
  (triangle_signed_area (mkTri a b c) <> 0 <-> independent 2 [pt a; pt b; pt c]).
Proof.
  intros [a0 a1] [b0 b1] [c0 c1]. rewrite !area_coords. cbn [ta tb tc px py]. split; [unfold area2; field|]. split; [unfold area2; field|].
  unfold pt. rewrite independent_area. cbn [px py]. lra.
Qed.
Print Assumptions C56_area_sign.
Example C56_area_sign_ex : 0 < triangle_signed_area (mkTri (mkPoint2d 0 0) (mkPoint2d 1 0) (mkPoint2d 0 1)).
Proof. unfold triangle_signed_area, cross. simpl. lra. Qed.

(* two edge vectors of a triangle span a parallelogram of twice its area *)
Theorem C56_parallelogram : forall a b c,
  parallelogram_signed_area (mkPara (from_points a b) (from_points a c)) = 2 * triangle_signed_area (mkTri a b c).
Proof. intros a b c. unfold parallelogram_signed_area, triangle_signed_area, cross. simpl. field. Qed.
Print Assumptions C56_parallelogram.

(* from slices: the area of the parallelogram of the two vectors; slices shorter than two panic *)
Theorem C56_from_slices : forall u v,
  ((2 <= List.length u)%nat -> (2 <= List.length v)%nat ->
     exists p, parallelogram2d_from_slices u v = Ok p /\ parallelogram_signed_area p = nth 0 u 0 * nth 1 v 0 - nth 1 u 0 * nth 0 v 0) /\
  ((List.length u < 2)%nat \/ (List.length v < 2)%nat -> parallelogram2d_from_slices u v = Panic).
Proof.
  intros u v. split.
  - intros Lu Lv. destruct u as [|u0 [|u1 u]]; try (cbn in Lu; lia). destruct v as [|v0 [|v1 v]]; try (cbn in Lv; lia). eexists. split; [reflexivity|]. reflexivity.
  - unfold parallelogram2d_from_slices. intros [L|L]; apply Nat.leb_gt in L; rewrite L; [reflexivity|]. destruct (2 <=? List.length u)%nat; reflexivity.
Qed.
Print Assumptions C56_from_slices.
Example C56_from_slices_ex : exists p, parallelogram2d_from_slices [1; 2] [3; 5] = Ok p /\ parallelogram_signed_area p = - 1.
Proof. eexists. split; [reflexivity|]. unfold parallelogram_signed_area, cross. cbn. lra. Qed.
Theorem C56_triangle_from_slices : forall a b c t, triangle2d_from_slices a b c = Ok t ->
  2 * triangle_signed_area t = (nth 0 b 0 - nth 0 a 0) * (nth 1 c 0 - nth 1 a 0) - (nth 1 b 0 - nth 1 a 0) * (nth 0 c 0 - nth 0 a 0).
Proof.
  intros a b c t. destruct a as [|a0 [|a1 a]]; try discriminate. destruct b as [|b0 [|b1 b]]; try discriminate. destruct c as [|c0 [|c1 c]]; try discriminate.
  intros H. injection H as <-. unfold triangle_signed_area, cross. simpl. field.
Qed.
Print Assumptions C56_triangle_from_slices.

Theorem C56_angles : forall t, ta t <> tb t -> tb t <> tc t -> tc t <> ta t ->
  let '(A, B, C) := internal_angles t in 0 <= A <= PI /\ 0 <= B <= PI /\ 0 <= C <= PI /\ A + B + C = PI.
Proof. exact internal_angles_sum. Qed.
Print Assumptions C56_angles.
(* each angle is the one between the two edges at the vertex *)
Theorem C56_angle_cos : forall a b c, a <> b -> c <> a ->
  let '(A, _, _) := internal_angles (mkTri a b c) in
  (px b - px a) * (px c - px a) + (py b - py a) * (py c - py a) = euclid (pt a) (pt b) * euclid (pt a) (pt c) * cos A /\
  2 * Rabs (triangle_signed_area (mkTri a b c)) = euclid (pt a) (pt b) * euclid (pt a) (pt c) * sin A.
Proof. exact angle_cos_sin. Qed.
Print Assumptions C56_angle_cos.
(* rotating the vertices rotates the angles *)
Theorem C56_angles_rotate : forall a b c,
  let '(A, B, C) := internal_angles (mkTri a b c) in internal_angles (mkTri b c a) = (B, C, A).
Proof. exact angles_rotate. Qed.
Print Assumptions C56_angles_rotate.
Example C56_angles_ex : let t := mkTri (mkPoint2d 0 0) (mkPoint2d 3 0) (mkPoint2d 0 4) in
  ta t <> tb t /\ tb t <> tc t /\ tc t <> ta t /\ fst (fst (internal_angles t)) = PI / 2.
Proof.
  cbv zeta. split; [intros H; injection H; lra|]. split; [intros H; injection H; lra|]. split; [intros H; injection H; lra|].
  unfold internal_angles, angle_between, from_points. cbn [ta tb tc px py ux uy fst].
  rewrite !(proj2 (Rltb_iff _ _)) by (apply sqrt_lt_R0; lra). simpl.
  match goal with |- acos ?x = _ => replace x with 0 end; [apply acos_0|]. unfold Rdiv. ring.
Qed.
