(* Model of /repo/src/geometry: distances, triangle and tetrahedron coordinates, 2D entities.
   Real numbers stand for f64 (no rounding, no overflow, no NaN); points are vectors (lists) whose
   lengths the code may or may not check; [get]/[set] panic out of bounds as indexing does. *)
From Coq Require Import String List Arith Bool Reals.
From Verif Require Import Base.
Import ListNotations.
Open Scope R_scope.

(* f64 comparisons: a <= b and a < b *)
Definition Rleb (a b : R) : bool := if Rle_dec a b then true else false.
Definition Rltb (a b : R) : bool := if Rlt_dec a b then true else false.

(* f64::EPSILON *)
Definition EPSILON : R := / 2 ^ 52.

(* geometry/algorithms.rs:28-44 *)
Definition point_point_distance (a b : list R) : res R :=
  let ndim := List.length a in
  if ((ndim <? 2) || (3 <? ndim))%nat then Err "a.len() == ndim must be 2 or 3"%string
  else if negb (List.length b =? ndim)%nat then Err "b.len() must equal a.len() == ndim"%string
  else
    let! a0 := get a 0 in let! a1 := get a 1 in
    let! b0 := get b 0 in let! b1 := get b 1 in
    if (ndim =? 2)%nat then
      Ok (sqrt ((b0 - a0) * (b0 - a0) + (b1 - a1) * (b1 - a1)))
    else
      let! a2 := get a 2 in let! b2 := get b 2 in
      Ok (sqrt ((b0 - a0) * (b0 - a0) + (b1 - a1) * (b1 - a1) + (b2 - a2) * (b2 - a2))).

(* geometry/algorithms.rs:94-134 *)
Definition point_line_distance (a b c : list R) : res R :=
  let ndim := List.length a in
  if ((ndim <? 2) || (3 <? ndim))%nat then Err "a.len() == ndim must be 2 or 3"%string
  else if negb (List.length b =? ndim)%nat then Err "b.len() must equal a.len() == ndim"%string
  else if negb (List.length c =? ndim)%nat then Err "c.len() must equal a.len() == ndim"%string
  else
    let! a0 := get a 0 in let! a1 := get a 1 in
    let! b0 := get b 0 in let! b1 := get b 1 in
    let! c0 := get c 0 in let! c1 := get c 1 in
    if (ndim =? 2)%nat then
      let n_dot_n := (b0 - a0) * (b0 - a0) + (b1 - a1) * (b1 - a1) in
      if Rleb n_dot_n EPSILON then Err "a-to-b segment is too short"%string
      else
        let x_dot_n := (c0 - a0) * (b0 - a0) + (c1 - a1) * (b1 - a1) in
        let q0 := (c0 - a0) - (b0 - a0) * x_dot_n / n_dot_n in
        let q1 := (c1 - a1) - (b1 - a1) * x_dot_n / n_dot_n in
        Ok (sqrt (q0 * q0 + q1 * q1))
    else
      let! a2 := get a 2 in let! b2 := get b 2 in let! c2 := get c 2 in
      let n_dot_n := (b0 - a0) * (b0 - a0) + (b1 - a1) * (b1 - a1) + (b2 - a2) * (b2 - a2) in
      if Rleb n_dot_n EPSILON then Err "a-to-b segment is too short"%string
      else
        let x_dot_n := (c0 - a0) * (b0 - a0) + (c1 - a1) * (b1 - a1) + (c2 - a2) * (b2 - a2) in
        let q0 := (c0 - a0) - (b0 - a0) * x_dot_n / n_dot_n in
        let q1 := (c1 - a1) - (b1 - a1) * x_dot_n / n_dot_n in
        let q2 := (c2 - a2) - (b2 - a2) * x_dot_n / n_dot_n in
        Ok (sqrt (q0 * q0 + q1 * q1 + q2 * q2)).

(* geometry/algorithms.rs:176-188; the unwrap panics on an error *)
Definition point_circle_distance (center : list R) (radius : R) (p : list R) : res R :=
  let ndim := List.length center in
  if negb (ndim =? 2)%nat then Err "center.len() == ndim must be 2"%string
  else if negb (List.length p =? ndim)%nat then Err "x.len() must equal center.len() == ndim"%string
  else
    let! center_distance := (match point_point_distance center p with Err _ => Panic | r => r end) in
    Ok (center_distance - radius).

(* geometry/algorithms.rs:231-247 *)
Definition point_cylinder_distance (a b : list R) (radius : R) (p : list R) : res R :=
  let ndim := List.length a in
  if negb (ndim =? 3)%nat then Err "axis_a.len() == ndim must be 3"%string
  else if negb (List.length b =? ndim)%nat then Err "axis_b.len() must equal center.len() == ndim"%string
  else if negb (List.length p =? ndim)%nat then Err "p.len() must equal center.len() == ndim"%string
  else
    let! center_distance := point_line_distance a b p in
    Ok (center_distance - radius).

(* geometry/triangle.rs:21-26; zeta is the output buffer, returned after the writes.
   Division by zero is 0 in R; the theorems exclude a zero denominator. *)
Definition triangle_coords (zeta xa xb xc xp : list R) : res (list R) :=
  let! a0 := get xa 0 in let! a1 := get xa 1 in
  let! b0 := get xb 0 in let! b1 := get xb 1 in
  let! c0 := get xc 0 in let! c1 := get xc 1 in
  let! p0 := get xp 0 in let! p1 := get xp 1 in
  let a2 := a0 * (b1 - c1) + b0 * (c1 - a1) + c0 * (a1 - b1) in
  let! zeta := set zeta 0 ((p0 * (b1 - c1) + b0 * (c1 - p1) + c0 * (p1 - b1)) / a2) in
  let! zeta := set zeta 1 ((a0 * (p1 - c1) + p0 * (c1 - a1) + c0 * (a1 - p1)) / a2) in
  set zeta 2 ((a0 * (b1 - p1) + b0 * (p1 - a1) + p0 * (a1 - b1)) / a2).

(* geometry/triangle.rs:40-46; || evaluates its right side only if the left is false *)
Definition in_triangle (zeta : list R) : res bool :=
  let! z0 := get zeta 0 in
  if Rltb z0 0 then Ok false else
  let! z1 := get zeta 1 in
  if Rltb z1 0 then Ok false else
  let! z2 := get zeta 2 in
  if Rltb z2 0 then Ok false else Ok true.

(* geometry/tetrahedron.rs:21-50 *)
Definition tetrahedron_coords (zeta xa xb xc xd xp : list R) : res (list R) :=
  let! x1 := get xa 0 in let! y1 := get xa 1 in let! z1 := get xa 2 in
  let! x2 := get xb 0 in let! y2 := get xb 1 in let! z2 := get xb 2 in
  let! x3 := get xc 0 in let! y3 := get xc 1 in let! z3 := get xc 2 in
  let! x4 := get xd 0 in let! y4 := get xd 1 in let! z4 := get xd 2 in
  let! x := get xp 0 in let! y := get xp 1 in let! z := get xp 2 in
  let v6 := (x2 - x1) * ((y2 - y3) * (z3 - z4) - (y3 - y4) * (z2 - z3))
        + (x3 - x2) * ((y3 - y4) * (z1 - z2) - (y1 - y2) * (z3 - z4))
        + (x4 - x3) * ((y1 - y2) * (z2 - z3) - (y2 - y3) * (z1 - z2)) in
  let! zeta := set zeta 0 (((x2 * (y3 * z4 - y4 * z3) + x3 * (y4 * z2 - y2 * z4) + x4 * (y2 * z3 - y3 * z2))
        + x * ((y4 - y2) * (z3 - z2) - (y3 - y2) * (z4 - z2))
        + y * ((x3 - x2) * (z4 - z2) - (x4 - x2) * (z3 - z2))
        + z * ((x4 - x2) * (y3 - y2) - (x3 - x2) * (y4 - y2)))
        / v6) in
  let! zeta := set zeta 1 (((x1 * (y4 * z3 - y3 * z4) + x3 * (y1 * z4 - y4 * z1) + x4 * (y3 * z1 - y1 * z3))
        + x * ((y3 - y1) * (z4 - z3) - (y3 - y4) * (z1 - z3))
        + y * ((x4 - x3) * (z3 - z1) - (x1 - x3) * (z3 - z4))
        + z * ((x3 - x1) * (y4 - y3) - (x3 - x4) * (y1 - y3)))
        / v6) in
  let! zeta := set zeta 2 (((x1 * (y2 * z4 - y4 * z2) + x2 * (y4 * z1 - y1 * z4) + x4 * (y1 * z2 - y2 * z1))
        + x * ((y2 - y4) * (z1 - z4) - (y1 - y4) * (z2 - z4))
        + y * ((x1 - x4) * (z2 - z4) - (x2 - x4) * (z1 - z4))
        + z * ((x2 - x4) * (y1 - y4) - (x1 - x4) * (y2 - y4)))
        / v6) in
  set zeta 3 (((x1 * (y3 * z2 - y2 * z3) + x2 * (y1 * z3 - y3 * z1) + x3 * (y2 * z1 - y1 * z2))
        + x * ((y1 - y3) * (z2 - z1) - (y1 - y2) * (z3 - z1))
        + y * ((x2 - x1) * (z1 - z3) - (x3 - x1) * (z1 - z2))
        + z * ((x1 - x3) * (y2 - y1) - (x1 - x2) * (y3 - y1)))
        / v6).

(* geometry/tetrahedron.rs:64-70 *)
Definition in_tetrahedron (zeta : list R) : res bool :=
  let! z0 := get zeta 0 in
  if Rltb z0 0 then Ok false else
  let! z1 := get zeta 1 in
  if Rltb z1 0 then Ok false else
  let! z2 := get zeta 2 in
  if Rltb z2 0 then Ok false else
  let! z3 := get zeta 3 in
  if Rltb z3 0 then Ok false else Ok true.

(* geometry/entities.rs:3-6, 26-29, 63-67, 90-95 *)
Record point2d := mkPoint2d { px : R; py : R }.
Record vector2d := mkVector2d { ux : R; uy : R }.
Record parallelogram2d := mkPara { pu : vector2d; pv : vector2d }.
Record triangle2d := mkTri { ta : point2d; tb : point2d; tc : point2d }.

(* geometry/entities.rs:15-21 and 37-43; assert!(len >= 2) *)
Definition point2d_from_slice (s : list R) : res point2d :=
  if (2 <=? List.length s)%nat then let! x := get s 0 in let! y := get s 1 in Ok (mkPoint2d x y) else Panic.
Definition vector2d_from_slice (s : list R) : res vector2d :=
  if (2 <=? List.length s)%nat then let! x := get s 0 in let! y := get s 1 in Ok (mkVector2d x y) else Panic.

(* geometry/entities.rs:46-51 *)
Definition from_points (a b : point2d) : vector2d := mkVector2d (px b - px a) (py b - py a).

(* geometry/entities.rs:56-58 *)
Definition cross (u v : vector2d) : R := ux u * uy v - uy u * ux v.

(* geometry/entities.rs:73-80 *)
Definition parallelogram2d_from_slices (u v : list R) : res parallelogram2d :=
  if (2 <=? List.length u)%nat then
    if (2 <=? List.length v)%nat then
      let! u0 := get u 0 in let! u1 := get u 1 in let! v0 := get v 0 in let! v1 := get v 1 in
      Ok (mkPara (mkVector2d u0 u1) (mkVector2d v0 v1))
    else Panic
  else Panic.

(* geometry/entities.rs:83-85 *)
Definition parallelogram_signed_area (p : parallelogram2d) : R := cross (pu p) (pv p).

(* geometry/entities.rs:104-110 *)
Definition triangle2d_from_slices (a b c : list R) : res triangle2d :=
  let! a := point2d_from_slice a in
  let! b := point2d_from_slice b in
  let! c := point2d_from_slice c in Ok (mkTri a b c).

(* geometry/entities.rs:113-123 *)
Definition triangle_signed_area (t : triangle2d) : R :=
  let vec_ab := mkVector2d (px (tb t) - px (ta t)) (py (tb t) - py (ta t)) in
  let vec_ac := mkVector2d (px (tc t) - px (ta t)) (py (tc t) - py (ta t)) in
  cross vec_ab vec_ac / 2.

(* geometry/entities.rs:131-172; each block has the same shape: the angle between two edge vectors.
   acos is the exact arccosine on [-1, 1] *)
Definition angle_between (u v : vector2d) : R :=
  let dot := ux u * ux v + uy u * uy v in
  let len_u := sqrt (ux u * ux u + uy u * uy u) in
  let len_v := sqrt (ux v * ux v + uy v * uy v) in
  if Rltb 0 len_u && Rltb 0 len_v then acos (dot / (len_u * len_v)) else 0.
Definition internal_angles (t : triangle2d) : R * R * R :=
  let ab := from_points (ta t) (tb t) in
  let ac := from_points (ta t) (tc t) in
  let ba := from_points (tb t) (ta t) in
  let bc := from_points (tb t) (tc t) in
  let ca := from_points (tc t) (ta t) in
  let cb := from_points (tc t) (tb t) in
  (angle_between ab ac, angle_between ba bc, angle_between ca cb).
