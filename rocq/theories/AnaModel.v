(* Closed forms of element vectors and matrices.  Models
   - AnalyticalTri3  (src/integ/analytical_tri3.rs)
   - AnalyticalTet4  (src/integ/analytical_tet4.rs)
   - AnalyticalQua4  (src/integ/analytical_qua4.rs)
   - AnalyticalQua8  (src/integ/analytical_qua8.rs)
   The methods without branches on the side and without external calls are translated by
   tools/gen_analytical.py (AnaData.v); here are the constructors, the boundary integrals and mat_10_bdb.
   f64 is modelled by R.  Matrix::get, v[i]: [ent] and [vat] (0 outside; the sizes are fixed by the
   constructors, and the theorems assume the sizes of pads and tensors).  LinElasticity
   (crate russell_tensor) is outside: mat_10_bdb gets the matrix of the modulus it would have returned. *)
From Coq Require Import String Reals List Arith Bool.
From Verif Require Import Base Kind ShapesModel GeomModel PadModel GaussModel IntegModel AnaData.
Import ListNotations.
Local Open Scope string_scope.
Local Open Scope list_scope.
Local Open Scope R_scope.

(* analytical_tri3.rs:8-35 *)
Record tri3 := mkTri3 { t_area : R; t_bb : mat; t_bbe : mat; t_ll : list R; t_x0 : R; t_x1 : R; t_x2 : R }.

(* analytical_tri3.rs:39-92 *)
Definition tri3_new (p : pad) : res tri3 :=
  match p_kind p with
  | Tri3 =>
    let X i j := ent (p_xxt p) i j in
    let x0 := X 0%nat 0%nat in let y0 := X 1%nat 0%nat in
    let x1 := X 0%nat 1%nat in let y1 := X 1%nat 1%nat in
    let x2 := X 0%nat 2%nat in let y2 := X 1%nat 2%nat in
    let a0 := y1 - y2 in let a1 := y2 - y0 in let a2 := y0 - y1 in
    let b0 := x2 - x1 in let b1 := x0 - x2 in let b2 := x1 - x0 in
    let f0 := x1 * y2 - x2 * y1 in let f1 := x2 * y0 - x0 * y2 in let f2 := x0 * y1 - x1 * y0 in
    let area := (f0 + f1 + f2) / 2 in
    let r := 2 * area in
    let s := r * sqrt 2 in
    let bb := [[a0/r; b0/r]; [a1/r; b1/r]; [a2/r; b2/r]] in
    let bbe := [
      [a0/r;   0 ; a1/r;   0 ; a2/r;   0 ];
      [  0 ; b0/r;   0 ; b1/r;   0 ; b2/r];
      [  0 ;   0 ;   0 ;   0 ;   0 ;   0 ];
      [b0/s; a0/s; b1/s; a1/s; b2/s; a2/s]] in
    let ll := [
      sqrt ((x0 - x1) * (x0 - x1) + (y0 - y1) * (y0 - y1));
      sqrt ((x1 - x2) * (x1 - x2) + (y1 - y2) * (y1 - y2));
      sqrt ((x2 - x0) * (x2 - x0) + (y2 - y0) * (y2 - y0))] in
    Ok (mkTri3 area bb bbe ll x0 x1 x2)
  | _ => Panic
  end.

(* a method of AnaData on the fields of self *)
Definition on_tri3 {X} (f : R -> mat -> R -> R -> R -> X) (t : tri3) : X := f (t_area t) (t_bb t) (t_x0 t) (t_x1 t) (t_x2 t).

(* analytical_tri3.rs:113-118, 234-239: the coordinates of the side *)
Definition side_x (t : tri3) (side : nat) : res (R * R) :=
  match side with
  | 0%nat => Ok (t_x1 t, t_x0 t)
  | 1%nat => Ok (t_x2 t, t_x1 t)
  | 2%nat => Ok (t_x0 t, t_x2 t)
  | _ => Panic
  end.

(* self.ll[side] *)
Definition length_at (t : tri3) (side : nat) : res R :=
  match nth_error (t_ll t) side with Some l => Ok l | None => Panic end.

(* analytical_tri3.rs:111-126 *)
Definition tri3_vec_01_ns_bry (t : tri3) (side : nat) (s : R) (axisymmetric : bool) : res (list R) :=
  if axisymmetric then
    let! a := side_x t side in
    let '(a0, a1) := a in
    let! l := length_at t side in
    let c := s * l / 6 in
    Ok [c * (2 * a0 + a1); c * (a0 + 2 * a1)]
  else
    let! l := length_at t side in
    let c := s * l / 2 in
    Ok [c; c].

(* analytical_tri3.rs:232-250 *)
Definition tri3_mat_01_nsn_bry (t : tri3) (side : nat) (s : R) (axisymmetric : bool) : res mat :=
  if axisymmetric then
    let! a := side_x t side in
    let '(a0, a1) := a in
    let! l := length_at t side in
    let c := s * l / 12 in
    Ok [[c * (3 * a0 + a1); c * (a0 + a1)]; [c * (a0 + a1); c * (a0 + 3 * a1)]]
  else
    let! l := length_at t side in
    let c := s * l / 6 in
    Ok [[2 * c; c]; [c; 2 * c]].

(* russell_lab: mat_t_mat_mul(&mut c, alpha, a, b, 0.0) and mat_mat_mul(&mut c, alpha, a, b, 0.0), with n
   the columns of the result; an Err (wrong dimensions) is unwrapped *)
Definition scaled (alpha : R) (a : mat) : mat := map (map (Rmult alpha)) a.
Definition transposed (n : nat) (a : mat) : mat := map (col a) (seq 0 n).
Definition b_d_b (nd nk : nat) (alpha : R) (bbe dd : mat) : res mat :=
  if ((nrow bbe =? nd) && (ncol bbe =? nk) && (nrow dd =? nd) && (ncol dd =? nd))%nat then
    let bb_t_dd := scaled 1 (mat_mul nd (transposed nk bbe) dd) in
    Ok (scaled alpha (mat_mul nk bb_t_dd bbe))
  else Panic.

(* analytical_tri3.rs:336-347 (dd: the matrix of the modulus) *)
Definition tri3_mat_10_bdb (t : tri3) (dd : mat) (th : R) : res mat := b_d_b 4 6 (th * t_area t) (t_bbe t) dd.

(* analytical_tet4.rs:8-27 *)
Record tet4 := mkTet4 { e_volume : R; e_bb : mat; e_bbe : mat }.

(* analytical_tet4.rs:31-126 *)
Definition tet4_new (p : pad) : res tet4 :=
  match p_kind p with
  | Tet4 =>
    let X i j := ent (p_xxt p) i j in
    let x1 := X 0%nat 0%nat in let x2 := X 0%nat 1%nat in let x3 := X 0%nat 2%nat in let x4 := X 0%nat 3%nat in
    let y1 := X 1%nat 0%nat in let y2 := X 1%nat 1%nat in let y3 := X 1%nat 2%nat in let y4 := X 1%nat 3%nat in
    let z1 := X 2%nat 0%nat in let z2 := X 2%nat 1%nat in let z3 := X 2%nat 2%nat in let z4 := X 2%nat 3%nat in
    let x12 := x1 - x2 in let x13 := x1 - x3 in let x14 := x1 - x4 in
    let x23 := x2 - x3 in let x24 := x2 - x4 in let x34 := x3 - x4 in
    let x21 := - x12 in let x31 := - x13 in let x32 := - x23 in let x42 := - x24 in let x43 := - x34 in
    let y12 := y1 - y2 in let y13 := y1 - y3 in let y14 := y1 - y4 in
    let y23 := y2 - y3 in let y24 := y2 - y4 in let y34 := y3 - y4 in
    let y21 := - y12 in let y31 := - y13 in let y32 := - y23 in let y42 := - y24 in let y43 := - y34 in
    let z12 := z1 - z2 in let z13 := z1 - z3 in let z14 := z1 - z4 in
    let z23 := z2 - z3 in let z24 := z2 - z4 in let z34 := z3 - z4 in
    let z21 := - z12 in let z31 := - z13 in let z32 := - z23 in let z42 := - z24 in let z43 := - z34 in
    let jj_det := x21 * (y23 * z34 - y34 * z23) + x32 * (y34 * z12 - y12 * z34) + x43 * (y12 * z23 - y23 * z12) in
    let a1 := y42 * z32 - y32 * z42 in
    let b1 := x32 * z42 - x42 * z32 in
    let c1 := x42 * y32 - x32 * y42 in
    let a2 := y31 * z43 - y34 * z13 in
    let b2 := x43 * z31 - x13 * z34 in
    let c2 := x31 * y43 - x34 * y13 in
    let a3 := y24 * z14 - y14 * z24 in
    let b3 := x14 * z24 - x24 * z14 in
    let c3 := x24 * y14 - x14 * y24 in
    let a4 := y13 * z21 - y12 * z31 in
    let b4 := x21 * z13 - x31 * z12 in
    let c4 := x13 * y21 - x12 * y31 in
    let r := jj_det in
    let s := r * sqrt 2 in
    let bb := [[a1/r; b1/r; c1/r]; [a2/r; b2/r; c2/r]; [a3/r; b3/r; c3/r]; [a4/r; b4/r; c4/r]] in
    let bbe := [
      [a1/r;   0 ;   0 ; a2/r;   0 ;   0 ; a3/r;   0 ;   0 ; a4/r;   0 ;   0 ];
      [  0 ; b1/r;   0 ;   0 ; b2/r;   0 ;   0 ; b3/r;   0 ;   0 ; b4/r;   0 ];
      [  0 ;   0 ; c1/r;   0 ;   0 ; c2/r;   0 ;   0 ; c3/r;   0 ;   0 ; c4/r];
      [b1/s; a1/s;   0 ; b2/s; a2/s;   0 ; b3/s; a3/s;   0 ; b4/s; a4/s;   0 ];
      [  0 ; c1/s; b1/s;   0 ; c2/s; b2/s;   0 ; c3/s; b3/s;   0 ; c4/s; b4/s];
      [c1/s;   0 ; a1/s; c2/s;   0 ; a2/s; c3/s;   0 ; a3/s; c4/s;   0 ; a4/s]] in
    Ok (mkTet4 (jj_det / 6) bb bbe)
  | _ => Panic
  end.
Definition on_tet4 {X} (f : R -> mat -> X) (t : tet4) : X := f (e_volume t) (e_bb t).

(* analytical_tet4.rs:431-442 *)
Definition tet4_mat_10_bdb (t : tet4) (dd : mat) : res mat := b_d_b 6 12 (e_volume t) (e_bbe t) dd.
