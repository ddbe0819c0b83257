(* Generated by tools/gen_analytical.py from src/integ/analytical_{tri3,tet4,qua4,qua8}.rs; do not edit.
   One definition per function, the fields of self first; Scratchpad is its matrix xxt, Tensor2 its
   Mandel vector.  f64 is modelled by R. *)
From Coq Require Import Reals List.
From Verif Require Import Base Kind ShapesModel GeomModel PadModel GaussModel IntegModel.
Import ListNotations.
Local Open Scope R_scope.

(* russell_tensor::Tensor2::get and as_matrix: components 00 11 22 01 12 02, the last three times sqrt 2 *)
Definition tensor_get (tt : list R) (i j : nat) : R :=
  match i, j with
  | 0%nat, 0%nat => vat tt 0 | 1%nat, 1%nat => vat tt 1 | 2%nat, 2%nat => vat tt 2
  | 0%nat, 1%nat | 1%nat, 0%nat => vat tt 3 / sqrt 2
  | 1%nat, 2%nat | 2%nat, 1%nat => vat tt 4 / sqrt 2
  | _, _ => vat tt 5 / sqrt 2
  end.
Definition as_matrix (tt : list R) : mat :=
  map (fun i => map (tensor_get tt i) (seq 0 3)) (seq 0 3).

(* analytical_tri3.rs:94-106 *)
Definition tri3_vec_01_ns (area : R) (bb : mat) (x0 x1 x2 : R) (s : R) (axisymmetric : bool) : list R :=
  if axisymmetric then
    let c := s * area / 12 in
  [c * (2 * x0 + x1 + x2);
     c * (x0 + 2 * x1 + x2);
     c * (x0 + x1 + 2 * x2)]
  else
    let c := s * area / 3 in
  [c;
     c;
     c].

(* analytical_tri3.rs:143-152 *)
Definition tri3_vec_02_nv (area : R) (bb : mat) (x0 x1 x2 : R) (v0 : R) (v1 : R) : list R :=
  [v0 * area / 3;
     v1 * area / 3;
     v0 * area / 3;
     v1 * area / 3;
     v0 * area / 3;
     v1 * area / 3].

(* analytical_tri3.rs:161-167 *)
Definition tri3_vec_03_bv (area : R) (bb : mat) (x0 x1 x2 : R) (w0 : R) (w1 : R) : list R :=
  [(w0 * ent bb 0 0 + w1 * ent bb 0 1) * area;
     (w0 * ent bb 1 0 + w1 * ent bb 1 1) * area;
     (w0 * ent bb 2 0 + w1 * ent bb 2 1) * area].

(* analytical_tri3.rs:182-190 *)
Definition tri3_vec_03_bv_bilinear (area : R) (bb : mat) (x0 x1 x2 : R) (xxt : mat) : list R :=
  let x0 := ent xxt 0 0 in let x1 := ent xxt 0 1 in let x2 := ent xxt 0 2 in 
  let y0 := ent xxt 1 0 in let y1 := ent xxt 1 1 in let y2 := ent xxt 1 2 in 
  [((x0 + x1 + x2) * ent bb 0 0 + (y0 + y1 + y2) * ent bb 0 1) * area / 3;
     ((x0 + x1 + x2) * ent bb 1 0 + (y0 + y1 + y2) * ent bb 1 1) * area / 3;
     ((x0 + x1 + x2) * ent bb 2 0 + (y0 + y1 + y2) * ent bb 2 1) * area / 3].

(* analytical_tri3.rs:194-221 *)
Definition tri3_vec_04_bt (area : R) (bb : mat) (x0 x1 x2 : R) (tt : list R) (axisymmetric : bool) : list R :=
  let x0 := x0 in let x1 := x1 in let x2 := x2 in 
  let b00 := ent bb 0 0 in let b01 := ent bb 0 1 in 
  let b10 := ent bb 1 0 in let b11 := ent bb 1 1 in 
  let b20 := ent bb 2 0 in let b21 := ent bb 2 1 in 
  let t0 := vat tt 0 in let t1 := vat tt 1 in let t2 := vat tt 2 in let t3 := vat tt 3 in 
  if axisymmetric then
    let c := area / 3 in
  [c * (b00 * t0 + b01 * t3 / sqrt 2) * (x0 + x1 + x2) + c * t2;
     c * (b01 * t1 + b00 * t3 / sqrt 2) * (x0 + x1 + x2);
     c * (b10 * t0 + b11 * t3 / sqrt 2) * (x0 + x1 + x2) + c * t2;
     c * (b11 * t1 + b10 * t3 / sqrt 2) * (x0 + x1 + x2);
     c * (b20 * t0 + b21 * t3 / sqrt 2) * (x0 + x1 + x2) + c * t2;
     c * (b21 * t1 + b20 * t3 / sqrt 2) * (x0 + x1 + x2)]
  else
    let c := area in
  [c * (b00 * t0 + b01 * t3 / sqrt 2);
     c * (b01 * t1 + b00 * t3 / sqrt 2);
     c * (b10 * t0 + b11 * t3 / sqrt 2);
     c * (b11 * t1 + b10 * t3 / sqrt 2);
     c * (b20 * t0 + b21 * t3 / sqrt 2);
     c * (b21 * t1 + b20 * t3 / sqrt 2)].

(* analytical_tri3.rs:224-227 *)
Definition tri3_mat_01_nsn (area : R) (bb : mat) (x0 x1 x2 : R) (s : R) (th : R) : mat :=
  let c := th * s * area / 12 in
  [[2 * c; c; c];
     [c; 2 * c; c];
     [c; c; 2 * c]].

(* analytical_tri3.rs:253-261 *)
Definition tri3_mat_02_bvn (area : R) (bb : mat) (x0 x1 x2 : R) (v0 : R) (v1 : R) : mat :=
  let aa := area in
  let g := bb in
  [[aa*(ent g 0 0*v0 + ent g 0 1*v1)/3; aa*(ent g 0 0*v0 + ent g 0 1*v1)/3; aa*(ent g 0 0*v0 + ent g 0 1*v1)/3];
     [aa*(ent g 1 0*v0 + ent g 1 1*v1)/3; aa*(ent g 1 0*v0 + ent g 1 1*v1)/3; aa*(ent g 1 0*v0 + ent g 1 1*v1)/3];
     [aa*(ent g 2 0*v0 + ent g 2 1*v1)/3; aa*(ent g 2 0*v0 + ent g 2 1*v1)/3; aa*(ent g 2 0*v0 + ent g 2 1*v1)/3]].

(* analytical_tri3.rs:265-278 *)
Definition tri3_mat_02_bvn_bilinear (area : R) (bb : mat) (x0 x1 x2 : R) (xxt : mat) : mat :=
  let aa := area in
  let b00 := ent bb 0 0 in let b01 := ent bb 0 1 in 
  let b10 := ent bb 1 0 in let b11 := ent bb 1 1 in 
  let b20 := ent bb 2 0 in let b21 := ent bb 2 1 in 
  let x0 := ent xxt 0 0 in let y0 := ent xxt 1 0 in 
  let x1 := ent xxt 0 1 in let y1 := ent xxt 1 1 in 
  let x2 := ent xxt 0 2 in let y2 := ent xxt 1 2 in 
  [[(aa*(2*b00*x0 + b00*x1 + b00*x2 + 2*b01*y0 + b01*y1 + b01*y2))/12; (aa*(b00*x0 + 2*b00*x1 + b00*x2 + b01*y0 + 2*b01*y1 + b01*y2))/12; (aa*(b00*x0 + b00*x1 + 2*b00*x2 + b01*y0 + b01*y1 + 2*b01*y2))/12];
     [(aa*(2*b10*x0 + b10*x1 + b10*x2 + 2*b11*y0 + b11*y1 + b11*y2))/12; (aa*(b10*x0 + 2*b10*x1 + b10*x2 + b11*y0 + 2*b11*y1 + b11*y2))/12; (aa*(b10*x0 + b10*x1 + 2*b10*x2 + b11*y0 + b11*y1 + 2*b11*y2))/12];
     [(aa*(2*b20*x0 + b20*x1 + b20*x2 + 2*b21*y0 + b21*y1 + b21*y2))/12; (aa*(b20*x0 + 2*b20*x1 + b20*x2 + b21*y0 + 2*b21*y1 + b21*y2))/12; (aa*(b20*x0 + b20*x1 + 2*b20*x2 + b21*y0 + b21*y1 + 2*b21*y2))/12]].

(* analytical_tri3.rs:281-297 *)
Definition tri3_mat_03_btb (area : R) (bb : mat) (x0 x1 x2 : R) (kx : R) (ky : R) (axisymmetric : bool) : mat :=
  let c := if axisymmetric then
    area * (x0 + x1 + x2) / 3
  else
    area in
  let b00 := ent bb 0 0 in let b01 := ent bb 0 1 in 
  let b10 := ent bb 1 0 in let b11 := ent bb 1 1 in 
  let b20 := ent bb 2 0 in let b21 := ent bb 2 1 in 
  let k00 := c * (b00 * b00 * kx + b01 * b01 * ky) in
  let k11 := c * (b10 * b10 * kx + b11 * b11 * ky) in
  let k01 := c * (b00 * b10 * kx + b01 * b11 * ky) in
  let k12 := c * (b10 * b20 * kx + b11 * b21 * ky) in
  let k02 := c * (b00 * b20 * kx + b01 * b21 * ky) in
  let k22 := c * (b20 * b20 * kx + b21 * b21 * ky) in
  [[k00; k01; k02];
     [k01; k11; k12];
     [k02; k12; k22]].

(* analytical_tri3.rs:300-310 *)
Definition tri3_mat_08_ntn (area : R) (bb : mat) (x0 x1 x2 : R) (rho : R) (th : R) : mat :=
  let c := th * rho * area / 12 in
  [[c * 2; c * 0; c * 1; c * 0; c * 1; c * 0];
     [c * 0; c * 2; c * 0; c * 1; c * 0; c * 1];
     [c * 1; c * 0; c * 2; c * 0; c * 1; c * 0];
     [c * 0; c * 1; c * 0; c * 2; c * 0; c * 1];
     [c * 1; c * 0; c * 1; c * 0; c * 2; c * 0];
     [c * 0; c * 1; c * 0; c * 1; c * 0; c * 2]].

(* analytical_tri3.rs:314-327 *)
Definition tri3_mat_09_nvb (area : R) (bb : mat) (x0 x1 x2 : R) (v0 : R) (v1 : R) : mat :=
  let b00 := ent bb 0 0 in let b01 := ent bb 0 1 in 
  let b10 := ent bb 1 0 in let b11 := ent bb 1 1 in 
  let b20 := ent bb 2 0 in let b21 := ent bb 2 1 in 
  let c := area / 3 in
  [[c*b00*v0; c*b01*v0; c*b10*v0; c*b11*v0; c*b20*v0; c*b21*v0];
     [c*b00*v1; c*b01*v1; c*b10*v1; c*b11*v1; c*b20*v1; c*b21*v1];
     [c*b00*v0; c*b01*v0; c*b10*v0; c*b11*v0; c*b20*v0; c*b21*v0];
     [c*b00*v1; c*b01*v1; c*b10*v1; c*b11*v1; c*b20*v1; c*b21*v1];
     [c*b00*v0; c*b01*v0; c*b10*v0; c*b11*v0; c*b20*v0; c*b21*v0];
     [c*b00*v1; c*b01*v1; c*b10*v1; c*b11*v1; c*b20*v1; c*b21*v1]].

(* analytical_tet4.rs:141-148 *)
Definition tet4_vec_01_ns (volume : R) (bb : mat) (cs : R) : list R :=
  [cs * volume / 4;
     cs * volume / 4;
     cs * volume / 4;
     cs * volume / 4].

(* analytical_tet4.rs:156-169 *)
Definition tet4_vec_01_ns_linear_along_z (volume : R) (bb : mat) (xxt : mat) : list R :=
  let z1 := ent xxt 2 0 in let z2 := ent xxt 2 1 in let z3 := ent xxt 2 2 in let z4 := ent xxt 2 3 in 
  [(volume * (2 * z1 + z2 + z3 + z4)) / 20;
     (volume * (z1 + 2 * z2 + z3 + z4)) / 20;
     (volume * (z1 + z2 + 2 * z3 + z4)) / 20;
     (volume * (z1 + z2 + z3 + 2 * z4)) / 20].

(* analytical_tet4.rs:180-195 *)
Definition tet4_vec_02_nv (volume : R) (bb : mat) (v0 : R) (v1 : R) (v2 : R) : list R :=
  [v0 * volume / 4;
     v1 * volume / 4;
     v2 * volume / 4;
     v0 * volume / 4;
     v1 * volume / 4;
     v2 * volume / 4;
     v0 * volume / 4;
     v1 * volume / 4;
     v2 * volume / 4;
     v0 * volume / 4;
     v1 * volume / 4;
     v2 * volume / 4].

(* analytical_tet4.rs:205-212 *)
Definition tet4_vec_03_bv (volume : R) (bb : mat) (w0 : R) (w1 : R) (w2 : R) : list R :=
  [(w0 * ent bb 0 0 + w1 * ent bb 0 1 + w2 * ent bb 0 2) * volume;
     (w0 * ent bb 1 0 + w1 * ent bb 1 1 + w2 * ent bb 1 2) * volume;
     (w0 * ent bb 2 0 + w1 * ent bb 2 1 + w2 * ent bb 2 2) * volume;
     (w0 * ent bb 3 0 + w1 * ent bb 3 1 + w2 * ent bb 3 2) * volume].

(* analytical_tet4.rs:226-246 *)
Definition tet4_vec_04_bt (volume : R) (bb : mat) (tt : list R) : list R :=
  let c := volume in
  let mat := as_matrix tt in
  let a00 := ent mat 0 0 in let a01 := ent mat 0 1 in let a02 := ent mat 0 2 in 
  let a11 := ent mat 1 1 in let a12 := ent mat 1 2 in 
  let a22 := ent mat 2 2 in
  [c * (a00 * ent bb 0 0 + a01 * ent bb 0 1 + a02 * ent bb 0 2);
     c * (a01 * ent bb 0 0 + a11 * ent bb 0 1 + a12 * ent bb 0 2);
     c * (a02 * ent bb 0 0 + a12 * ent bb 0 1 + a22 * ent bb 0 2);
     c * (a00 * ent bb 1 0 + a01 * ent bb 1 1 + a02 * ent bb 1 2);
     c * (a01 * ent bb 1 0 + a11 * ent bb 1 1 + a12 * ent bb 1 2);
     c * (a02 * ent bb 1 0 + a12 * ent bb 1 1 + a22 * ent bb 1 2);
     c * (a00 * ent bb 2 0 + a01 * ent bb 2 1 + a02 * ent bb 2 2);
     c * (a01 * ent bb 2 0 + a11 * ent bb 2 1 + a12 * ent bb 2 2);
     c * (a02 * ent bb 2 0 + a12 * ent bb 2 1 + a22 * ent bb 2 2);
     c * (a00 * ent bb 3 0 + a01 * ent bb 3 1 + a02 * ent bb 3 2);
     c * (a01 * ent bb 3 0 + a11 * ent bb 3 1 + a12 * ent bb 3 2);
     c * (a02 * ent bb 3 0 + a12 * ent bb 3 1 + a22 * ent bb 3 2)].

(* analytical_tet4.rs:250-258 *)
Definition tet4_mat_01_nsn (volume : R) (bb : mat) (s : R) : mat :=
  let c := volume / 20 in
  [[2 * s * c; s * c; s * c; s * c];
     [s * c; 2 * s * c; s * c; s * c];
     [s * c; s * c; 2 * s * c; s * c];
     [s * c; s * c; s * c; 2 * s * c]].

(* analytical_tet4.rs:262-274 *)
Definition tet4_mat_02_bvn (volume : R) (bb : mat) (v0 : R) (v1 : R) (v2 : R) : mat :=
  let c := volume / 4 in
  let b00 := ent bb 0 0 in let b01 := ent bb 0 1 in let b02 := ent bb 0 2 in 
  let b10 := ent bb 1 0 in let b11 := ent bb 1 1 in let b12 := ent bb 1 2 in 
  let b20 := ent bb 2 0 in let b21 := ent bb 2 1 in let b22 := ent bb 2 2 in 
  let b30 := ent bb 3 0 in let b31 := ent bb 3 1 in let b32 := ent bb 3 2 in 
  [[c*(b00*v0 + b01*v1 + b02*v2); c*(b00*v0 + b01*v1 + b02*v2); c*(b00*v0 + b01*v1 + b02*v2); c*(b00*v0 + b01*v1 + b02*v2)];
     [c*(b10*v0 + b11*v1 + b12*v2); c*(b10*v0 + b11*v1 + b12*v2); c*(b10*v0 + b11*v1 + b12*v2); c*(b10*v0 + b11*v1 + b12*v2)];
     [c*(b20*v0 + b21*v1 + b22*v2); c*(b20*v0 + b21*v1 + b22*v2); c*(b20*v0 + b21*v1 + b22*v2); c*(b20*v0 + b21*v1 + b22*v2)];
     [c*(b30*v0 + b31*v1 + b32*v2); c*(b30*v0 + b31*v1 + b32*v2); c*(b30*v0 + b31*v1 + b32*v2); c*(b30*v0 + b31*v1 + b32*v2)]].

(* analytical_tet4.rs:278-294 *)
Definition tet4_mat_03_btb (volume : R) (bb : mat) (tt : list R) : mat :=
  let c := volume in
  let mat := as_matrix tt in
  let a00 := ent mat 0 0 in let a01 := ent mat 0 1 in let a02 := ent mat 0 2 in 
  let a10 := ent mat 1 0 in let a11 := ent mat 1 1 in let a12 := ent mat 1 2 in 
  let a20 := ent mat 2 0 in let a21 := ent mat 2 1 in let a22 := ent mat 2 2 in 
  let b00 := ent bb 0 0 in let b01 := ent bb 0 1 in let b02 := ent bb 0 2 in 
  let b10 := ent bb 1 0 in let b11 := ent bb 1 1 in let b12 := ent bb 1 2 in 
  let b20 := ent bb 2 0 in let b21 := ent bb 2 1 in let b22 := ent bb 2 2 in 
  let b30 := ent bb 3 0 in let b31 := ent bb 3 1 in let b32 := ent bb 3 2 in 
  [[c*b00*(a00*b00 + a10*b01 + a20*b02) + c*b01*(a01*b00 + a11*b01 + a21*b02) + c*b02*(a02*b00 + a12*b01 + a22*b02); c*b10*(a00*b00 + a10*b01 + a20*b02) + c*b11*(a01*b00 + a11*b01 + a21*b02) + c*b12*(a02*b00 + a12*b01 + a22*b02); c*b20*(a00*b00 + a10*b01 + a20*b02) + c*b21*(a01*b00 + a11*b01 + a21*b02) + c*b22*(a02*b00 + a12*b01 + a22*b02); c*b30*(a00*b00 + a10*b01 + a20*b02) + c*b31*(a01*b00 + a11*b01 + a21*b02) + c*b32*(a02*b00 + a12*b01 + a22*b02)];
     [c*b00*(a00*b10 + a10*b11 + a20*b12) + c*b01*(a01*b10 + a11*b11 + a21*b12) + c*b02*(a02*b10 + a12*b11 + a22*b12); c*b10*(a00*b10 + a10*b11 + a20*b12) + c*b11*(a01*b10 + a11*b11 + a21*b12) + c*b12*(a02*b10 + a12*b11 + a22*b12); c*b20*(a00*b10 + a10*b11 + a20*b12) + c*b21*(a01*b10 + a11*b11 + a21*b12) + c*b22*(a02*b10 + a12*b11 + a22*b12); c*b30*(a00*b10 + a10*b11 + a20*b12) + c*b31*(a01*b10 + a11*b11 + a21*b12) + c*b32*(a02*b10 + a12*b11 + a22*b12)];
     [c*b00*(a00*b20 + a10*b21 + a20*b22) + c*b01*(a01*b20 + a11*b21 + a21*b22) + c*b02*(a02*b20 + a12*b21 + a22*b22); c*b10*(a00*b20 + a10*b21 + a20*b22) + c*b11*(a01*b20 + a11*b21 + a21*b22) + c*b12*(a02*b20 + a12*b21 + a22*b22); c*b20*(a00*b20 + a10*b21 + a20*b22) + c*b21*(a01*b20 + a11*b21 + a21*b22) + c*b22*(a02*b20 + a12*b21 + a22*b22); c*b30*(a00*b20 + a10*b21 + a20*b22) + c*b31*(a01*b20 + a11*b21 + a21*b22) + c*b32*(a02*b20 + a12*b21 + a22*b22)];
     [c*b00*(a00*b30 + a10*b31 + a20*b32) + c*b01*(a01*b30 + a11*b31 + a21*b32) + c*b02*(a02*b30 + a12*b31 + a22*b32); c*b10*(a00*b30 + a10*b31 + a20*b32) + c*b11*(a01*b30 + a11*b31 + a21*b32) + c*b12*(a02*b30 + a12*b31 + a22*b32); c*b20*(a00*b30 + a10*b31 + a20*b32) + c*b21*(a01*b30 + a11*b31 + a21*b32) + c*b22*(a02*b30 + a12*b31 + a22*b32); c*b30*(a00*b30 + a10*b31 + a20*b32) + c*b31*(a01*b30 + a11*b31 + a21*b32) + c*b32*(a02*b30 + a12*b31 + a22*b32)]].

(* analytical_tet4.rs:298-310 *)
Definition tet4_mat_04_nsb (volume : R) (bb : mat) (s : R) : mat :=
  let c := volume / 4 in
  let b00 := ent bb 0 0 in let b01 := ent bb 0 1 in let b02 := ent bb 0 2 in 
  let b10 := ent bb 1 0 in let b11 := ent bb 1 1 in let b12 := ent bb 1 2 in 
  let b20 := ent bb 2 0 in let b21 := ent bb 2 1 in let b22 := ent bb 2 2 in 
  let b30 := ent bb 3 0 in let b31 := ent bb 3 1 in let b32 := ent bb 3 2 in 
  [[c*b00*s; c*b01*s; c*b02*s; c*b10*s; c*b11*s; c*b12*s; c*b20*s; c*b21*s; c*b22*s; c*b30*s; c*b31*s; c*b32*s];
     [c*b00*s; c*b01*s; c*b02*s; c*b10*s; c*b11*s; c*b12*s; c*b20*s; c*b21*s; c*b22*s; c*b30*s; c*b31*s; c*b32*s];
     [c*b00*s; c*b01*s; c*b02*s; c*b10*s; c*b11*s; c*b12*s; c*b20*s; c*b21*s; c*b22*s; c*b30*s; c*b31*s; c*b32*s];
     [c*b00*s; c*b01*s; c*b02*s; c*b10*s; c*b11*s; c*b12*s; c*b20*s; c*b21*s; c*b22*s; c*b30*s; c*b31*s; c*b32*s]].

(* analytical_tet4.rs:314-330 *)
Definition tet4_mat_05_btn (volume : R) (bb : mat) (tt : list R) : mat :=
  let c := volume / 4 in
  let mat := as_matrix tt in
  let t00 := ent mat 0 0 in let t01 := ent mat 0 1 in let t02 := ent mat 0 2 in 
  let t11 := ent mat 1 1 in let t12 := ent mat 1 2 in 
  let t22 := ent mat 2 2 in
  let b00 := ent bb 0 0 in let b01 := ent bb 0 1 in let b02 := ent bb 0 2 in 
  let b10 := ent bb 1 0 in let b11 := ent bb 1 1 in let b12 := ent bb 1 2 in 
  let b20 := ent bb 2 0 in let b21 := ent bb 2 1 in let b22 := ent bb 2 2 in 
  let b30 := ent bb 3 0 in let b31 := ent bb 3 1 in let b32 := ent bb 3 2 in 
  [[c*(b00*t00 + b01*t01 + b02*t02); c*(b00*t01 + b01*t11 + b02*t12); c*(b00*t02 + b01*t12 + b02*t22); c*(b00*t00 + b01*t01 + b02*t02); c*(b00*t01 + b01*t11 + b02*t12); c*(b00*t02 + b01*t12 + b02*t22); c*(b00*t00 + b01*t01 + b02*t02); c*(b00*t01 + b01*t11 + b02*t12); c*(b00*t02 + b01*t12 + b02*t22); c*(b00*t00 + b01*t01 + b02*t02); c*(b00*t01 + b01*t11 + b02*t12); c*(b00*t02 + b01*t12 + b02*t22)];
     [c*(b10*t00 + b11*t01 + b12*t02); c*(b10*t01 + b11*t11 + b12*t12); c*(b10*t02 + b11*t12 + b12*t22); c*(b10*t00 + b11*t01 + b12*t02); c*(b10*t01 + b11*t11 + b12*t12); c*(b10*t02 + b11*t12 + b12*t22); c*(b10*t00 + b11*t01 + b12*t02); c*(b10*t01 + b11*t11 + b12*t12); c*(b10*t02 + b11*t12 + b12*t22); c*(b10*t00 + b11*t01 + b12*t02); c*(b10*t01 + b11*t11 + b12*t12); c*(b10*t02 + b11*t12 + b12*t22)];
     [c*(b20*t00 + b21*t01 + b22*t02); c*(b20*t01 + b21*t11 + b22*t12); c*(b20*t02 + b21*t12 + b22*t22); c*(b20*t00 + b21*t01 + b22*t02); c*(b20*t01 + b21*t11 + b22*t12); c*(b20*t02 + b21*t12 + b22*t22); c*(b20*t00 + b21*t01 + b22*t02); c*(b20*t01 + b21*t11 + b22*t12); c*(b20*t02 + b21*t12 + b22*t22); c*(b20*t00 + b21*t01 + b22*t02); c*(b20*t01 + b21*t11 + b22*t12); c*(b20*t02 + b21*t12 + b22*t22)];
     [c*(b30*t00 + b31*t01 + b32*t02); c*(b30*t01 + b31*t11 + b32*t12); c*(b30*t02 + b31*t12 + b32*t22); c*(b30*t00 + b31*t01 + b32*t02); c*(b30*t01 + b31*t11 + b32*t12); c*(b30*t02 + b31*t12 + b32*t22); c*(b30*t00 + b31*t01 + b32*t02); c*(b30*t01 + b31*t11 + b32*t12); c*(b30*t02 + b31*t12 + b32*t22); c*(b30*t00 + b31*t01 + b32*t02); c*(b30*t01 + b31*t11 + b32*t12); c*(b30*t02 + b31*t12 + b32*t22)]].

(* analytical_tet4.rs:334-350 *)
Definition tet4_mat_06_nvn (volume : R) (bb : mat) (v0 : R) (v1 : R) (v2 : R) : mat :=
  let c := volume / 20 in
  [[c*2*v0; c*v0; c*v0; c*v0];
     [c*2*v1; c*v1; c*v1; c*v1];
     [c*2*v2; c*v2; c*v2; c*v2];
     [c*v0; c*2*v0; c*v0; c*v0];
     [c*v1; c*2*v1; c*v1; c*v1];
     [c*v2; c*2*v2; c*v2; c*v2];
     [c*v0; c*v0; c*2*v0; c*v0];
     [c*v1; c*v1; c*2*v1; c*v1];
     [c*v2; c*v2; c*2*v2; c*v2];
     [c*v0; c*v0; c*v0; c*2*v0];
     [c*v1; c*v1; c*v1; c*2*v1];
     [c*v2; c*v2; c*v2; c*2*v2]].

(* analytical_tet4.rs:354-374 *)
Definition tet4_mat_07_bsn (volume : R) (bb : mat) (s : R) : mat :=
  let c := volume / 4 in
  let b00 := ent bb 0 0 in let b01 := ent bb 0 1 in let b02 := ent bb 0 2 in 
  let b10 := ent bb 1 0 in let b11 := ent bb 1 1 in let b12 := ent bb 1 2 in 
  let b20 := ent bb 2 0 in let b21 := ent bb 2 1 in let b22 := ent bb 2 2 in 
  let b30 := ent bb 3 0 in let b31 := ent bb 3 1 in let b32 := ent bb 3 2 in 
  [[c*b00*s; c*b00*s; c*b00*s; c*b00*s];
     [c*b01*s; c*b01*s; c*b01*s; c*b01*s];
     [c*b02*s; c*b02*s; c*b02*s; c*b02*s];
     [c*b10*s; c*b10*s; c*b10*s; c*b10*s];
     [c*b11*s; c*b11*s; c*b11*s; c*b11*s];
     [c*b12*s; c*b12*s; c*b12*s; c*b12*s];
     [c*b20*s; c*b20*s; c*b20*s; c*b20*s];
     [c*b21*s; c*b21*s; c*b21*s; c*b21*s];
     [c*b22*s; c*b22*s; c*b22*s; c*b22*s];
     [c*b30*s; c*b30*s; c*b30*s; c*b30*s];
     [c*b31*s; c*b31*s; c*b31*s; c*b31*s];
     [c*b32*s; c*b32*s; c*b32*s; c*b32*s]].

(* analytical_tet4.rs:378-398 *)
Definition tet4_mat_08_ntn (volume : R) (bb : mat) (sig : list R) : mat :=
  let vv := volume in
  let mat := as_matrix sig in
  let a00 := ent mat 0 0 in let a01 := ent mat 0 1 in let a02 := ent mat 0 2 in 
  let a10 := ent mat 1 0 in let a11 := ent mat 1 1 in let a12 := ent mat 1 2 in 
  let a20 := ent mat 2 0 in let a21 := ent mat 2 1 in let a22 := ent mat 2 2 in 
  [[a00*vv/10; a01*vv/10; a02*vv/10; a00*vv/20; a01*vv/20; a02*vv/20; a00*vv/20; a01*vv/20; a02*vv/20; a00*vv/20; a01*vv/20; a02*vv/20];
     [a10*vv/10; a11*vv/10; a12*vv/10; a10*vv/20; a11*vv/20; a12*vv/20; a10*vv/20; a11*vv/20; a12*vv/20; a10*vv/20; a11*vv/20; a12*vv/20];
     [a20*vv/10; a21*vv/10; a22*vv/10; a20*vv/20; a21*vv/20; a22*vv/20; a20*vv/20; a21*vv/20; a22*vv/20; a20*vv/20; a21*vv/20; a22*vv/20];
     [a00*vv/20; a01*vv/20; a02*vv/20; a00*vv/10; a01*vv/10; a02*vv/10; a00*vv/20; a01*vv/20; a02*vv/20; a00*vv/20; a01*vv/20; a02*vv/20];
     [a10*vv/20; a11*vv/20; a12*vv/20; a10*vv/10; a11*vv/10; a12*vv/10; a10*vv/20; a11*vv/20; a12*vv/20; a10*vv/20; a11*vv/20; a12*vv/20];
     [a20*vv/20; a21*vv/20; a22*vv/20; a20*vv/10; a21*vv/10; a22*vv/10; a20*vv/20; a21*vv/20; a22*vv/20; a20*vv/20; a21*vv/20; a22*vv/20];
     [a00*vv/20; a01*vv/20; a02*vv/20; a00*vv/20; a01*vv/20; a02*vv/20; a00*vv/10; a01*vv/10; a02*vv/10; a00*vv/20; a01*vv/20; a02*vv/20];
     [a10*vv/20; a11*vv/20; a12*vv/20; a10*vv/20; a11*vv/20; a12*vv/20; a10*vv/10; a11*vv/10; a12*vv/10; a10*vv/20; a11*vv/20; a12*vv/20];
     [a20*vv/20; a21*vv/20; a22*vv/20; a20*vv/20; a21*vv/20; a22*vv/20; a20*vv/10; a21*vv/10; a22*vv/10; a20*vv/20; a21*vv/20; a22*vv/20];
     [a00*vv/20; a01*vv/20; a02*vv/20; a00*vv/20; a01*vv/20; a02*vv/20; a00*vv/20; a01*vv/20; a02*vv/20; a00*vv/10; a01*vv/10; a02*vv/10];
     [a10*vv/20; a11*vv/20; a12*vv/20; a10*vv/20; a11*vv/20; a12*vv/20; a10*vv/20; a11*vv/20; a12*vv/20; a10*vv/10; a11*vv/10; a12*vv/10];
     [a20*vv/20; a21*vv/20; a22*vv/20; a20*vv/20; a21*vv/20; a22*vv/20; a20*vv/20; a21*vv/20; a22*vv/20; a20*vv/10; a21*vv/10; a22*vv/10]].

(* analytical_tet4.rs:402-422 *)
Definition tet4_mat_09_nvb (volume : R) (bb : mat) (v0 : R) (v1 : R) (v2 : R) : mat :=
  let c := volume / 4 in
  let b00 := ent bb 0 0 in let b01 := ent bb 0 1 in let b02 := ent bb 0 2 in 
  let b10 := ent bb 1 0 in let b11 := ent bb 1 1 in let b12 := ent bb 1 2 in 
  let b20 := ent bb 2 0 in let b21 := ent bb 2 1 in let b22 := ent bb 2 2 in 
  let b30 := ent bb 3 0 in let b31 := ent bb 3 1 in let b32 := ent bb 3 2 in 
  [[c*b00*v0; c*b01*v0; c*b02*v0; c*b10*v0; c*b11*v0; c*b12*v0; c*b20*v0; c*b21*v0; c*b22*v0; c*b30*v0; c*b31*v0; c*b32*v0];
     [c*b00*v1; c*b01*v1; c*b02*v1; c*b10*v1; c*b11*v1; c*b12*v1; c*b20*v1; c*b21*v1; c*b22*v1; c*b30*v1; c*b31*v1; c*b32*v1];
     [c*b00*v2; c*b01*v2; c*b02*v2; c*b10*v2; c*b11*v2; c*b12*v2; c*b20*v2; c*b21*v2; c*b22*v2; c*b30*v2; c*b31*v2; c*b32*v2];
     [c*b00*v0; c*b01*v0; c*b02*v0; c*b10*v0; c*b11*v0; c*b12*v0; c*b20*v0; c*b21*v0; c*b22*v0; c*b30*v0; c*b31*v0; c*b32*v0];
     [c*b00*v1; c*b01*v1; c*b02*v1; c*b10*v1; c*b11*v1; c*b12*v1; c*b20*v1; c*b21*v1; c*b22*v1; c*b30*v1; c*b31*v1; c*b32*v1];
     [c*b00*v2; c*b01*v2; c*b02*v2; c*b10*v2; c*b11*v2; c*b12*v2; c*b20*v2; c*b21*v2; c*b22*v2; c*b30*v2; c*b31*v2; c*b32*v2];
     [c*b00*v0; c*b01*v0; c*b02*v0; c*b10*v0; c*b11*v0; c*b12*v0; c*b20*v0; c*b21*v0; c*b22*v0; c*b30*v0; c*b31*v0; c*b32*v0];
     [c*b00*v1; c*b01*v1; c*b02*v1; c*b10*v1; c*b11*v1; c*b12*v1; c*b20*v1; c*b21*v1; c*b22*v1; c*b30*v1; c*b31*v1; c*b32*v1];
     [c*b00*v2; c*b01*v2; c*b02*v2; c*b10*v2; c*b11*v2; c*b12*v2; c*b20*v2; c*b21*v2; c*b22*v2; c*b30*v2; c*b31*v2; c*b32*v2];
     [c*b00*v0; c*b01*v0; c*b02*v0; c*b10*v0; c*b11*v0; c*b12*v0; c*b20*v0; c*b21*v0; c*b22*v0; c*b30*v0; c*b31*v0; c*b32*v0];
     [c*b00*v1; c*b01*v1; c*b02*v1; c*b10*v1; c*b11*v1; c*b12*v1; c*b20*v1; c*b21*v1; c*b22*v1; c*b30*v1; c*b31*v1; c*b32*v1];
     [c*b00*v2; c*b01*v2; c*b02*v2; c*b10*v2; c*b11*v2; c*b12*v2; c*b20*v2; c*b21*v2; c*b22*v2; c*b30*v2; c*b31*v2; c*b32*v2]].

(* analytical_qua4.rs:21-29 *)
Definition qua4_mat_01_nsn (a b : R) (s : R) (th : R) : mat :=
  let c := th * s * a * b / 9 in
  [[c * 4; c * 2; c * 1; c * 2];
     [c * 2; c * 4; c * 2; c * 1];
     [c * 1; c * 2; c * 4; c * 2];
     [c * 2; c * 1; c * 2; c * 4]].

(* analytical_qua4.rs:36-45 *)
Definition qua4_mat_03_btb (a b : R) (kx : R) (ky : R) : mat :=
  let a := a in
  let b := b in
  [[(b*kx)/(3*a) + (a*ky)/(3*b); -(b*kx)/(3*a) + (a*ky)/(6*b); -(b*kx)/(6*a) - (a*ky)/(6*b); (b*kx)/(6*a) - (a*ky)/(3*b)];
     [-(b*kx)/(3*a) + (a*ky)/(6*b); (b*kx)/(3*a) + (a*ky)/(3*b); (b*kx)/(6*a) - (a*ky)/(3*b); -(b*kx)/(6*a) - (a*ky)/(6*b)];
     [-(b*kx)/(6*a) - (a*ky)/(6*b); (b*kx)/(6*a) - (a*ky)/(3*b); (b*kx)/(3*a) + (a*ky)/(3*b); -(b*kx)/(3*a) + (a*ky)/(6*b)];
     [(b*kx)/(6*a) - (a*ky)/(3*b); -(b*kx)/(6*a) - (a*ky)/(6*b); -(b*kx)/(3*a) + (a*ky)/(6*b); (b*kx)/(3*a) + (a*ky)/(3*b)]].

(* analytical_qua8.rs:23-36 *)
Definition qua8_mat_01_nsn (a b : R) (s : R) (th : R) : mat :=
  let c := -th * s * a * b in
  [[(-(2/15))*c; (-(2/45))*c; (-(1/15))*c; (-(2/45))*c; (2*c)/15; (8*c)/45; (8*c)/45; (2*c)/15];
     [(-(2/45))*c; (-(2/15))*c; (-(2/45))*c; (-(1/15))*c; (2*c)/15; (2*c)/15; (8*c)/45; (8*c)/45];
     [(-(1/15))*c; (-(2/45))*c; (-(2/15))*c; (-(2/45))*c; (8*c)/45; (2*c)/15; (2*c)/15; (8*c)/45];
     [(-(2/45))*c; (-(1/15))*c; (-(2/45))*c; (-(2/15))*c; (8*c)/45; (8*c)/45; (2*c)/15; (2*c)/15];
     [(2*c)/15; (2*c)/15; (8*c)/45; (8*c)/45; (-(32/45))*c; (-(4/9))*c; (-(16/45))*c; (-(4/9))*c];
     [(8*c)/45; (2*c)/15; (2*c)/15; (8*c)/45; (-(4/9))*c; (-(32/45))*c; (-(4/9))*c; (-(16/45))*c];
     [(8*c)/45; (8*c)/45; (2*c)/15; (2*c)/15; (-(16/45))*c; (-(4/9))*c; (-(32/45))*c; (-(4/9))*c];
     [(2*c)/15; (8*c)/45; (8*c)/45; (2*c)/15; (-(4/9))*c; (-(16/45))*c; (-(4/9))*c; (-(32/45))*c]].

(* analytical_qua8.rs:43-57 *)
Definition qua8_mat_03_btb (a b : R) (kx : R) (ky : R) : mat :=
  let a := a in
  let b := b in
  [[(26*b*kx)/(45*a) + (26*a*ky)/(45*b); (14*b*kx)/(45*a) + (17*a*ky)/(90*b); (23*b*kx)/(90*a) + (23*a*ky)/(90*b); (17*b*kx)/(90*a) + (14*a*ky)/(45*b); (- 8*b*kx)/(9*a) + (a*ky)/(15*b); -(b*kx)/(15*a) - (4*a*ky)/(9*b); (- 4*b*kx)/(9*a) - (a*ky)/(15*b); (b*kx)/(15*a) - (8*a*ky)/(9*b)];
     [(14*b*kx)/(45*a) + (17*a*ky)/(90*b); (26*b*kx)/(45*a) + (26*a*ky)/(45*b); (17*b*kx)/(90*a) + (14*a*ky)/(45*b); (23*b*kx)/(90*a) + (23*a*ky)/(90*b); (- 8*b*kx)/(9*a) + (a*ky)/(15*b); (b*kx)/(15*a) - (8*a*ky)/(9*b); (- 4*b*kx)/(9*a) - (a*ky)/(15*b); -(b*kx)/(15*a) - (4*a*ky)/(9*b)];
     [(23*b*kx)/(90*a) + (23*a*ky)/(90*b); (17*b*kx)/(90*a) + (14*a*ky)/(45*b); (26*b*kx)/(45*a) + (26*a*ky)/(45*b); (14*b*kx)/(45*a) + (17*a*ky)/(90*b); (- 4*b*kx)/(9*a) - (a*ky)/(15*b); (b*kx)/(15*a) - (8*a*ky)/(9*b); (- 8*b*kx)/(9*a) + (a*ky)/(15*b); -(b*kx)/(15*a) - (4*a*ky)/(9*b)];
     [(17*b*kx)/(90*a) + (14*a*ky)/(45*b); (23*b*kx)/(90*a) + (23*a*ky)/(90*b); (14*b*kx)/(45*a) + (17*a*ky)/(90*b); (26*b*kx)/(45*a) + (26*a*ky)/(45*b); (- 4*b*kx)/(9*a) - (a*ky)/(15*b); -(b*kx)/(15*a) - (4*a*ky)/(9*b); (- 8*b*kx)/(9*a) + (a*ky)/(15*b); (b*kx)/(15*a) - (8*a*ky)/(9*b)];
     [(- 8*b*kx)/(9*a) + (a*ky)/(15*b); (- 8*b*kx)/(9*a) + (a*ky)/(15*b); (- 4*b*kx)/(9*a) - (a*ky)/(15*b); (- 4*b*kx)/(9*a) - (a*ky)/(15*b); (16*b*kx)/(9*a) + (8*a*ky)/(15*b); 0; (8*b*kx)/(9*a) - (8*a*ky)/(15*b); 0];
     [-(b*kx)/(15*a) - (4*a*ky)/(9*b); (b*kx)/(15*a) - (8*a*ky)/(9*b); (b*kx)/(15*a) - (8*a*ky)/(9*b); -(b*kx)/(15*a) - (4*a*ky)/(9*b); 0; (8*b*kx)/(15*a) + (16*a*ky)/(9*b); 0; (- 8*b*kx)/(15*a) + (8*a*ky)/(9*b)];
     [(- 4*b*kx)/(9*a) - (a*ky)/(15*b); (- 4*b*kx)/(9*a) - (a*ky)/(15*b); (- 8*b*kx)/(9*a) + (a*ky)/(15*b); (- 8*b*kx)/(9*a) + (a*ky)/(15*b); (8*b*kx)/(9*a) - (8*a*ky)/(15*b); 0; (16*b*kx)/(9*a) + (8*a*ky)/(15*b); 0];
     [(b*kx)/(15*a) - (8*a*ky)/(9*b); -(b*kx)/(15*a) - (4*a*ky)/(9*b); -(b*kx)/(15*a) - (4*a*ky)/(9*b); (b*kx)/(15*a) - (8*a*ky)/(9*b); 0; (- 8*b*kx)/(15*a) + (8*a*ky)/(9*b); 0; (8*b*kx)/(15*a) + (16*a*ky)/(9*b)]].

(* analytical_qua8.rs:61-71 *)
Definition qua8_mat_04_nsb (a b : R) (s : R) : mat :=
  let a := a in
  let b := b in
  let c := s / 18 in
  [[- 7*b*c; - 7*a*c; -b*c; - 2*a*c; - 2*b*c; - 2*a*c; - 2*b*c; -a*c; 8*b*c; - 6*a*c; 6*b*c; 4*a*c; 4*b*c; 6*a*c; - 6*b*c; 8*a*c];
     [b*c; - 2*a*c; 7*b*c; - 7*a*c; 2*b*c; -a*c; 2*b*c; - 2*a*c; - 8*b*c; - 6*a*c; 6*b*c; 8*a*c; - 4*b*c; 6*a*c; - 6*b*c; 4*a*c];
     [2*b*c; 2*a*c; 2*b*c; a*c; 7*b*c; 7*a*c; b*c; 2*a*c; - 4*b*c; - 6*a*c; 6*b*c; - 8*a*c; - 8*b*c; 6*a*c; - 6*b*c; - 4*a*c];
     [- 2*b*c; a*c; - 2*b*c; 2*a*c; -b*c; 2*a*c; - 7*b*c; 7*a*c; 4*b*c; - 6*a*c; 6*b*c; - 4*a*c; 8*b*c; 6*a*c; - 6*b*c; - 8*a*c]].

(* analytical_qua8.rs:75-86 *)
Definition qua8_mat_05_btn (a b : R) (tt : list R) : mat :=
  let a := a in
  let b := b in
  let t00 := tensor_get tt 0 0 in let t01 := tensor_get tt 0 1 in 
  let t10 := tensor_get tt 1 0 in let t11 := tensor_get tt 1 1 in 
  [[(b*t00 + a*t10)/18; (b*t01 + a*t11)/18; (b*t00 + 2*a*t10)/18; (b*t01 + 2*a*t11)/18; (b*t00 + a*t10)/9; (b*t01 + a*t11)/9; (2*b*t00 + a*t10)/18; (2*b*t01 + a*t11)/18; (- 4*b*t00 - 3*a*t10)/9; (- 4*b*t01 - 3*a*t11)/9; (- 3*b*t00 - 2*a*t10)/9; (- 3*b*t01 - 2*a*t11)/9; (- 2*b*t00 - 3*a*t10)/9; (- 2*b*t01 - 3*a*t11)/9; (- 3*b*t00 - 4*a*t10)/9; (- 3*b*t01 - 4*a*t11)/9];
     [(-(b*t00) + 2*a*t10)/18; (-(b*t01) + 2*a*t11)/18; (-(b*t00) + a*t10)/18; (-(b*t01) + a*t11)/18; (- 2*b*t00 + a*t10)/18; (- 2*b*t01 + a*t11)/18; (-(b*t00) + a*t10)/9; (-(b*t01) + a*t11)/9; (4*b*t00 - 3*a*t10)/9; (4*b*t01 - 3*a*t11)/9; (3*b*t00 - 4*a*t10)/9; (3*b*t01 - 4*a*t11)/9; (2*b*t00 - 3*a*t10)/9; (2*b*t01 - 3*a*t11)/9; (3*b*t00 - 2*a*t10)/9; (3*b*t01 - 2*a*t11)/9];
     [(-(b*t00) - a*t10)/9; (-(b*t01) - a*t11)/9; (- 2*b*t00 - a*t10)/18; (- 2*b*t01 - a*t11)/18; (-(b*t00) - a*t10)/18; (-(b*t01) - a*t11)/18; (-(b*t00) - 2*a*t10)/18; (-(b*t01) - 2*a*t11)/18; (2*b*t00 + 3*a*t10)/9; (2*b*t01 + 3*a*t11)/9; (3*b*t00 + 4*a*t10)/9; (3*b*t01 + 4*a*t11)/9; (4*b*t00 + 3*a*t10)/9; (4*b*t01 + 3*a*t11)/9; (3*b*t00 + 2*a*t10)/9; (3*b*t01 + 2*a*t11)/9];
     [(2*b*t00 - a*t10)/18; (2*b*t01 - a*t11)/18; (b*t00 - a*t10)/9; (b*t01 - a*t11)/9; (b*t00 - 2*a*t10)/18; (b*t01 - 2*a*t11)/18; (b*t00 - a*t10)/18; (b*t01 - a*t11)/18; (- 2*b*t00 + 3*a*t10)/9; (- 2*b*t01 + 3*a*t11)/9; (- 3*b*t00 + 2*a*t10)/9; (- 3*b*t01 + 2*a*t11)/9; (- 4*b*t00 + 3*a*t10)/9; (- 4*b*t01 + 3*a*t11)/9; (- 3*b*t00 + 4*a*t10)/9; (- 3*b*t01 + 4*a*t11)/9]].

(* analytical_qua8.rs:90-110 *)
Definition qua8_mat_06_nvn (a b : R) (v0 : R) (v1 : R) : mat :=
  let c := a * b / 9 in
  [[0; -v0*c; -v0*c; -v0*c];
     [0; -v1*c; -v1*c; -v1*c];
     [-v0*c; 0; -v0*c; -v0*c];
     [-v1*c; 0; -v1*c; -v1*c];
     [-v0*c; -v0*c; 0; -v0*c];
     [-v1*c; -v1*c; 0; -v1*c];
     [-v0*c; -v0*c; -v0*c; 0];
     [-v1*c; -v1*c; -v1*c; 0];
     [4*v0*c; 4*v0*c; 2*v0*c; 2*v0*c];
     [4*v1*c; 4*v1*c; 2*v1*c; 2*v1*c];
     [2*v0*c; 4*v0*c; 4*v0*c; 2*v0*c];
     [2*v1*c; 4*v1*c; 4*v1*c; 2*v1*c];
     [2*v0*c; 2*v0*c; 4*v0*c; 4*v0*c];
     [2*v1*c; 2*v1*c; 4*v1*c; 4*v1*c];
     [4*v0*c; 2*v0*c; 2*v0*c; 4*v0*c];
     [4*v1*c; 2*v1*c; 2*v1*c; 4*v1*c]].

(* analytical_qua8.rs:114-136 *)
Definition qua8_mat_07_bsn (a b : R) (s : R) : mat :=
  let a := a in
  let b := b in
  let c := s / 18 in
  [[- 7*b*c; b*c; 2*b*c; - 2*b*c];
     [- 7*a*c; - 2*a*c; 2*a*c; a*c];
     [-b*c; 7*b*c; 2*b*c; - 2*b*c];
     [- 2*a*c; - 7*a*c; a*c; 2*a*c];
     [- 2*b*c; 2*b*c; 7*b*c; -b*c];
     [- 2*a*c; -a*c; 7*a*c; 2*a*c];
     [- 2*b*c; 2*b*c; b*c; - 7*b*c];
     [-a*c; - 2*a*c; 2*a*c; 7*a*c];
     [8*b*c; - 8*b*c; - 4*b*c; 4*b*c];
     [- 6*a*c; - 6*a*c; - 6*a*c; - 6*a*c];
     [6*b*c; 6*b*c; 6*b*c; 6*b*c];
     [4*a*c; 8*a*c; - 8*a*c; - 4*a*c];
     [4*b*c; - 4*b*c; - 8*b*c; 8*b*c];
     [6*a*c; 6*a*c; 6*a*c; 6*a*c];
     [- 6*b*c; - 6*b*c; - 6*b*c; - 6*b*c];
     [8*a*c; 4*a*c; - 4*a*c; - 8*a*c]].
