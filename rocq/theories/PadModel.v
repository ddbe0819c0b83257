(* The scratchpad of a cell: nodal coordinates, Jacobian, gradient, normal vector and the inversion
   of the isoparametric map.  Models
   - Scratchpad::new, set_xx, calc_interp, calc_deriv  (src/shapes/scratchpad.rs:152-182, 262-269, 297-318)
   - Scratchpad::calc_coords                           (src/shapes/scratchpad_calc_coords.rs:62-73)
   - Scratchpad::calc_jacobian                         (src/shapes/scratchpad_calc_jacobian.rs:101-131)
   - Scratchpad::calc_gradient                         (src/shapes/scratchpad_calc_gradient.rs:78-91)
   - Scratchpad::calc_normal_vector                    (src/shapes/scratchpad_calc_normal_vector.rs:111-173)
   - Scratchpad::approximate_ksi                       (src/shapes/scratchpad_approximate_ksi.rs:63-128)
   - Mesh::set_pad, get_pad                            (src/mesh/mesh.rs:448-456, 464-469)
   - Mesh::check_jacobian                              (src/mesh/check.rs:43-60)
   f64 is modelled by R (no rounding).  A method with &mut self returns the new pad together with
   its result; the contents of the pad after an Err are not modelled.  The function mat_inverse of
   russell_lab (outside the repository) is modelled by the adjugate formulas, with the threshold
   [zdet] below which it refuses to invert as a parameter. *)
From Coq Require Import String Reals List Arith Bool.
From Verif Require Import Base Kind MeshModel ShapesModel GeomModel.
Import ListNotations.
Local Open Scope string_scope.
Local Open Scope list_scope.
Local Open Scope R_scope.

Notation mat := (list (list R)).
(* russell_lab: Matrix::get, mat_mat_mul(c, 1.0, a, b, 0.0) with b having n columns, mat_vec_mul,
   vec_norm(.., Norm::Euc) *)
Definition ent (a : mat) (i j : nat) : R := nth j (nth i a []) 0.
Definition col (a : mat) (j : nat) : list R := map (fun row => nth j row 0) a.
Definition mat_mul (n : nat) (a b : mat) : mat := map (fun row => map (fun j => dot row (col b j)) (seq 0 n)) a.
Definition mat_vec (a : mat) (u : list R) : list R := map (fun row => dot row u) a.
Definition euclid (u : list R) : R := sqrt (dot u u).

Record pad := mkPad {
  p_kind : geokind;
  p_space : nat;          (* xxt.nrow() = jacobian.nrow() *)
  p_interp : list R;
  p_deriv : mat;
  p_jac : mat;
  p_inv : mat;
  p_grad : mat;
  p_xxt : mat;            (* one row per space dimension, one column per node *)
  p_ok : bool             (* ok_xxt *)
}.
Definition p_geo (p : pad) : nat := kind_ndim (p_kind p).

Definition zeros (m n : nat) : mat := repeat (repeat 0 n) m.
Definition with_interp (p : pad) (v : list R) : pad :=
  mkPad (p_kind p) (p_space p) v (p_deriv p) (p_jac p) (p_inv p) (p_grad p) (p_xxt p) (p_ok p).
Definition with_jac (p : pad) (d j i : mat) : pad :=
  mkPad (p_kind p) (p_space p) (p_interp p) d j i (p_grad p) (p_xxt p) (p_ok p).
Definition with_grad (p : pad) (g : mat) : pad :=
  mkPad (p_kind p) (p_space p) (p_interp p) (p_deriv p) (p_jac p) (p_inv p) g (p_xxt p) (p_ok p).
Definition with_xxt (p : pad) (x : mat) (ok : bool) : pad :=
  mkPad (p_kind p) (p_space p) (p_interp p) (p_deriv p) (p_jac p) (p_inv p) (p_grad p) x ok.

(* scratchpad.rs:152-182 *)
Definition pad_new (space_ndim : nat) (k : geokind) : res pad :=
  if (space_ndim <? 2)%nat || (3 <? space_ndim)%nat then Err "space_ndim must be 2 or 3" else
  let geo_ndim := kind_ndim k in
  if (space_ndim <? geo_ndim)%nat then Err "geo_ndim cannot be greater than space_ndim" else
  let nnode := kind_nnode k in
  let solid := (geo_ndim =? space_ndim)%nat in
  Ok (mkPad k space_ndim (repeat 0 nnode) (zeros nnode geo_ndim) (zeros space_ndim geo_ndim)
        (if solid then zeros space_ndim space_ndim else [])
        (if solid then zeros nnode space_ndim else [])
        (zeros space_ndim nnode) false).

(* scratchpad.rs:262-269 *)
Definition set_xx (p : pad) (m j : nat) (v : R) : res pad :=
  let! row := get (p_xxt p) j in
  let! row' := set row m v in
  let! x := set (p_xxt p) j row' in
  Ok (with_xxt p x ((m =? kind_nnode (p_kind p) - 1)%nat && (j =? p_space p - 1)%nat)).

(* scratchpad_calc_coords.rs:62-73; [n] is the dimension of the vector x given by the caller *)
Definition pad_coords (p : pad) (n : nat) (ksi : list R) : res (list R * pad) :=
  if negb (p_ok p) then Err "all components of the coordinates matrix must be set first" else
  if negb (n =? p_space p)%nat then Err "x.dim() must be equal to space_ndim" else
  let N := calc_interp (p_kind p) ksi in
  Ok (mat_vec (p_xxt p) N, with_interp p N).

Section Inverse.
Variable zdet : R.

(* russell_lab::mat_inverse for 2x2 and 3x3 matrices: the determinant and the inverse *)
Definition mat_inverse (n : nat) (a : mat) : res (R * mat) :=
  if (n =? 2)%nat then
    let det := ent a 0 0 * ent a 1 1 - ent a 0 1 * ent a 1 0 in
    if Rleb (Rabs det) zdet then Err "cannot compute inverse due to zero determinant" else
    Ok (det, [[ent a 1 1 / det; - ent a 0 1 / det]; [- ent a 1 0 / det; ent a 0 0 / det]])
  else if (n =? 3)%nat then
    let det := ent a 0 0 * (ent a 1 1 * ent a 2 2 - ent a 1 2 * ent a 2 1)
             - ent a 0 1 * (ent a 1 0 * ent a 2 2 - ent a 1 2 * ent a 2 0)
             + ent a 0 2 * (ent a 1 0 * ent a 2 1 - ent a 1 1 * ent a 2 0) in
    if Rleb (Rabs det) zdet then Err "cannot compute inverse due to zero determinant" else
    Ok (det,
      [[(ent a 1 1 * ent a 2 2 - ent a 1 2 * ent a 2 1) / det;
        (ent a 0 2 * ent a 2 1 - ent a 0 1 * ent a 2 2) / det;
        (ent a 0 1 * ent a 1 2 - ent a 0 2 * ent a 1 1) / det];
       [(ent a 1 2 * ent a 2 0 - ent a 1 0 * ent a 2 2) / det;
        (ent a 0 0 * ent a 2 2 - ent a 0 2 * ent a 2 0) / det;
        (ent a 0 2 * ent a 1 0 - ent a 0 0 * ent a 1 2) / det];
       [(ent a 1 0 * ent a 2 1 - ent a 1 1 * ent a 2 0) / det;
        (ent a 0 1 * ent a 2 0 - ent a 0 0 * ent a 2 1) / det;
        (ent a 0 0 * ent a 1 1 - ent a 0 1 * ent a 1 0) / det]])
  else Panic. (* not reached: the space dimension is 2 or 3 *)

(* scratchpad_calc_jacobian.rs:101-131 *)
Definition calc_jacobian (p : pad) (ksi : list R) : res (R * pad) :=
  if negb (p_ok p) then Err "all components of the coordinates matrix must be set first" else
  let L := calc_deriv (p_kind p) ksi in
  let J := mat_mul (p_geo p) (p_xxt p) L in
  if (p_geo p =? p_space p)%nat then
    let! r := mat_inverse (p_space p) J in
    Ok (fst r, with_jac p L J (snd r))
  else if (p_geo p =? 1)%nat then
    let norm_jac := fold_left (fun s i => s + ent J i 0 * ent J i 0) (seq 0 (p_space p)) 0 in
    Ok (sqrt norm_jac, with_jac p L J (p_inv p))
  else Ok (-1, with_jac p L J (p_inv p)). (* DET_JAC_NOT_AVAILABLE, scratchpad_calc_jacobian.rs:8 *)

(* scratchpad_calc_gradient.rs:78-91 *)
Definition calc_gradient (p : pad) (ksi : list R) : res (R * pad) :=
  if negb (p_geo p =? p_space p)%nat then Err "calc_gradient requires that geo_ndim = space_ndim" else
  let! r := calc_jacobian p ksi in
  let q := snd r in
  Ok (fst r, with_grad q (mat_mul (p_space p) (p_deriv q) (p_inv q))).

(* scratchpad_approximate_ksi.rs:63-128.  [guess] is the loop of lines 90-106: minimum and maximum
   start from the first node instead of f64::MAX and f64::MIN.  When all nodes have the same
   coordinate the quotient is NaN or infinite in the code, no residual passes the test and the
   function ends with an Err (of the iteration or of mat_inverse); the model returns an Err at once. *)
Definition row_min (r : list R) : R := fold_left Rmin (tl r) (hd 0 r).
Definition row_max (r : list R) : R := fold_left Rmax (tl r) (hd 0 r).
Definition guess (p : pad) (x : list R) : res (list R) :=
  let (kmin, kdel) := (if is_tri_or_tet (p_kind p) then (0, 1) else (-1, 2)) : R * R in
  foldM (fun (ksi : list R) j =>
      let! row := get (p_xxt p) j in
      let! xj := get x j in
      if Req_EM_T (row_max row) (row_min row) then Err "approximate_ksi failed to converge"
      else Ok (ksi ++ [kmin + kdel * (xj - row_min row) / (row_max row - row_min row)]))
    (seq 0 (p_space p)) [].

Fixpoint vec_sub (a b : list R) : list R :=
  match a, b with x :: a', y :: b' => (x - y) :: vec_sub a' b' | _, _ => [] end.
Fixpoint vec_add (a b : list R) : list R :=
  match a, b with x :: a', y :: b' => (x + y) :: vec_add a' b' | _, _ => [] end.

(* lines 112-127: [n] iterations are left, [it] is the loop counter *)
Fixpoint newton (n it : nat) (p : pad) (ksi x : list R) (tol : R) : res (nat * list R * pad) :=
  match n with
  | O => Err "approximate_ksi failed to converge"
  | S n' =>
      let! c := pad_coords p (p_space p) ksi in
      let residual := vec_sub x (fst c) in
      if Rleb (euclid residual) tol then Ok (it, ksi, snd c) else
      let! r := calc_jacobian (snd c) ksi in
      let delta := mat_vec (p_inv (snd r)) residual in
      newton n' (S it) (snd r) (vec_add ksi delta) x tol
  end.

(* [nk] is the length of the slice ksi given by the caller *)
Definition approximate_ksi (p : pad) (nk : nat) (x : list R) (nit_max : nat) (tol : R)
  : res (nat * list R * pad) :=
  if negb (p_geo p =? p_space p)%nat then Err "approximate_ksi requires that geo_ndim = space_ndim" else
  if negb (List.length x =? p_space p)%nat then Err "x.dim() must be equal to space_ndim" else
  if negb (nk =? p_geo p)%nat then Err "ksi.len() must be equal to geo_ndim = space_ndim" else
  let! ksi := guess p x in
  newton nit_max 0 p ksi x tol.

(* scratchpad_calc_normal_vector.rs:111-173; [n] is the dimension of the vector un given by the
   caller; the result is the magnitude, the vector un and the pad *)
Definition calc_normal_vector (p : pad) (n : nat) (ksi : list R) : res (R * list R * pad) :=
  if (p_space p =? 2)%nat && negb (p_geo p =? 1)%nat
  then Err "calc_normal_vector requires geo_ndim = 1 in 2D (CABLE in 2D)" else
  if (p_space p =? 3)%nat && negb (p_geo p =? 2)%nat
  then Err "calc_normal_vector requires geo_ndim = 2 in 3D (SHELL in 3D)" else
  if negb (n =? p_space p)%nat then Err "un.dim() must be equal to space_ndim" else
  let L := calc_deriv (p_kind p) ksi in
  let J := mat_mul (p_geo p) (p_xxt p) L in
  let q := with_jac p L J (p_inv p) in
  if (p_space p =? 2)%nat then
    let u0 := - ent J 1 0 in
    let u1 := ent J 0 0 in
    let mag := sqrt (u0 * u0 + u1 * u1) in
    Ok (mag, if Rltb 0 mag then [u0 / mag; u1 / mag] else [u0; u1], q)
  else
    let u0 := ent J 1 0 * ent J 2 1 - ent J 2 0 * ent J 1 1 in
    let u1 := ent J 2 0 * ent J 0 1 - ent J 0 0 * ent J 2 1 in
    let u2 := ent J 0 0 * ent J 1 1 - ent J 1 0 * ent J 0 1 in
    let mag := sqrt (u0 * u0 + u1 * u1 + u2 * u2) in
    Ok (mag, if Rltb 0 mag then [u0 / mag; u1 / mag; u2 / mag] else [u0; u1; u2], q).

(* mesh.rs:448-456 *)
Definition mesh_set_pad (m : mesh R) (p : pad) (pts : list nat) : res pad :=
  let nnode := kind_nnode (p_kind p) in
  if negb (nnode =? List.length pts)%nat then Panic else
  foldM (fun (p : pad) a =>
      foldM (fun (p : pad) j =>
          let! id := get pts a in
          let! pt := get (points m) id in
          let! v := get (pt_coords pt) j in
          set_xx p a j v)
        (seq 0 (ndim m)) p)
    (seq 0 nnode) p.

(* mesh.rs:464-469; unwrap of the Err of Scratchpad::new *)
Definition get_pad (m : mesh R) (cell_id : nat) : res pad :=
  let! c := get (cells m) cell_id in
  match pad_new (ndim m) (c_kind c) with
  | Ok p => mesh_set_pad m p (c_points c)
  | _ => Panic
  end.

(* check.rs:43-60, with GeoCase::new (src/shapes/enums.rs:69-79): neither Solid nor Cable.
   ONE_BY_3 is modelled by 1/3. *)
Definition is_shell (geo space : nat) : bool := negb (geo =? space)%nat && negb (geo =? 1)%nat.
Definition check_jacobian (m : mesh R) : res unit :=
  let ksi := [1 / 3; 1 / 3; 1 / 3] in
  foldM (fun (_ : unit) (c : cell) =>
      let! p := pad_new (ndim m) (c_kind c) in
      let! p := mesh_set_pad m p (c_points c) in
      let! r := calc_jacobian p ksi in
      if is_shell (kind_ndim (c_kind c)) (ndim m) then
        if Req_EM_T (fst r) (-1) then Ok tt else Panic
      else if Rltb (fst r) 0 then Err "negative determinant of Jacobian found" else Ok tt)
    (cells m) tt.
End Inverse.
