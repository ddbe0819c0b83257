(* Integration points.  Models
   - Gauss::new, new_sized, new_or_sized, npoint, coords, weight (src/integ/gauss.rs:87-121, 189-246,
     254-259, 263-265, 282-284, 301-303)
   - the tables of points and weights (src/integ/gauss.rs:317-775; GaussData.v).
   The fields ksi_hat and ksi_hat_inv (caches of the extrapolation algorithm) are left out. *)
From Coq Require Import String Reals ZArith List.
From Verif Require Import Base Kind GaussData.
Import ListNotations.
Local Open Scope string_scope.
Local Open Scope list_scope.

Record gauss := mkGauss { g_class : geoclass; g_data : list (Z * Z * Z * Z) }.

(* a number of the tables *)
Definition f64_scale : Z := Eval vm_compute in (2 ^ 62)%Z.
Definition f64 (z : Z) : R := (IZR z / IZR f64_scale)%R.

(* gauss.rs:87-121 *)
Definition gauss_new (k : geokind) : gauss :=
  mkGauss (kind_class k)
    match k with
    | Lin2 => ip_lin_legendre_2
    | Lin3 => ip_lin_legendre_3
    | Lin4 => ip_lin_legendre_4
    | Lin5 => ip_lin_legendre_5
    | Tri3 => ip_tri_internal_3
    | Tri6 => ip_tri_felippa_7
    | Tri10 => ip_tri_internal_12
    | Tri15 => ip_tri_internal_16
    | Qua4 => ip_qua_legendre_4
    | Qua8 => ip_qua_legendre_9
    | Qua9 => ip_qua_legendre_9
    | Qua12 => ip_qua_legendre_16
    | Qua16 => ip_qua_legendre_16
    | Qua17 => ip_qua_legendre_16
    | Tet4 => ip_tet_internal_4
    | Tet10 => ip_tet_felippa_14
    | Tet20 => ip_tet_felippa_24
    | Hex8 => ip_hex_legendre_8
    | Hex20 => ip_hex_legendre_27
    | Hex32 => ip_hex_legendre_64
    end.

(* gauss.rs:189-246 *)
Definition gauss_new_sized (c : geoclass) (n : nat) : res gauss :=
  let! data :=
    match c with
    | CLin => match n with
      | 1 => Ok ip_lin_legendre_1
      | 2 => Ok ip_lin_legendre_2
      | 3 => Ok ip_lin_legendre_3
      | 4 => Ok ip_lin_legendre_4
      | 5 => Ok ip_lin_legendre_5
      | _ => Err "requested number of integration points is not available for Lin class"
      end
    | CTri => match n with
      | 1 => Ok ip_tri_internal_1
      | 3 => Ok ip_tri_internal_3
      | 4 => Ok ip_tri_internal_4
      | 6 => Ok ip_tri_felippa_6
      | 7 => Ok ip_tri_felippa_7
      | 12 => Ok ip_tri_internal_12
      | 16 => Ok ip_tri_internal_16
      | _ => Err "requested number of integration points is not available for Tri class"
      end
    | CQua => match n with
      | 1 => Ok ip_qua_legendre_1
      | 4 => Ok ip_qua_legendre_4
      | 9 => Ok ip_qua_legendre_9
      | 16 => Ok ip_qua_legendre_16
      | _ => Err "requested number of integration points is not available for Qua class"
      end
    | CTet => match n with
      | 1 => Ok ip_tet_internal_1
      | 4 => Ok ip_tet_internal_4
      | 5 => Ok ip_tet_internal_5
      | 8 => Ok ip_tet_felippa_8
      | 14 => Ok ip_tet_felippa_14
      | 15 => Ok ip_tet_felippa_15
      | 24 => Ok ip_tet_felippa_24
      | _ => Err "requested number of integration points is not available for Tet class"
      end
    | CHex => match n with
      | 6 => Ok ip_hex_irons_6
      | 8 => Ok ip_hex_legendre_8
      | 14 => Ok ip_hex_irons_14
      | 27 => Ok ip_hex_legendre_27
      | 64 => Ok ip_hex_legendre_64
      | _ => Err "requested number of integration points is not available for Hex class"
      end
    end in
  Ok (mkGauss c data).

(* gauss.rs:254-259 *)
Definition gauss_new_or_sized (k : geokind) (ngauss : option nat) : res gauss :=
  match ngauss with
  | Some n => gauss_new_sized (kind_class k) n
  | None => Ok (gauss_new k)
  end.

(* gauss.rs:263-265 *)
Definition npoint (g : gauss) : nat := List.length (g_data g).

(* gauss.rs:282-284: the array [r, s, t, weight] *)
Definition g_coords (g : gauss) (p : nat) : res (list R) :=
  let! row := get (g_data g) p in
  let '(r, s, t, w) := row in
  Ok [f64 r; f64 s; f64 t; f64 w].

(* gauss.rs:301-303 *)
Definition g_weight (g : gauss) (p : nat) : res R :=
  let! row := get (g_data g) p in
  let '(_, _, _, w) := row in
  Ok (f64 w).
