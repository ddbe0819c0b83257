(* Recovery: from nodes to integration points and back.  Models
   - get_points_coords                     (src/recovery/get_point_coords.rs:61-71)
   - get_interp_matrix                     (src/recovery/get_interp_matrix.rs:87-98)
   - get_extrap_matrix, get_tr_pinv_hxi    (src/recovery/get_extrap_matrix.rs:129-196, 221-272; RecoveryData.v)
   f64 is modelled by R.  mat_inverse and mat_pseudo_inverse (crate russell_lab) are functions given from
   outside.  unreachable!() is Panic. *)
From Coq Require Import String Reals ZArith List Arith Bool.
From Verif Require Import Base Kind ShapesModel GeomModel PadModel GaussModel TopoModel IntegModel RecoveryData.
Import ListNotations.
Local Open Scope string_scope.
Local Open Scope list_scope.
Local Open Scope R_scope.

(* get_point_coords.rs:61-71: the coordinates of all points, and the pad *)
Definition get_points_coords (pd : pad) (g : gauss) : res (list (list R) * pad) :=
  foldM (fun (st : list (list R) * pad) p =>
      let! iota := g_coords g p in
      let! r := pad_coords (snd st) (p_space pd) iota in
      Ok (fst st ++ [fst r], snd r))
    (seq 0 (npoint g)) ([], pd).

(* get_interp_matrix.rs:87-98 *)
Definition get_interp_matrix (pd : pad) (g : gauss) : res (mat * pad) :=
  let nnode := kind_nnode (p_kind pd) in
  foldM (fun (st : mat * pad) p =>
      let! iota := g_coords g p in
      let q := with_interp (snd st) (calc_interp (p_kind (snd st)) iota) in
      let! pp := mat_sets (fst st) (map (fun j => (p, j, vat (p_interp q) j)) (seq 0 nnode)) in
      Ok (pp, q))
    (seq 0 (npoint g)) (zeros (npoint g) nnode, pd).

(* a number of the tables *)
Definition hxi_scale : Z := Eval vm_compute in (2 ^ 114)%Z.
Definition hxi (z : Z) : R := IZR z / IZR hxi_scale.
Definition hxi_row (r : Z * Z * Z * Z) : list R := let '(a, b, c, d) := r in [hxi a; hxi b; hxi c; hxi d].

(* get_extrap_matrix.rs:221-272 *)
Definition get_tr_pinv_hxi (class : geoclass) (ngauss : nat) : res (list (Z * Z * Z * Z)) :=
  match class with
  | CLin => match ngauss with
    | 1 => Ok tr_pinv_hxi_lin_legendre_1
    | 2 => Ok tr_pinv_hxi_lin_legendre_2
    | 3 => Ok tr_pinv_hxi_lin_legendre_3
    | 4 => Ok tr_pinv_hxi_lin_legendre_4
    | 5 => Ok tr_pinv_hxi_lin_legendre_5
    | _ => Panic
    end
  | CTri => match ngauss with
    | 1 => Ok tr_pinv_hxi_tri_internal_1
    | 3 => Ok tr_pinv_hxi_tri_internal_3
    | 4 => Ok tr_pinv_hxi_tri_internal_4
    | 6 => Ok tr_pinv_hxi_tri_felippa_6
    | 7 => Ok tr_pinv_hxi_tri_felippa_7
    | 12 => Ok tr_pinv_hxi_tri_internal_12
    | 16 => Ok tr_pinv_hxi_tri_internal_16
    | _ => Panic
    end
  | CQua => match ngauss with
    | 1 => Ok tr_pinv_hxi_qua_legendre_1
    | 4 => Ok tr_pinv_hxi_qua_legendre_4
    | 9 => Ok tr_pinv_hxi_qua_legendre_9
    | 16 => Ok tr_pinv_hxi_qua_legendre_16
    | _ => Panic
    end
  | CTet => match ngauss with
    | 1 => Ok tr_pinv_hxi_tet_internal_1
    | 4 => Ok tr_pinv_hxi_tet_internal_4
    | 5 => Ok tr_pinv_hxi_tet_internal_5
    | 8 => Ok tr_pinv_hxi_tet_felippa_8
    | 14 => Ok tr_pinv_hxi_tet_felippa_14
    | 15 => Ok tr_pinv_hxi_tet_felippa_15
    | 24 => Ok tr_pinv_hxi_tet_felippa_24
    | _ => Panic
    end
  | CHex => match ngauss with
    | 6 => Ok tr_pinv_hxi_hex_irons_6
    | 8 => Ok tr_pinv_hxi_hex_legendre_8
    | 14 => Ok tr_pinv_hxi_hex_irons_14
    | 27 => Ok tr_pinv_hxi_hex_legendre_27
    | 64 => Ok tr_pinv_hxi_hex_legendre_64
    | _ => Panic
    end
  end%nat.

Section Extrap.
Variables (mat_inv mat_pinv : mat -> res mat).

(* get_extrap_matrix.rs:157-170: A = I - hat_xi B *)
Definition extrap_aa (geo : nat) (g : gauss) (bbt : list (list R)) (np : nat) : res mat :=
  foldM (fun (aa : mat) (ij : nat * nat) =>
      let '(i, j) := ij in
      let! iota := g_coords g i in
      let! b := get bbt j in
      let sum := fold_left (fun sum k => sum + vat iota k * vat b k) (seq 0 geo) 0 in
      let sum := sum + 1 * vat b geo in
      let d := if (i =? j)%nat then 1 else 0 in
      mat_set_at aa i j (d - sum))
    (list_prod (seq 0 np) (seq 0 np)) (zeros np np).

(* get_extrap_matrix.rs:174-182: E = xi B *)
Definition extrap_xi (k : geokind) (bbt : list (list R)) (np : nat) (ee : mat) : res mat :=
  let geo := kind_ndim k in
  foldM (fun (ee : mat) (ij : nat * nat) =>
      let '(i, j) := ij in
      let rci := ref_coords k i in
      let! b := get bbt j in
      mat_adds ee (map (fun l => (i, j, vat rci l * vat b l)) (seq 0 geo) ++ [(i, j, 1 * vat b geo)]))
    (list_prod (seq 0 (kind_nnode k)) (seq 0 np)) ee.

(* get_extrap_matrix.rs:186-192: E += P+ A *)
Definition extrap_corr (nv np : nat) (ppi aa ee : mat) : res mat :=
  foldM (fun (ee : mat) (ij : nat * nat) =>
      let '(i, j) := ij in
      mat_adds ee (map (fun l => (i, j, ent ppi i l * ent aa l j)) (seq 0 np)))
    (list_prod (seq 0 nv) (seq 0 np)) ee.

(* get_extrap_matrix.rs:129-196 *)
Definition get_extrap_matrix (pd : pad) (g : gauss) : res (mat * pad) :=
  let nv := kind_nnode (p_kind pd) in
  let geo := kind_ndim (p_kind pd) in
  let np := npoint g in
  let! r := get_interp_matrix pd g in
  let pp := fst r in
  if (np =? nv)%nat then
    let! ee := mat_inv pp in Ok (ee, snd r)
  else if (nv <? np)%nat then
    let! ee := mat_pinv pp in Ok (ee, snd r)
  else if (np =? 1)%nat then
    let! ee := mat_pinv pp in Ok (ee, snd r)
  else
    let! ppi := mat_pinv pp in
    let! table := get_tr_pinv_hxi (kind_class (p_kind pd)) np in
    let bbt := map hxi_row table in
    let! aa := extrap_aa geo g bbt np in
    let! ee := extrap_xi (p_kind pd) bbt np (zeros nv np) in
    let! ee := extrap_corr nv np ppi aa ee in
    Ok (ee, snd r).
End Extrap.
