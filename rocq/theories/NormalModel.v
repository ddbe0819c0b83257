(* Checks of the normal vectors of edges and faces.
   Modelled:
   - Mesh::check_2d_edge_normals  (src/mesh/check.rs:71-92)
   - Mesh::check_face_normals     (src/mesh/check.rs:97-118)
   The map [solutions] is a list of pairs: its iteration order is arbitrary.  approx_eq (russell_lab) panics
   when the numbers differ by more than the tolerance. *)
From Coq Require Import String Reals QArith List Bool Arith ZArith.
From Verif Require Import Base Kind MeshModel GraphModel TopoModel ShapesModel GeomModel PadModel.
Import ListNotations.
Local Open Scope string_scope.
Local Open Scope list_scope.
Local Open Scope R_scope.

(* russell_lab::approx_eq *)
Definition approx_eq (a b tol : R) : res unit := if Rltb tol (Rabs (a - b)) then Panic else Ok tt.

(* check.rs:85-89 and 111-115 *)
Definition check_components (n : nat) (msg : string) (un correct : list R) (tol : R) : res unit :=
  foldM (fun (_ : unit) i =>
      let! a := get un i in
      let! b := get correct i in
      if Rltb tol (Rabs (a - b)) then Err msg else Ok tt)
    (seq 0 n) tt.

(* check.rs:80-90 and 106-116: one entry; [kind] and [pts] are those of the edge or face *)
Definition check_one (m : mesh R) (msg : string) (kind : geokind) (pts : list nat) (ksi : list R)
    (mag : R) (un : list R) (tol : R) : res unit :=
  let! pad := pad_new (ndim m) kind in
  let! pad := mesh_set_pad m pad pts in
  let! r := calc_normal_vector pad (ndim m) ksi in
  let! _ := approx_eq (fst (fst r)) mag tol in
  check_components (ndim m) msg (snd (fst r)) un tol.

(* check.rs:71-92 *)
Definition check_2d_edge_normals (m : mesh R) (edges : list (ekey * edge)) (solutions : list (ekey * (R * list R))) (tol : R)
  : res unit :=
  foldM (fun (_ : unit) (s : ekey * (R * list R)) =>
      match mget ekey_eqb edges (fst s) with
      | None => Err "cannot find edge_key in edges map"
      | Some ed => check_one m "wrong 2d edge unit normal vector found" (e_kind ed) (e_points ed) [0; 0] (fst (snd s)) (snd (snd s)) tol
      end) solutions tt.

(* check.rs:97-118 *)
Definition check_face_normals (m : mesh R) (faces : list (fkey * face)) (solutions : list (fkey * (R * list R))) (tol : R)
  : res unit :=
  foldM (fun (_ : unit) (s : fkey * (R * list R)) =>
      match mget fkey_eqb faces (fst s) with
      | None => Err "cannot find face_key in faces map"
      | Some fc => check_one m "wrong face unit normal vector found" (f_kind fc) (f_points fc) [0; 0; 0] (fst (snd s)) (snd (snd s)) tol
      end) solutions tt.
