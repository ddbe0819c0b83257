(* The text written by Mesh::write_vtu (src/mesh/paraview.rs:15-166).  A text is a list of code points
   (see TextModel); [fmt_f] prints an f64 with {:?}.  The creation of the directory and of the file, and
   the system calls, are not modelled: the result is the contents of the file. *)
From Coq Require Import String List Arith NArith ZArith Bool.
From Verif Require Import Base Kind MeshModel TopoModel TextModel.
Import ListNotations.
Local Open Scope string_scope.
Local Open Scope list_scope.
Local Open Scope nat_scope.

(* lines, each ended by a line feed *)
Definition unlines (ls : list text) : text := flat_map (fun l => l ++ [nl]) ls.
(* write!(&mut buffer, "{} ", item) for each item *)
Definition items (ws : list text) : text := flat_map (fun w => w ++ [sp]) ws.

Section Vtu.
Context {T : Type}.
Variable fmt_f : T -> text.

(* paraview.rs:46-53 *)
Definition vtu_point (nd : nat) (p : point T) : res text :=
  let! xs := mapM (fun dim => get (pt_coords p) dim) (seq 0 nd) in
  Ok (items (map fmt_f xs) ++ (if nd =? 2 then txt "0.0 " else [])).

(* paraview.rs:68-75 *)
Definition vtu_connectivity (cs : list cell) : res text :=
  foldM (fun (acc : text) c =>
      match vtk_type (c_kind c) with
      | None => Err "cannot generate VTU file because VTK cell type is not available"
      | Some _ => Ok (acc ++ items (map fmt_nat (c_points c)))
      end) cs [].

(* paraview.rs:84-88 *)
Definition vtu_offsets (cs : list cell) : text :=
  snd (fold_left (fun (s : nat * text) c =>
      let offset := fst s + List.length (c_points c) in
      (offset, snd s ++ fmt_nat offset ++ [sp])) cs (0, [])).

(* paraview.rs:97-101 *)
Definition vtu_types (cs : list cell) : text :=
  flat_map (fun c => match vtk_type (c_kind c) with Some vtk => fmt_nat vtk ++ [sp] | None => [] end) cs.

(* paraview.rs:15-166 *)
Definition write_vtu (m : mesh T) : res text :=
  if List.length (cells m) <? 1 then Err "there are no cells to write" else
  let! coords := mapM (vtu_point (ndim m)) (points m) in
  let! conn := vtu_connectivity (cells m) in
  Ok (unlines [
    txt "<?xml version=""1.0""?>";
    txt "<VTKFile type=""UnstructuredGrid"" version=""0.1"" byte_order=""LittleEndian"">";
    txt "<UnstructuredGrid>";
    txt "<Piece NumberOfPoints=""" ++ fmt_nat (List.length (points m)) ++ txt """ NumberOfCells=""" ++ fmt_nat (List.length (cells m)) ++ txt """>";
    txt "<Points>";
    txt "<DataArray type=""Float64"" NumberOfComponents=""3"" format=""ascii"">";
    concat coords;
    txt "</DataArray>";
    txt "</Points>";
    txt "<Cells>";
    txt "<DataArray type=""Int32"" Name=""connectivity"" format=""ascii"">";
    conn;
    txt "</DataArray>";
    txt "<DataArray type=""Int32"" Name=""offsets"" format=""ascii"">";
    vtu_offsets (cells m);
    txt "</DataArray>";
    txt "<DataArray type=""UInt8"" Name=""types"" format=""ascii"">";
    vtu_types (cells m);
    txt "</DataArray>";
    txt "</Cells>";
    txt "<PointData Scalars=""TheScalars"">";
    txt "<DataArray type=""Int32"" Name=""marker"" NumberOfComponents=""1"" format=""ascii"">";
    items (map (fun p => fmt_i32 (pt_marker p)) (points m));
    txt "</DataArray>";
    txt "</PointData>";
    txt "<CellData Scalars=""TheScalars"">";
    txt "<DataArray type=""Int32"" Name=""marker"" NumberOfComponents=""1"" format=""ascii"">";
    items (map (fun c => fmt_i32 (c_marker c)) (cells m));
    txt "</DataArray>";
    txt "</CellData>";
    txt "</Piece>";
    txt "</UnstructuredGrid>";
    txt "</VTKFile>"]).
End Vtu.
