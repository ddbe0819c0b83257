(* What a VTU file (UnstructuredGrid, ascii, one piece) says, without the writer. *)
From Coq Require Import String List Arith NArith ZArith QArith.
From Verif Require Import Base Kind MeshModel TextModel TextSpec.
Import ListNotations.
Local Open Scope string_scope.
Local Open Scope list_scope.
Local Open Scope nat_scope.

(* a file with a number of points, a number of cells and seven arrays *)
Record vtu {T} := mkVtu {
  f_npoint : nat; f_ncell : nat;
  f_points : list T;             (* three per point *)
  f_connectivity : list nat; f_offsets : list nat; f_types : list nat;
  f_point_marker : list Z; f_cell_marker : list Z
}.
Arguments vtu : clear implicits.

Section File.
Context {T : Type}.
Variable parse_f : text -> option T.
(* a line with words that stand for the values xs *)
Definition row {A} (means : text -> A -> Prop) (xs : list A) (l : text) : Prop := exists ws, spells ws l /\ Forall2 means ws xs.
Definition natural (w : text) (n : nat) : Prop := decimal w (N.of_nat n).
Definition float (w : text) (x : T) : Prop := parse_f w = Some x.

Definition vtu_text (t : text) (f : vtu T) : Prop :=
  exists np nc pts conn offs types pm cm,
  natural np (f_npoint f) /\ natural nc (f_ncell f) /\
  row float (f_points f) pts /\ row natural (f_connectivity f) conn /\ row natural (f_offsets f) offs /\ row natural (f_types f) types /\
  row i32_numeral (f_point_marker f) pm /\ row i32_numeral (f_cell_marker f) cm /\
  text_lines [
    txt "<?xml version=""1.0""?>";
    txt "<VTKFile type=""UnstructuredGrid"" version=""0.1"" byte_order=""LittleEndian"">";
    txt "<UnstructuredGrid>";
    txt "<Piece NumberOfPoints=""" ++ np ++ txt """ NumberOfCells=""" ++ nc ++ txt """>";
    txt "<Points>";
    txt "<DataArray type=""Float64"" NumberOfComponents=""3"" format=""ascii"">"; pts; txt "</DataArray>";
    txt "</Points>";
    txt "<Cells>";
    txt "<DataArray type=""Int32"" Name=""connectivity"" format=""ascii"">"; conn; txt "</DataArray>";
    txt "<DataArray type=""Int32"" Name=""offsets"" format=""ascii"">"; offs; txt "</DataArray>";
    txt "<DataArray type=""UInt8"" Name=""types"" format=""ascii"">"; types; txt "</DataArray>";
    txt "</Cells>";
    txt "<PointData Scalars=""TheScalars"">";
    txt "<DataArray type=""Int32"" Name=""marker"" NumberOfComponents=""1"" format=""ascii"">"; pm; txt "</DataArray>";
    txt "</PointData>";
    txt "<CellData Scalars=""TheScalars"">";
    txt "<DataArray type=""Int32"" Name=""marker"" NumberOfComponents=""1"" format=""ascii"">"; cm; txt "</DataArray>";
    txt "</CellData>";
    txt "</Piece>";
    txt "</UnstructuredGrid>";
    txt "</VTKFile>"; []] t.
End File.

(* the printer of floats prints words that read back as the coordinates, and "0.0" reads as zero *)
Section Print.
Context {T : Type}.
Variables (fmt_f : T -> text) (parse_f : text -> option T) (zero : T).
Definition floats (m : mesh T) : Prop :=
  parse_f (txt "0.0") = Some zero /\ forall p x, In p (points m) -> In x (pt_coords p) -> parse_f (fmt_f x) = Some x /\ is_word (fmt_f x).
(* the markers are i32 numbers *)
Definition markers (m : mesh T) : Prop :=
  (forall p, In p (points m) -> (-(2 ^ 31) <= pt_marker p < 2 ^ 31)%Z) /\ (forall c, In c (cells m) -> (-(2 ^ 31) <= c_marker c < 2 ^ 31)%Z).
End Print.

(* the points of cell i: offsets are the ends of the cells in the connectivity *)
Definition vtu_cell {T} (f : vtu T) (i : nat) : list nat :=
  let start := match i with 0 => 0 | S j => nth j (f_offsets f) 0 end in
  firstn (nth i (f_offsets f) 0 - start) (skipn start (f_connectivity f)).

(* the parametric coordinates of the nodes of the VTK cell types (documentation of VTK): vtkLine,
   vtkQuadraticEdge, vtkCubicLine (on [-1,1]), vtkTriangle, vtkQuadraticTriangle, vtkQuad,
   vtkQuadraticQuad, vtkBiQuadraticQuad, vtkTetra, vtkQuadraticTetra, vtkHexahedron,
   vtkQuadraticHexahedron *)
Local Open Scope Q_scope.
Definition vtk_tri : list (list Q) := [[0; 0]; [1; 0]; [0; 1]].
Definition vtk_tri_mid : list (list Q) := [[1#2; 0]; [1#2; 1#2]; [0; 1#2]].
Definition vtk_quad : list (list Q) := [[0; 0]; [1; 0]; [1; 1]; [0; 1]].
Definition vtk_quad_mid : list (list Q) := [[1#2; 0]; [1; 1#2]; [1#2; 1]; [0; 1#2]].
Definition vtk_tet : list (list Q) := [[0; 0; 0]; [1; 0; 0]; [0; 1; 0]; [0; 0; 1]].
Definition vtk_hex : list (list Q) := map (fun p => p ++ [0]) vtk_quad ++ map (fun p => p ++ [1]) vtk_quad.
Definition vtk_nodes (type : nat) : option (list (list Q)) :=
  match type with
  | 3%nat => Some [[0]; [1]]
  | 21%nat => Some [[0]; [1]; [1#2]]
  | 35%nat => Some [[-(1)]; [1]; [-(1#3)]; [1#3]]
  | 5%nat => Some vtk_tri
  | 22%nat => Some (vtk_tri ++ vtk_tri_mid)
  | 9%nat => Some vtk_quad
  | 23%nat => Some (vtk_quad ++ vtk_quad_mid)
  | 28%nat => Some (vtk_quad ++ vtk_quad_mid ++ [[1#2; 1#2]])
  | 10%nat => Some vtk_tet
  | 24%nat => Some (vtk_tet ++ [[1#2; 0; 0]; [1#2; 1#2; 0]; [0; 1#2; 0]; [0; 0; 1#2]; [1#2; 0; 1#2]; [0; 1#2; 1#2]])
  | 12%nat => Some vtk_hex
  | 25%nat => Some (vtk_hex ++ map (fun p => p ++ [0]) vtk_quad_mid ++ map (fun p => p ++ [1]) vtk_quad_mid ++ map (fun p => p ++ [1#2]) vtk_quad)
  | _ => None
  end.
(* the kinds with reference coordinates on [-1,1] *)
Definition symmetric_reference (k : geokind) : bool := match kind_class k with CLin | CQua | CHex => true | _ => false end.
Definition vtk_coordinate (k : geokind) (type : nat) (r : Q) : Q :=
  if symmetric_reference k && negb (type =? 35)%nat then (1 + r) / 2 else r.
