(* What the tools qua2msh and hex2msh promise, without the model of the tools. *)
From Coq Require Import String Reals List Arith NArith ZArith.
From Verif Require Import Base Kind MeshModel TextModel TextSpec VtuSpec.
Import ListNotations.
Local Open Scope string_scope.
Local Open Scope list_scope.
Local Open Scope nat_scope.

(* the numbers of nodes that are accepted, and those for which there is a VTU file *)
Definition qua_nnodes : list nat := [4; 8; 9; 12; 16; 17].
Definition qua_vtu : list nat := [4; 8; 9].
Definition hex_nnodes : list nat := [8; 20; 32].
Definition hex_vtu : list nat := [8; 20].

(* the numbers of the mesh fit the types usize and i32 *)
Definition fits_types (m : mesh R) : Prop :=
  Forall (fun n => (N.of_nat n < 2 ^ 64 - 1)%N) [List.length (points m); List.length (cells m); List.length (marked_edges m); List.length (marked_faces m)] /\
  markers m /\
  (forall mk p q, In (mk, p, q) (marked_edges m) -> (-(2 ^ 31) <= mk < 2 ^ 31)%Z /\ (N.of_nat p < 2 ^ 64)%N /\ (N.of_nat q < 2 ^ 64)%N) /\
  (forall mk p q r o, In (mk, p, q, r, o) (marked_faces m) ->
     (-(2 ^ 31) <= mk < 2 ^ 31)%Z /\ (N.of_nat p < 2 ^ 64)%N /\ (N.of_nat q < 2 ^ 64)%N /\ (N.of_nat r < 2 ^ 64)%N /\
     forall s, o = Some s -> (N.of_nat s < 2 ^ 64 - 1)%N).

(* the VTU file shows the mesh: its points (with a third coordinate), cells and markers *)
Definition shows (parse_f : text -> option R) (t : text) (m : mesh R) : Prop :=
  exists f, vtu_text parse_f t f /\ f_npoint f = List.length (points m) /\ f_ncell f = List.length (cells m) /\
    f_points f = flat_map (fun p => pt_coords p ++ repeat 0%R (3 - ndim m)) (points m) /\
    (forall i c, nth_error (cells m) i = Some c -> vtu_cell f i = c_points c /\ nth_error (f_types f) i = vtk_type (c_kind c)) /\
    f_point_marker f = map pt_marker (points m) /\ f_cell_marker f = map c_marker (cells m).

(* the files hold the mesh: the first one is read again as it is (parse_f: the reader of numbers); there is a second one if and only if [vtu] *)
Definition delivered (fmt_f : R -> text) (vtu : Prop) (m : mesh R) (files : list (string * text)) : Prop :=
  exists msh,
    (forall parse_f, floats fmt_f parse_f 0%R m -> fits_types m -> read_file 0%R parse_f msh = Ok m) /\
    (vtu -> exists t, files = [(".msh", msh); (".vtu", t)] /\ forall parse_f, floats fmt_f parse_f 0%R m -> fits_types m -> shows parse_f t m) /\
    (~ vtu -> files = [(".msh", msh)]).
