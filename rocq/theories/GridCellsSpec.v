(* What the search for the cell around a point means. *)
From Coq Require Import List Arith Reals ZArith.
From Verif Require Import Kind MeshModel GeomSpec.
Import ListNotations.
Open Scope nat_scope.

(* coordinates of the points of a cell *)
Definition corner_coords (m : mesh R) (c : cell) : list (list R) :=
  map (fun p => match nth_error (points m) p with Some pt => pt_coords pt | None => [] end) (c_points c).
(* the closed triangle / tetrahedron of cell number id contains x *)
Definition contains (m : mesh R) (id : nat) (x : list R) : Prop :=
  exists c, nth_error (cells m) id = Some c /\ convex_combination (ndim m) (corner_coords m c) x.
(* meshes of triangles in 2D or of tetrahedra in 3D, none of them degenerate *)
Definition simplex_mesh (m : mesh R) : Prop :=
  (ndim m = 2 /\ forall c, In c (cells m) -> c_kind c = Tri3) \/ (ndim m = 3 /\ forall c, In c (cells m) -> c_kind c = Tet4).
Definition non_degenerate (m : mesh R) : Prop := forall c, In c (cells m) -> independent (ndim m) (corner_coords m c).
(* points used by cells, their coordinates, smallest and largest i-th coordinate *)
Definition used (m : mesh R) (p : nat) : Prop := exists c, In c (cells m) /\ In p (c_points c).
Definition coordinate (m : mesh R) (p i : nat) : R := nth i (match nth_error (points m) p with Some pt => pt_coords pt | None => [] end) 0%R.
Definition spans (m : mesh R) (i : nat) (a b : R) : Prop :=
  (exists p, used m p /\ coordinate m p i = a) /\ (exists p, used m p /\ coordinate m p i = b) /\
  forall p, used m p -> (a <= coordinate m p i <= b)%R.
(* parameters of the constructor with their default values; all cells being large is excluded by pct < 1 *)
Definition value (o : option R) (default : R) : R := match o with Some v => v | None => default end.
Definition params_ok (tol border cutoff pct : option R) : Prop :=
  (0 < value tol (/ 10000) /\ 0 <= value border (/ 100) /\ 0 <= value cutoff (3 / 4) <= 1 /\ 0 <= value pct (/ 5) < 1)%R.
(* the point lies within the limits *)
Definition within (n : nat) (lo hi x : list R) : Prop := forall i, i < n -> (nth i lo 0 <= nth i x 0 <= nth i hi 0)%R.

(* meshes of the examples *)
Open Scope R_scope.
Definition two_tri : mesh R := mkMesh 2
  [mkPoint 0 0%Z [0; 0]; mkPoint 1 0%Z [1; 0]; mkPoint 2 0%Z [0; 1]; mkPoint 3 0%Z [10; 10]]
  [mkCell 0 1%Z Tri3 [0; 1; 2]%nat; mkCell 1 1%Z Tri3 [1; 3; 2]%nat] [] [].
Definition one_tri : mesh R := mkMesh 2
  [mkPoint 0 0%Z [0; 0]; mkPoint 1 0%Z [1; 0]; mkPoint 2 0%Z [0; 1]] [mkCell 0 1%Z Tri3 [0; 1; 2]%nat] [] [].
Definition shell : mesh R := mkMesh 3
  [mkPoint 0 0%Z [0; 0; 0]; mkPoint 1 0%Z [1; 0; 0]; mkPoint 2 0%Z [0; 1; 1]] [mkCell 0 1%Z Tri3 [0; 1; 2]%nat] [] [].
