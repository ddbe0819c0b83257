(* What a check of overlapping points is for. *)
From Coq Require Import List Arith Reals.
From Verif Require Import MeshModel GeomSpec GridSpec.
Import ListNotations.
Open Scope R_scope.

(* two points of the mesh, at different positions of the list *)
Definition two_points (m : mesh R) (p q : point R) : Prop :=
  exists i j, i <> j /\ nth_error (points m) i = Some p /\ nth_error (points m) j = Some q.
(* two points within a distance *)
Definition near_pair (m : mesh R) (d : R) : Prop :=
  exists p q, two_points m p q /\ euclid (pt_coords p) (pt_coords q) <= d.
(* two points with the same coordinates *)
Definition duplicated (m : mesh R) : Prop := exists p q, two_points m p q /\ pt_coords p = pt_coords q.
(* the extent along axis i is larger than d *)
Definition wider (m : mesh R) (i : nat) (d : R) : Prop :=
  exists p q, In p (points m) /\ In q (points m) /\ d < nth i (pt_coords q) 0 - nth i (pt_coords p) 0.
(* the mesh has some extent along every axis, and along one of them it is large for the tolerance *)
Definition roomy (m : mesh R) (tol : R) : Prop :=
  (forall i, (i < ndim m)%nat -> wider m i 0) /\ exists i, (i < ndim m)%nat /\ wider m i (200 * tol - / 50).
(* all points share the coordinate along axis i *)
Definition flat (m : mesh R) (i : nat) : Prop :=
  forall p q, In p (points m) -> In q (points m) -> nth i (pt_coords p) 0 = nth i (pt_coords q) 0.
