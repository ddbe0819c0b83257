(* What the range of a plot should do. *)
From Coq Require Import List Arith QArith.
From Verif Require Import Kind MeshModel PlotRangeModel.
Import ListNotations.
Open Scope Q_scope.

Definition coord (i : nat) (p : point Q) : Q := nth i (pt_coords p) 0.
(* a point with coordinates x, y is within the range (Auto: the range is left to the plotting library) *)
Definition shows (r : range) (x y : Q) : Prop :=
  match r with
  | Auto => True
  | Range2 a b c d => (a <= x <= b) /\ (c <= y <= d)
  | Range3 a b c d _ _ => (a <= x <= b) /\ (c <= y <= d)
  end.
(* no extent along direction i *)
Definition flat (i : nat) (m : mesh Q) : Prop := forall p q, In p (points m) -> In q (points m) -> coord i p == coord i q.
(* points with the smallest and the largest i-th coordinate *)
Definition lowest (i : nat) (m : mesh Q) (p : point Q) : Prop := In p (points m) /\ forall q, In q (points m) -> coord i p <= coord i q.
Definition highest (i : nat) (m : mesh Q) (p : point Q) : Prop := In p (points m) /\ forall q, In q (points m) -> coord i q <= coord i p.

Definition slab : mesh Q := mkMesh 2
  [mkPoint 0 0%Z [1; -1]; mkPoint 1 0%Z [3; -1]; mkPoint 2 0%Z [3; 4]; mkPoint 3 0%Z [1; 4]] [mkCell 0 1%Z Qua4 [0; 1; 2; 3]%nat] [] [].
Definition line_mesh : mesh Q := mkMesh 2 [mkPoint 0 0%Z [0; 1]; mkPoint 1 0%Z [2; 1]] [mkCell 0 1%Z Lin2 [0; 1]%nat] [] [].
