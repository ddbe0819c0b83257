(* What a search grid is for. *)
From Coq Require Import List Reals Arith.
From Verif Require Import GeomSpec.
Import ListNotations.
Open Scope R_scope.

(* a point within the box *)
Definition in_box (xmin xmax x : list R) : Prop :=
  List.length x = List.length xmin /\
  forall i, (i < List.length xmin)%nat -> nth i xmin 0 <= nth i x 0 <= nth i xmax 0.

(* coordinates differ by at most e *)
Definition close (e : R) (x y : list R) : Prop :=
  List.length x = List.length y /\ forall i, (i < List.length x)%nat -> Rabs (nth i x 0 - nth i y 0) <= e.

(* a history of insertions; the last one of an id *)
Definition history := list (nat * list R).
Definition last_insertion (h : history) (id : nat) (x : list R) : Prop :=
  exists h1 h2, h = h1 ++ (id, x) :: h2 /\ ~ In id (map fst h2).

(* within a distance of a set of points *)
Definition within (S : list R -> Prop) (tol : R) (x : list R) : Prop := exists p, S p /\ euclid x p <= tol.

(* an answer: every id has some insertion with the property, and every last insertion with the property is listed *)
Definition selects (h : history) (ok : list R -> Prop) (ids : list nat) : Prop :=
  NoDup ids /\
  (forall id, In id ids -> exists x, In (id, x) h /\ ok x) /\
  (forall id x, last_insertion h id x -> ok x -> In id ids).
