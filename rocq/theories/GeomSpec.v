(* What the geometry functions are for: distances to sets of points, barycentric weights. *)
From Coq Require Import List Reals.
Import ListNotations.
Open Scope R_scope.

(* sum of (a_i - b_i)^2 and the Euclidean distance *)
Fixpoint sqdist (a b : list R) : R :=
  match a, b with x :: a', y :: b' => (x - y) * (x - y) + sqdist a' b' | _, _ => 0 end.
Definition euclid (a b : list R) : R := sqrt (sqdist a b).

(* d is the distance from c to the set of points S: a lower bound that is attained *)
Definition distance_to (S : list R -> Prop) (c : list R) (d : R) : Prop :=
  (forall p, S p -> d <= euclid c p) /\ (exists p, S p /\ euclid c p = d).

(* the points of the line through a and b *)
Definition on_line (a b p : list R) : Prop :=
  exists t, p = map (fun xy => fst xy + t * (snd xy - fst xy)) (combine a b).

(* the points of the circle with the given centre and radius *)
Definition on_circle (center : list R) (radius : R) (p : list R) : Prop :=
  List.length p = List.length center /\ euclid center p = radius.

(* the points of the (infinite) cylinder with the axis through a and b *)
Definition on_cylinder (a b : list R) (radius : R) (p : list R) : Prop :=
  List.length p = List.length a /\ distance_to (on_line a b) p radius.

(* the points whose i-th coordinate is x (n-dimensional) *)
Definition on_plane (n i : nat) (x : R) (p : list R) : Prop := List.length p = n /\ nth_error p i = Some x.

(* i-th coordinate of the weighted sum of points *)
Fixpoint wsum (w : list R) (pts : list (list R)) (i : nat) : R :=
  match w, pts with a :: w', p :: pts' => a * nth i p 0 + wsum w' pts' i | _, _ => 0 end.
Definition total (w : list R) : R := fold_right Rplus 0 w.

(* w are weights expressing p as an affine combination of pts in n-dimensional space *)
Definition affine_weights (n : nat) (pts : list (list R)) (p w : list R) : Prop :=
  List.length w = List.length pts /\ total w = 1 /\ forall i, (i < n)%nat -> wsum w pts i = nth i p 0.
Definition convex_combination (n : nat) (pts : list (list R)) (p : list R) : Prop :=
  exists w, affine_weights n pts p w /\ forall x, In x w -> 0 <= x.

(* the vertices are affinely independent: the simplex is not degenerate *)
Definition independent (n : nat) (pts : list (list R)) : Prop :=
  forall w, List.length w = List.length pts -> total w = 0 -> (forall i, (i < n)%nat -> wsum w pts i = 0) ->
  forall x, In x w -> x = 0.
