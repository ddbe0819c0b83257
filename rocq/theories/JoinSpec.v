(* What joining meshes means. *)
From Coq Require Import List Arith ZArith Reals Permutation.
From Verif Require Import Kind MeshModel GeomSpec GridSpec TopoSpec.
Import ListNotations.
Open Scope nat_scope.

(* [f] tells where the points of b are in m *)
(* the points of a keep their places *)
Definition keeps_points (a m : mesh R) : Prop := forall p pt, nth_error (points a) p = Some pt -> nth_error (points m) p = Some pt.
(* point p of b is at f p, up to the distance tol *)
Definition placed (tol : R) (b m : mesh R) (f : nat -> nat) : Prop :=
  forall p pt, nth_error (points b) p = Some pt -> exists pt', nth_error (points m) (f p) = Some pt' /\
    List.length (pt_coords pt') = List.length (pt_coords pt) /\ (euclid (pt_coords pt') (pt_coords pt) <= tol)%R.
(* cell number i of b is cell number n + i of m *)
Definition carries_cells (n : nat) (b m : mesh R) (f : nat -> nat) : Prop :=
  forall i c, nth_error (cells b) i = Some c -> exists c', nth_error (cells m) (n + i) = Some c' /\
    c_kind c' = c_kind c /\ c_marker c' = c_marker c /\ c_points c' = map f (c_points c).

(* merging: a point of b is either a near point of a or a new point with the same coordinates and marker;
   in the second case no point of a (with coordinates in [near]) differs by at most [e] in every coordinate,
   and other points of b go elsewhere *)
Definition merged (tol e : R) (near : list R -> Prop) (a b m : mesh R) (f : nat -> nat) : Prop :=
  forall p pt, nth_error (points b) p = Some pt ->
    (exists q, nth_error (points a) (f p) = Some q /\ (euclid (pt_coords q) (pt_coords pt) <= tol)%R) \/
    (List.length (points a) <= f p /\
     nth_error (points m) (f p) = Some (mkPoint (f p) (pt_marker pt) (pt_coords pt)) /\
     (forall i q, nth_error (points a) i = Some q -> near (pt_coords q) -> ~ close e (pt_coords q) (pt_coords pt)) /\
     forall p', p' < List.length (points b) -> f p' = f p -> p' = p).

(* marker of the last entry of the first list between the points x and y (edges), if any, otherwise of the first entry of the second list *)
Definition last_first {A} (P : A -> Prop) (l1 l2 : list A) (q : A) : Prop :=
  P q /\ ((exists u v, l1 = u ++ q :: v /\ forall q', In q' v -> ~ P q') \/
          ((forall q', In q' l1 -> ~ P q') /\ exists u v, l2 = u ++ q :: v /\ forall q', In q' u -> ~ P q')).
Definition move_edge (f : nat -> nat) (q : Z * nat * nat) : Z * nat * nat := let '(mk, x, y) := q in (mk, f x, f y).
Definition move_face (f : nat -> nat) (q : Z * nat * nat * nat * option nat) : Z * nat * nat * nat * option nat :=
  let '(mk, x, y, z, w) := q in (mk, f x, f y, f z, option_map f w).
Definition edge_at (x y : nat) (q : Z * nat * nat) : Prop := same_pair x y (snd (fst q)) (snd q).
Definition face_at (ps : list nat) (q : Z * nat * nat * nat * option nat) : Prop := Permutation ps (marked_face_points q).

(* lexicographic order of the points of faces; a missing point comes last *)
Inductive lex_list : list nat -> list nat -> Prop :=
| lex_missing x s : lex_list (x :: s) []
| lex_head x s y t : x < y -> lex_list (x :: s) (y :: t)
| lex_tail x s t : lex_list s t -> lex_list (x :: s) (x :: t).

(* number of cells before mesh k *)
Definition cells_before (ms : list (mesh R)) (k : nat) : nat := fold_right plus 0 (map (fun m => List.length (cells m)) (firstn k ms)).

(* the marked edges and faces of several meshes, moved by their maps, one mesh after the other *)
Definition moved_edges (fs : list (nat -> nat)) (ms : list (mesh R)) : list (Z * nat * nat) :=
  flat_map (fun fm : (nat -> nat) * mesh R => map (move_edge (fst fm)) (marked_edges (snd fm))) (combine fs ms).
Definition moved_faces (fs : list (nat -> nat)) (ms : list (mesh R)) : list (Z * nat * nat * nat * option nat) :=
  flat_map (fun fm : (nat -> nat) * mesh R => map (move_face (fst fm)) (marked_faces (snd fm))) (combine fs ms).
