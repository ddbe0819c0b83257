(* Vocabulary for the statements about graphs and meshes: how the data of the model are read as
   graphs in the sense of GraphSpec.v. *)
From Coq Require Import List Arith Permutation.
From Verif Require Import MeshModel GraphModel GraphSpec.
Import ListNotations.

(* v is listed in row u *)
Definition adj_edge (adj : list (list nat)) (u v : nat) : Prop := In v (nth u adj []).
Definition edge (g : graph) : nat -> nat -> Prop := adj_edge (adjacency g).
(* number of vertices *)
Definition nv (g : graph) : nat := List.length (adjacency g).
(* all entries are vertices *)
Definition in_bounds (adj : list (list nat)) : Prop :=
  forall u, Forall (fun v => v < List.length adj) (nth u adj []).

(* the neighbour of v that occurs first in l is p *)
Definition first_neighbour (R : nat -> nat -> Prop) (l : list nat) (p v : nat) : Prop :=
  exists l1 l2, l = l1 ++ p :: l2 /\ R p v /\ forall x, In x l1 -> ~ R x v.

Section Mesh.
Context {T : Type}.
Variable m : mesh T.

Definition cells_in_range : Prop :=
  forall c p, In c (cells m) -> In p (c_points c) -> p < List.length (points m).

(* a and b are different points of one cell *)
Definition mesh_edge (a b : nat) : Prop :=
  a <> b /\ exists c, In c (cells m) /\ In a (c_points c) /\ In b (c_points c).

Definition well_formed : Prop :=
  cells_in_range /\ (forall p, In p (points m) -> List.length (pt_coords p) = ndim m).

(* [m'] is [m] with point i called o2n[i] *)
Definition renumbered (o2n : list nat) (m' : mesh T) : Prop :=
  ndim m' = ndim m /\ List.length (points m') = List.length (points m) /\
  (forall i p, nth_error (points m) i = Some p ->
     nth_error (points m') (nth i o2n 0) = Some (mkPoint (nth i o2n 0) (pt_marker p) (pt_coords p))) /\
  cells m' = map (fun c => mkCell (c_id c) (c_marker c) (c_kind c) (map (fun p => nth p o2n 0) (c_points c))) (cells m).
End Mesh.

(* what from_edges and from_mesh guarantee when calc_degree is true (theorems C06_...): rows list
   each neighbour once, sorted by (degree, id), symmetric; degree[u] is the length of row u *)
Record ready (g : graph) : Prop := {
  r_bounds : in_bounds (adjacency g);
  r_sym : forall u v, edge g u v -> edge g v u;
  r_nodup : forall u, NoDup (nth u (adjacency g) []);
  r_sorted : forall u x y, before (nth u (adjacency g) []) x y ->
     nth x (degree g) 0 < nth y (degree g) 0 \/ (nth x (degree g) 0 = nth y (degree g) 0 /\ x < y);
  r_degree : degree g = map (@List.length nat) (adjacency g);
  r_pmin : 0 < nv g -> p_min_degree g < nv g /\ forall i, i < nv g ->
     nth (p_min_degree g) (degree g) 0 < nth i (degree g) 0 \/
     (nth (p_min_degree g) (degree g) 0 = nth i (degree g) 0 /\ p_min_degree g <= i) }.
