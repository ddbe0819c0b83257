(* Vocabulary of the properties of the features of joined meshes. *)
From Coq Require Import List Arith Reals Permutation.
From Verif Require Import Base Kind MeshModel GeomSpec TopoSpec.
Local Open Scope nat_scope.

(* different points are farther apart than e *)
Definition apart (e : R) (b : mesh R) : Prop :=
  forall p q x y, nth_error (points b) p = Some x -> nth_error (points b) q = Some y -> p <> q -> (e < euclid (pt_coords x) (pt_coords y))%R.
(* b has an edge (a face) that f moves to the points x and y (ks) *)
Definition moved_edge (f : nat -> nat) (b : mesh R) (x y : nat) : Prop := exists c e p q, edge_of b c e p q /\ same_pair x y (f p) (f q).
Definition moved_face (f : nat -> nat) (b : mesh R) (ks : list nat) : Prop := exists c e ps, face_of b c e ps /\ Permutation ks (map f ps).
