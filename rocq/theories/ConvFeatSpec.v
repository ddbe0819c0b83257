(* Vocabulary of the properties of the features of converted meshes. *)
From Coq Require Import List Arith.
From Verif Require Import Base Kind MeshModel ConvertSpec.
Local Open Scope nat_scope.

(* the corner p of cells of m is the corner p' of cells of d: same cell, same local number *)
Definition becomes {T} (m d : mesh T) (p p' : nat) : Prop :=
  exists c cl a, nth_error (cells m) c = Some cl /\ a < ncorners (c_kind cl) /\ node_id m c a p /\ node_id d c a p'.
