(* Specification vocabulary for graphs; independent of the model. *)
From Coq Require Import List Arith.
Import ListNotations.

Section Walks.
Variable E : nat -> nat -> Prop.
(* walk u v n: one can go from u to v along n edges *)
Inductive walk : nat -> nat -> nat -> Prop :=
| walk_nil u : walk u u 0
| walk_cons u v w n : E u v -> walk v w n -> walk u w (S n).

(* d is the least number of edges of a walk from u to v *)
Definition is_dist (u v d : nat) : Prop := walk u v d /\ forall n, walk u v n -> d <= n.

Definition reachable (u v : nat) : Prop := exists n, walk u v n.

(* consecutive elements are joined by an edge *)
Fixpoint is_path (l : list nat) : Prop :=
  match l with
  | a :: ((b :: _) as t) => E a b /\ is_path t
  | _ => True
  end.
End Walks.

(* every vertex of 0..n-1 can be reached from every other *)
Definition connected (E : nat -> nat -> Prop) (n : nat) : Prop :=
  forall u v, u < n -> v < n -> reachable E u v.

(* e is the largest distance from u *)
Definition is_ecc (E : nat -> nat -> Prop) (n u e : nat) : Prop :=
  (exists v, v < n /\ is_dist E u v e) /\ forall v d, v < n -> is_dist E u v d -> d <= e.

(* x occurs before y in l *)
Definition before {A} (l : list A) (x y : A) : Prop := exists l1 l2 l3, l = l1 ++ x :: l2 ++ y :: l3.
