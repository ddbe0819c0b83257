(* Expression trees for the straight-line polynomial arithmetic of the shape functions
   (src/shapes/*.rs, functions calc_interp and calc_deriv), together with their meaning over
   the reals.  f64 operations are modelled by the exact operations. *)
From Coq Require Import Reals QArith Qreals List.
Import ListNotations.

Inductive expr : Set :=
| X (i : nat)                 (* ksi[i] *)
| C (q : Q)                   (* f64 literal *)
| Add (a b : expr)
| Sub (a b : expr)
| Mul (a b : expr)
| Neg (a : expr)
| DivC (a : expr) (q : Q).    (* division by a literal *)

Declare Scope expr_scope.
Delimit Scope expr_scope with expr.
Notation "a + b" := (Add a b) : expr_scope.
Notation "a - b" := (Sub a b) : expr_scope.
Notation "a * b" := (Mul a b) : expr_scope.
Notation "- a" := (Neg a) : expr_scope.
Notation "a '/c' q" := (DivC a q%Q) (at level 40, left associativity) : expr_scope.
Arguments C q%Q.

(* value of an expression; [ksi i] is the i-th reference coordinate *)
Fixpoint eval (ksi : nat -> R) (e : expr) : R :=
  match e with
  | X i => ksi i
  | C q => Q2R q
  | Add a b => (eval ksi a + eval ksi b)%R
  | Sub a b => (eval ksi a - eval ksi b)%R
  | Mul a b => (eval ksi a * eval ksi b)%R
  | Neg a => (- eval ksi a)%R
  | DivC a q => (eval ksi a / Q2R q)%R
  end.
