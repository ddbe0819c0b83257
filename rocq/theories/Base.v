(* Common vocabulary of the models: results, vectors with bounds-checked access, sorting. *)
From Coq Require Import String List Arith Bool.
Import ListNotations.

(* Result<T, StrError>; [Panic] is a Rust panic (index out of bounds, unwrap of None, assert!);
   [NoFuel] marks a loop that did not finish within the fuel given by the model. *)
Inductive res (A : Type) : Type :=
| Ok (a : A)
| Err (msg : string)
| Panic
| NoFuel.
Arguments Ok {A} a. Arguments Err {A} msg. Arguments Panic {A}. Arguments NoFuel {A}.

Definition bind {A B} (x : res A) (f : A -> res B) : res B :=
  match x with Ok a => f a | Err m => Err m | Panic => Panic | NoFuel => NoFuel end.
Notation "'let!' x ':=' e 'in' f" := (bind e (fun x => f))
  (at level 61, x pattern, e at level 200, f at level 200, right associativity).

(* v[i] *)
Definition get {A} (l : list A) (i : nat) : res A :=
  match nth_error l i with Some a => Ok a | None => Panic end.

(* list update without bounds check *)
Fixpoint upd {A} (l : list A) (i : nat) (x : A) : list A :=
  match l, i with
  | [], _ => []
  | _ :: t, 0 => x :: t
  | a :: t, S i' => a :: upd t i' x
  end.

(* v[i] = x *)
Definition set {A} (l : list A) (i : nat) (x : A) : res (list A) :=
  if i <? List.length l then Ok (upd l i x) else Panic.

(* for x in l { s = f(s, x)?; } *)
Fixpoint foldM {A S} (f : S -> A -> res S) (l : list A) (s : S) : res S :=
  match l with
  | [] => Ok s
  | x :: t => bind (f s x) (fun s' => foldM f t s')
  end.

(* sort / sort_unstable / sort_by_key with a total order: any stable sorting algorithm gives the
   same answer up to equal elements; insertion sort is used *)
Fixpoint insert {A} (leb : A -> A -> bool) (x : A) (l : list A) : list A :=
  match l with
  | [] => [x]
  | y :: t => if leb x y then x :: l else y :: insert leb x t
  end.
Fixpoint isort {A} (leb : A -> A -> bool) (l : list A) : list A :=
  match l with [] => [] | x :: t => insert leb x (isort leb t) end.
