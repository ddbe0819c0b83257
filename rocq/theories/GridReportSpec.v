(* What the printed summaries of grids mean. *)
From Coq Require Import List Arith Reals Sorted.
Import ListNotations.
Open Scope nat_scope.

Definition increasing (l : list nat) : Prop := StronglySorted lt l.
(* lines sorted by number, none empty, sorted ids without repetition *)
Definition listing (rows : list (nat * list nat)) : Prop :=
  increasing (map fst rows) /\ forall k ids, In (k, ids) rows -> increasing ids /\ ids <> [].
Definition listed (rows : list (nat * list nat)) (id : nat) : Prop := exists k ids, In (k, ids) rows /\ In id ids.
(* number of containers of the whole grid *)
Definition grid_size (ndiv : list nat) : nat := fold_right Nat.mul 1 ndiv.
(* container number k of the grid contains the point x *)
Definition covers (ndiv : list nat) (xmin : list R) (side : R) (k : nat) (x : list R) : Prop :=
  exists cs, List.length cs = List.length ndiv /\
    k = nth 0 cs 0 + nth 0 ndiv 0 * (nth 1 cs 0 + nth 1 ndiv 0 * nth 2 cs 0) /\
    forall i, i < List.length ndiv -> nth i cs 0 < nth i ndiv 0 /\
      (nth i xmin 0 + side * INR (nth i cs 0%nat) <= nth i x 0 <= nth i xmin 0 + side * INR (nth i cs 0%nat) + side)%R.
(* sum of a list of counts; sum weighted by the position *)
Definition total (l : list nat) : nat := fold_right Nat.add 0 l.
Fixpoint weighted (n : nat) (l : list nat) : nat := match l with [] => 0 | x :: t => n * x + weighted (S n) t end.
