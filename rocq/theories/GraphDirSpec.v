(* Vocabulary of the properties of directed graphs: walks and their weights. Independent of the model. *)
From Coq Require Import List Arith QArith.
Import ListNotations.
Open Scope nat_scope.

(* [last_edge es ws i j w]: the last edge of the list that goes from i to j has weight w *)
Definition last_edge (es : list (nat * nat)) (ws : list Q) (i j : nat) (w : Q) : Prop :=
  exists e, nth_error es e = Some (i, j) /\ nth_error ws e = Some w /\
            forall e', e < e' -> nth_error es e' <> Some (i, j).

(* some edge of the list goes from i to j with weight w *)
Definition some_edge (es : list (nat * nat)) (ws : list Q) (i j : nat) (w : Q) : Prop :=
  exists e, nth_error es e = Some (i, j) /\ nth_error ws e = Some w.

(* a walk along edges of E visiting the vertices p, of total weight c *)
Inductive dwalk (E : nat -> nat -> Q -> Prop) : nat -> nat -> list nat -> Q -> Prop :=
| dwalk_nil i : dwalk E i i [i] 0
| dwalk_cons i m j w p c : E i m w -> dwalk E m j p c -> dwalk E i j (i :: p) (w + c).

Definition least_weight (E : nat -> nat -> Q -> Prop) (i j : nat) (d : Q) : Prop :=
  (exists p c, dwalk E i j p c /\ (c == d)%Q) /\
  (forall p c, dwalk E i j p c -> (d <= c)%Q).
Definition no_walk (E : nat -> nat -> Q -> Prop) (i j : nat) : Prop :=
  forall p c, ~ dwalk E i j p c.

(* the endpoints are 0 .. n-1, n being the number of distinct endpoints *)
Definition contiguous (es : list (nat * nat)) : Prop :=
  forall i j, In (i, j) es ->
    i < List.length (nodup Nat.eq_dec (map fst es ++ map snd es)) /\
    j < List.length (nodup Nat.eq_dec (map fst es ++ map snd es)).
