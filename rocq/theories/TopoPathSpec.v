(* Vocabulary of the properties of Edges::any_path. *)
From Coq Require Import List Arith QArith Permutation Sorted Relations.
From Verif Require Import Kind TopoModel.
Import ListNotations.
Open Scope nat_scope.

(* a line with the number of points of its kind and two distinct end points *)
Definition lin_edge (ed : edge) : Prop :=
  kind_ndim (e_kind ed) = 1 /\ List.length (e_points ed) = kind_nnode (e_kind ed) /\
  nth_error (e_points ed) 0 <> nth_error (e_points ed) 1.

(* position of local node i along the line *)
Definition along (k : geokind) (i : nat) : Q := nth 0 (reference_coords k i) 0%Q.
(* l lists all points of the edge in the order met when travelling from a to b *)
Definition travelled (ed : edge) (a b : nat) (l : list nat) : Prop :=
  exists loc, Permutation loc (seq 0 (kind_nnode (e_kind ed))) /\
    (StronglySorted (fun i j => (along (e_kind ed) i < along (e_kind ed) j)%Q) loc \/
     StronglySorted (fun i j => (along (e_kind ed) j < along (e_kind ed) i)%Q) loc) /\
    map (nth_error (e_points ed)) loc = map Some l /\
    hd_error l = Some a /\ (exists l', l = l' ++ [b]).

(* es are the indices of the edges travelled from a to c, pts all points met *)
Inductive path (all : list edge) : nat -> list nat -> list nat -> nat -> Prop :=
| path_nil a : path all a [] [a] a
| path_cons a e ed b l es pts c : nth_error all e = Some ed -> travelled ed a b (l ++ [b]) ->
    path all b es pts c -> path all a (e :: es) (l ++ pts) c.

(* edge number e ends at the point p *)
Definition touches (all : list edge) (p e : nat) : Prop :=
  exists ed, nth_error all e = Some ed /\ (nth_error (e_points ed) 0 = Some p \/ nth_error (e_points ed) 1 = Some p).
Definition loose (all : list edge) (p : nat) : Prop := exists! e, touches all p e.
(* the starting point: the lowest loose end, if any, otherwise the lowest end point *)
Definition starts_at (all : list edge) (s : nat) : Prop :=
  (loose all s /\ forall p, loose all p -> s <= p) \/
  ((forall p, ~ loose all p) /\ (exists e, touches all s e) /\ forall p e, touches all p e -> s <= p).
(* no branches: at most two edges meet at a point *)
Definition unbranched (all : list edge) : Prop :=
  forall p i j k, touches all p i -> touches all p j -> touches all p k -> i = j \/ j = k \/ i = k.
(* edges meeting at a point *)
Definition adjacent (all : list edge) (i j : nat) : Prop := exists p, touches all p i /\ touches all p j.
Definition connected (all : list edge) : Prop :=
  forall i j, i < List.length all -> j < List.length all -> clos_refl_trans nat (adjacent all) i j.
