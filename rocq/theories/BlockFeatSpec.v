(* Vocabulary of the properties of the boundary of the mesh of a block. *)
From Coq Require Import Reals List Arith ZArith.
From Verif Require Import Base Kind MeshModel TopoModel BlockModel BlockSpec.
Import ListNotations.
Local Open Scope list_scope.

(* the cell with this index is at side s of the block *)
Definition at_rim (b : block) (idx : list nat) (s : nat) : Prop :=
  let a := side_axis (b_ndim b) s in
  (side_end (b_ndim b) s = (-1)%R /\ nth a idx 0 = 0) \/ (side_end (b_ndim b) s = 1%R /\ S (nth a idx 0) = ndivs b a).
(* the cell idx' is next to the cell idx, in the direction of side s *)
Definition across (nd s : nat) (idx idx' : list nat) : Prop :=
  let a := side_axis nd s in
  List.length idx' = nd /\ (forall c, c < nd -> c <> a -> nth c idx' 0 = nth c idx 0) /\
  ((side_end nd s = (-1)%R /\ S (nth a idx' 0) = nth a idx 0) \/ (side_end nd s = 1%R /\ nth a idx' 0 = S (nth a idx 0))).
(* the side of a cell opposite to side s *)
Definition opposite (nd s : nat) : nat :=
  if nd =? 2 then match s with 0 => 2 | 1 => 3 | 2 => 0 | _ => 1 end
  else match s with 0 => 1 | 1 => 0 | 2 => 3 | 3 => 2 | 4 => 5 | _ => 4 end.
(* the marker given to a side *)
Definition side_marker (l : list (nat * Z)) (s : nat) : Z := match mget Nat.eqb l s with Some mk => mk | None => 0%Z end.
(* number of cells at a side *)
Definition rim_size (b : block) (s : nat) : nat :=
  fold_right Nat.mul 1 (map (ndivs b) (filter (fun a => negb (a =? side_axis (b_ndim b) s)) (seq 0 (b_ndim b)))).
(* the sides (among n) with this marker; zero stands for no marker *)
Definition sides_marked (l : list (nat * Z)) (n : nat) (mk : Z) : list nat := filter (fun s => Z.eqb (side_marker l s) mk) (seq 0 n).
Definition total (l : list nat) : nat := fold_right Nat.add 0 l.
