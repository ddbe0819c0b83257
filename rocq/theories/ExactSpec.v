(* When the meshes of several blocks fit together exactly. *)
From Coq Require Import Reals List Arith ZArith Bool.
From Verif Require Import Base Kind GraphModel MeshModel GeomSpec BlockModel BlockSpec StructSpec MeshQuerySpec JoinSpec BlocksSpec.
Import ListNotations.
Local Open Scope list_scope.
Local Open Scope R_scope.

(* node k of the cell with this index is placed at y *)
Definition is_node (nd : nat) (target : geokind) (g : region) (idx : list nat) (k : nat) (y : list R) : Prop :=
  in_region g idx /\ (k < kind_nnode target)%nat /\ List.length y = nd /\ region_at nd g target idx k y.
(* any two nodes are at the same place or further apart than e *)
Definition separated (nd : nat) (e : R) (target : geokind) (gs : list region) : Prop :=
  forall g g' idx k y idx' k' y', In g gs -> In g' gs -> is_node nd target g idx k y -> is_node nd target g' idx' k' y' -> y = y' \/ e < euclid y y'.
(* different nodes of one block are at different places *)
Definition one_to_one (nd : nat) (target : geokind) (gs : list region) : Prop :=
  forall g idx k idx' k' y, In g gs -> is_node nd target g idx k y -> is_node nd target g idx' k' y -> lattice target idx k = lattice target idx' k'.
(* corner k of a cell of block i, which is not a corner of another cell *)
Definition lone_corner (nd : nat) (target : geokind) (gs : list region) (i : nat) (g : region) (idx : list nat) (k : nat) : Prop :=
  nth_error gs i = Some g /\ in_region g idx /\ (k < corners nd)%nat /\
  forall i' g' idx' k' y, nth_error gs i' = Some g' -> (k' < corners nd)%nat -> is_node nd target g idx k y -> is_node nd target g' idx' k' y ->
    i' = i /\ idx' = idx /\ k' = k.
(* such a corner has the smallest (s = 1) or greatest (s = -1) coordinate a of all nodes *)
Definition outermost (nd : nat) (target : geokind) (gs : list region) (s : R) (a : nat) : Prop :=
  exists i g idx k, lone_corner nd target gs i g idx k /\
    forall y g' idx' k' y', is_node nd target g idx k y -> In g' gs -> is_node nd target g' idx' k' y' -> s * nth a y 0 <= s * nth a y' 0.
Definition wide (nd : nat) (target : geokind) (gs : list region) (a : nat) : Prop :=
  exists g idx k g' idx' k', In g gs /\ In g' gs /\ in_region g idx /\ in_region g' idx' /\ (k < kind_nnode target)%nat /\ (k' < kind_nnode target)%nat /\
    forall y y', is_node nd target g idx k y -> is_node nd target g' idx' k' y' -> nth a y 0 <> nth a y' 0.
(* the blocks up to any but the last one *)
Definition enclosing (nd : nat) (target : geokind) (gs : list region) : Prop :=
  forall n a, (1 <= n < List.length gs)%nat -> (a < nd)%nat ->
    outermost nd target (firstn n gs) 1 a /\ outermost nd target (firstn n gs) (-1) a /\ wide nd target (firstn n gs) a.
(* no two points at the same place, and all nodes of all cells exactly where the blocks put them *)
Definition exact_mesh (nd : nat) (target : geokind) (gs : list region) (m : mesh R) : Prop :=
  consistent m /\ coords_complete m /\ all_used m /\ distinct_points m /\ built nd 0 target gs m.
(* the run for both values of the flag *)
Definition made_exact (nd : nat) (target : geokind) (gs : list region) (run : bool -> res (mesh R)) : Prop :=
  exists m, run false = Ok m /\ exact_mesh nd target gs m /\ run true = renumber_mesh m false /\ forall m', run true = Ok m' -> exact_mesh nd target gs m'.
