(* Where the nodes of the cells of a block with constraints are placed. *)
From Coq Require Import Reals List Arith Bool.
From Verif Require Import Base Kind ShapesModel ShapesSpec PadSpec BlockModel BlockSpec.
Import ListNotations.
Local Open Scope list_scope.
Local Open Scope R_scope.

Section Pos.
(* the map from reference to real coordinates, the sides with a condition, the relation between the old and the new
   coordinates of the points of these sides *)
Variables (nd : nat) (f : list R -> list R) (con : nat -> Prop) (mv : nat -> list R -> list R -> Prop).
(* the reference coordinates x are on no such side *)
Definition free (x : list R) : Prop := forall s, con s -> ~ at_side nd s x.
(* points on such a side are moved, the others stay where the map puts them *)
Definition settled (x y : list R) : Prop := (exists s, con s /\ at_side nd s x /\ mv s (f x) y) \/ (free x /\ y = f x).
(* one of the two ends of an edge was really moved because of a side that does not contain the edge *)
Definition pulled (x0 x1 : list R) : Prop :=
  exists s x, con s /\ (x = x0 \/ x = x1) /\ at_side nd s x /\ ~ (at_side nd s x0 /\ at_side nd s x1) /\ ~ mv s (f x) (f x).
(* on the straight line, at the fraction t *)
Definition between (t : R) (y0 y1 y : list R) : Prop :=
  List.length y = nd /\ forall i, (i < nd)%nat -> nth i y 0 = (1 - t) * nth i y0 0 + t * nth i y1 0.

Variable target : geokind.
(* node j of edge e of the reference cell is at the fraction t of the edge *)
Definition frac (e j : nat) (t : R) : Prop :=
  forall a, (a < nd)%nat -> nth a (ref_coords target (edge_node_id target e j)) 0 =
    (1 - t) * nth a (ref_coords target (edge_node_id target e 0)) 0 + t * nth a (ref_coords target (edge_node_id target e 1)) 0.

(* the reference coordinates of the nodes of a cell *)
Variable x : nat -> list R.
(* node j, not an end, of edge e *)
Definition edge_node_at (e j : nat) (y : list R) : Prop :=
  let z := x (edge_node_id target e j) in let x0 := x (edge_node_id target e 0) in let x1 := x (edge_node_id target e 1) in
  (~ free z -> settled z y) /\
  (free z -> pulled x0 x1 -> exists t y0 y1, frac e j t /\ settled x0 y0 /\ settled x1 y1 /\ between t y0 y1 y) /\
  (free z -> ~ pulled x0 x1 -> y = f z).
(* corners and nodes on the edges *)
Definition frame_at (m : nat) (y : list R) : Prop :=
  ((m < corners nd)%nat -> settled (x m) y) /\
  forall e j, (e < kind_nedge target)%nat -> (2 <= j < kind_edge_nnode target)%nat -> m = edge_node_id target e j -> edge_node_at e j y.
(* the kind whose nodes are the corners and (some) nodes on the edges *)
Definition frame_kind : geokind := match target with Qua9 => Qua8 | Qua16 => Qua12 | Qua17 => Qua8 | k => k end.
(* interior nodes *)
Definition inside_at (m : nat) (y : list R) : Prop :=
  ((exists s, con s) -> List.length y = nd /\ exists ys,
     (forall n, (n < kind_nnode frame_kind)%nat -> frame_at n (ys n)) /\
     forall i, (i < nd)%nat -> nth i y 0 =
       sum_n (kind_nnode frame_kind) (fun n => nth n (calc_interp frame_kind (ref_coords target m)) 0 * nth i (ys n) 0)) /\
  ((forall s, ~ con s) -> y = f (x m)).
Definition node_at (m : nat) (y : list R) : Prop :=
  frame_at m y /\ forall i, (i < kind_n_interior_nodes target)%nat -> m = interior_node target i -> inside_at m y.
End Pos.

(* the sides of a block with constraints *)
Definition con_of (b : block) (s : nat) : Prop := (s < nsides (b_ndim b))%nat /\ constrained b s.
(* node m of the cell with this index *)
Definition final_at (b : block) (target : geokind) (idx : list nat) (m : nat) (y : list R) : Prop :=
  node_at (b_ndim b) (block_map b) (con_of b) (projects b) target (node_ksi b target idx) m y.
