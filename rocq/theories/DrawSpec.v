(* What a list of drawing commands shows: paths made of straight lines and Bezier curves. *)
From Coq Require Import Reals List Arith.
From Verif Require Import Base Kind MeshModel ShapesModel ShapesSpec PadModel PadSpec DrawModel.
Import ListNotations.
Local Open Scope R_scope.

(* a piece of a path: the control points of a Bezier curve of degree 1 (straight line), 2 or 3 *)
Definition piece := list (list R).
Definition bernstein (c : list R) (t : R) : R :=
  match c with
  | [a; b] => (1 - t) * a + t * b
  | [a; q; b] => (1 - t) ^ 2 * a + 2 * (1 - t) * t * q + t ^ 2 * b
  | [a; q; r; b] => (1 - t) ^ 3 * a + 3 * (1 - t) ^ 2 * t * q + 3 * (1 - t) * t ^ 2 * r + t ^ 3 * b
  | _ => 0
  end.
(* coordinate j of the piece at the parameter t in [0,1] *)
Definition piece_at (s : piece) (t : R) (j : nat) : R := bernstein (map (fun p => nth j p 0) s) t.

(* the pieces drawn by the commands between "begin" and "end", starting from the current point (2D and 3D) *)
Inductive pieces_2d : list R -> canvas -> list piece -> Prop :=
| pc_nil cur : pieces_2d cur [] []
| pc_line cur x y r l : pieces_2d [x; y] r l -> pieces_2d cur (PcAdd x y LineTo :: r) ([cur; [x; y]] :: l)
| pc_quad cur x1 y1 x y r l : pieces_2d [x; y] r l ->
    pieces_2d cur (PcAdd x1 y1 Curve3 :: PcAdd x y Curve3 :: r) ([cur; [x1; y1]; [x; y]] :: l)
| pc_cubic cur x1 y1 x2 y2 x y r l : pieces_2d [x; y] r l ->
    pieces_2d cur (PcAdd x1 y1 Curve4 :: PcAdd x2 y2 Curve4 :: PcAdd x y Curve4 :: r) ([cur; [x1; y1]; [x2; y2]; [x; y]] :: l).
Inductive pieces_3d : list R -> canvas -> list piece -> Prop :=
| pl_nil cur : pieces_3d cur [] []
| pl_line cur x y z r l : pieces_3d [x; y; z] r l -> pieces_3d cur (PlAdd x y z :: r) ([cur; [x; y; z]] :: l).

(* the paths drawn by a list of commands *)
Inductive draws : canvas -> list (list piece) -> Prop :=
| d_nil : draws [] []
| d_2d x y r l rest ps : pieces_2d [x; y] r l -> draws rest ps ->
    draws (PcBegin :: PcAdd x y MoveTo :: r ++ PcEnd false :: rest) (l :: ps)
| d_3d x y z r l rest ps : pieces_3d [x; y; z] r l -> draws rest ps ->
    draws (PlBegin :: PlAdd x y z :: r ++ PlEnd :: rest) (l :: ps).

(* the point of edge e of the reference cell, -1 <= z <= 1; from its first node to its second node *)
Definition edge_point (k : geokind) (e : nat) (z : R) : list R :=
  seg_point (ref_coords k (edge_node_id k e 0)) (ref_coords k (edge_node_id k e 1)) z.
(* from the second node to the first node, t in [0,1] *)
Definition edge_back (k : geokind) (e : nat) (t : R) : list R :=
  seg_point (ref_coords k (edge_node_id k e 1)) (ref_coords k (edge_node_id k e 0)) (2 * t - 1).

(* the coefficient of z^4 of a line with five nodes at z = -1, 1, 0, -1/2, 1/2 *)
Definition quartic (x : nat -> R) : R := 2 / 3 * (x 0%nat + x 1%nat + 6 * x 2%nat - 4 * x 3%nat - 4 * x 4%nat).
(* what a cubic through the points at z = -1, -1/3, 1/3, 1 misses *)
Definition cubic_gap (z : R) : R := (z ^ 2 - 1) * (z ^ 2 - 1 / 9).

(* the same for edge e of a cell and coordinate j *)
Definition edge_quartic (p : pad) (e j : nat) : R := quartic (fun i => node_x p j (edge_node_id (p_kind p) e i)).
(* zero but for edges with five nodes *)
Definition edge_gap (p : pad) (e j : nat) (z : R) : R :=
  match kind_edge_kind (p_kind p) with Some Lin5 => edge_quartic p e j * cubic_gap z | _ => 0 end.

(* the straight line joins two points of the cell *)
Definition joins (s : piece) (p : pad) (xi eta : list R) : Prop :=
  List.length s = 2%nat /\ forall j, (j < p_space p)%nat -> piece_at s 0 j = pos p xi j /\ piece_at s 1 j = pos p eta j.

(* the polygon with n sides, in order, through the points at the parameters i/n *)
Definition polygon (path : list piece) (p : pad) (n : nat) (xi : R -> list R) : Prop :=
  List.length path = n /\ forall i, (i < n)%nat -> joins (nth i path []) p (xi (INR i / INR n)) (xi (INR (S i) / INR n)).
