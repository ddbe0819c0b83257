(* Vocabulary of the properties of the structured generators. *)
From Coq Require Import Reals List Arith ZArith Bool Permutation.
From Verif Require Import Base Kind MeshModel MeshQuerySpec ShapesModel GeomSpec GridSpec TopoSpec BlockSpec JoinSpec.
Import ListNotations.
Local Open Scope list_scope.
Local Open Scope R_scope.

(* a cell described without a numbering of the points: kind, marker and coordinates of the nodes *)
Record shape := mkShape { s_kind : geokind; s_marker : Z; s_nodes : list (list R) }.
Definition cell_is (m : mesh R) (c : cell) (g : shape) : Prop :=
  c_kind c = s_kind g /\ c_marker c = s_marker g /\ Forall2 (coords_of m) (c_points c) (s_nodes g).
(* the cells of the mesh are exactly these, in this order *)
Definition shows (m : mesh R) (gs : list shape) : Prop := Forall2 (cell_is m) (cells m) gs.
(* no two points at the same place; no point that belongs to no cell *)
Definition distinct_points (m : mesh R) : Prop := forall i j x, coords_of m i x -> coords_of m j x -> i = j.
Definition all_used (m : mesh R) : Prop :=
  forall i, (i < List.length (points m))%nat -> exists c, In c (cells m) /\ In i (c_points c).

(* a rectangle [x0, x1] x [y0, y1] with a marker *)
Record box := mkBox { bx_marker : Z; bx0 : R; bx1 : R; by0 : R; by1 : R }.
(* the cell of a kind that fills it: its nodes are where those of the reference cell [-1, 1] x [-1, 1] go *)
Definition stretch (a b t : R) : R := a + (b - a) * ((1 + t) / 2).
Definition box_node (target : geokind) (b : box) (m : nat) : list R :=
  [stretch (bx0 b) (bx1 b) (nth 0 (ref_coords target m) 0); stretch (by0 b) (by1 b) (nth 1 (ref_coords target m) 0)].
Definition box_shape (target : geokind) (b : box) : shape :=
  mkShape target (bx_marker b) (map (box_node target b) (seq 0 (kind_nnode target))).

(* rectangles that have an interior and do not overlap *)
Definition disjoint_boxes (bs : list box) : Prop :=
  (forall b, In b bs -> bx0 b < bx1 b /\ by0 b < by1 b) /\
  forall i j b c, i <> j -> nth_error bs i = Some b -> nth_error bs j = Some c ->
    bx1 b <= bx0 c \/ bx1 c <= bx0 b \/ by1 b <= by0 c \/ by1 c <= by0 b.
Definition in_box (b : box) (x y : R) : Prop := bx0 b <= x <= bx1 b /\ by0 b <= y <= by1 b.
Definition area (b : box) : R := (bx1 b - bx0 b) * (by1 b - by0 b).

(* the i-th of the n + 1 equidistant values from a to b *)
Definition tick (a b : R) (n i : nat) : R := a + (b - a) * (INR i / INR n).
(* a rectangle divided into nx times ny rectangles, x running fastest *)
Definition grid_boxes (b : box) (nx ny : nat) : list box :=
  flat_map (fun j => map (fun i =>
      mkBox (bx_marker b) (tick (bx0 b) (bx1 b) nx i) (tick (bx0 b) (bx1 b) nx (S i)) (tick (by0 b) (by1 b) ny j) (tick (by0 b) (by1 b) ny (S j)))
    (seq 0 nx)) (seq 0 ny).

(* the columns of the rectangle: limits and number of divisions *)
Definition columns (xa : R) (xb : option R) (xc : R) (na nb : nat) : list (R * R * nat) :=
  match xb with Some xb => [(xa, xb, na); (xb, xc, nb)] | None => [(xa, xc, na)] end.
(* the layers: limits, number of divisions and marker *)
Definition layers (y : list R) (ny : list nat) (markers : list Z) : list (R * R * nat * Z) :=
  map (fun l => (nth l y 0, nth (S l) y 0, nth l ny 0%nat, nth l markers 0%Z)) (seq 0 (List.length y - 1)).
Definition rectangle_boxes (cols : list (R * R * nat)) (lays : list (R * R * nat * Z)) : list box :=
  flat_map (fun l : R * R * nat * Z => let '(y0, y1, n, mk) := l in
    flat_map (fun c : R * R * nat => let '(x0, x1, k) := c in grid_boxes (mkBox mk x0 x1 y0 y1) k n) cols) lays.

(* an interval is divided so that neighbouring nodes are further apart than the tolerance of the searches,
   in real coordinates and in the reference coordinates of the block *)
Definition apart_by (e : R) (target : geokind) (a b : R) (n : nat) : Prop :=
  (0 < n)%nat /\ INR (per target * n) * e < b - a /\ INR (per target * n) * e < 2.
(* a plane mesh without overlapping or unused points whose cells are these rectangles, in this order *)
Definition depicts (target : geokind) (m : mesh R) (bs : list box) : Prop :=
  consistent m /\ coords_complete m /\ ndim m = 2%nat /\ marked_edges m = [] /\ marked_faces m = [] /\
  distinct_points m /\ all_used m /\ shows m (map (box_shape target) bs).

(* arguments of rectangle for which the divisions are not too fine for the tolerance [e] of the searches
   and the blocks not too small for the inversion of matrices *)
Definition good_rectangle (zdet e : R) (target : geokind) (xa : R) (xb : option R) (xc : R) (na nb : nat)
    (y : list R) (ny : list nat) (markers : list Z) : Prop :=
  kind_class target = CQua /\ (1 <= na)%nat /\ (1 <= nb)%nat /\
  (2 <= List.length y)%nat /\ List.length ny = (List.length y - 1)%nat /\ List.length markers = (List.length y - 1)%nat /\
  (forall x0 x1 k, In (x0, x1, k) (columns xa xb xc na nb) -> apart_by e target x0 x1 k) /\
  (forall y0 y1 n mk, In (y0, y1, n, mk) (layers y ny markers) -> apart_by e target y0 y1 n) /\
  (forall x0 x1 k y0 y1 n mk, In (x0, x1, k) (columns xa xb xc na nb) -> In (y0, y1, n, mk) (layers y ny markers) ->
     zdet < (x1 - x0) * (y1 - y0) / 4).
