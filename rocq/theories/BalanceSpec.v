(* Vocabulary of the properties of closed boundaries: sums over edges, faces and cells; orientation. *)
From Coquelicot Require Import Coquelicot.
From Coq Require Import Reals List Arith.
From Verif Require Import Base Kind MeshModel TopoModel TopoSpec ShapesModel ShapesSpec PadModel PadSpec GaussModel GaussSpec IntegSpec NormalSpec.
Import ListNotations.
Local Open Scope R_scope.

(* the sum of w over the entries of a list *)
Definition sum_over {A} (w : A -> R) (l : list A) : R := fold_right Rplus 0 (map w l).

(* the corner points of an edge or face with the given kind and points; the corners come first *)
Definition corners (kd : geokind) (ps : list nat) : list nat :=
  firstn (match kind_class kd with CLin => 2 | CTri => 3 | _ => 4 end)%nat ps.

(* no edge is run through twice in the same direction: cells are numbered counter-clockwise (or all clockwise),
   do not overlap and at most two of them share an edge *)
Definition directed {T} (m : mesh T) : Prop :=
  forall c e c' e' p q, edge_of m c e p q -> edge_of m c' e' p q -> (c, e) = (c', e').
(* the circuits ps and qs run through the same points in opposite directions; the start does not matter *)
Definition opposite_circuits (ps qs : list nat) : Prop := exists l1 l2, rev ps = l1 ++ l2 /\ qs = l2 ++ l1.
(* a face shared by different cells is seen with opposite orientations *)
Definition directed_faces {T} (m : mesh T) : Prop :=
  forall c f c' f' ps qs, face_of m c f ps -> face_of m c' f' qs -> Permutation.Permutation ps qs -> (c, f) <> (c', f') ->
  opposite_circuits ps qs.

(* quantities that change the sign with the direction; that do not depend on the start of the circuit *)
Definition odd (g : list nat -> R) : Prop := forall l, g (rev l) = - g l.
Definition cyclic (g : list nat -> R) : Prop := forall l1 l2, g (l2 ++ l1) = g (l1 ++ l2).

(* the sum of g over the edges of a 2D cell, over the faces of a solid, each with its corners in the local order *)
Definition round_edges (g : list nat -> R) (c : cell) : R :=
  sum_over (fun e => g (map (fun i => nth (edge_node_id (c_kind c) e i) (c_points c) 0%nat) (seq 0 2))) (seq 0 (kind_nedge (c_kind c))).
Definition round_faces (g : list nat -> R) (c : cell) : R :=
  sum_over (fun f => g (map (fun i => nth (face_node_id (c_kind c) f i) (c_points c) 0%nat) (seq 0 (face_ncorner (c_kind c)))))
    (seq 0 (kind_nface (c_kind c))).
Definition of_dim {T} (d : nat) (m : mesh T) : list cell := filter (fun c => (kind_ndim (c_kind c) =? d)%nat) (cells m).

(* coordinate i of point p of the mesh *)
Definition xcoord (m : mesh R) (p i : nat) : R := match nth_error (points m) p with Some pt => nth i (pt_coords pt) 0 | None => 0 end.
(* the vector from the first to the second point turned by 90 degrees counter-clockwise: normal vector times length *)
Definition turned (m : mesh R) (i : nat) (l : list nat) : R :=
  match l with
  | [a; b] => match i with 0%nat => - (xcoord m b 1 - xcoord m a 1) | _ => xcoord m b 0 - xcoord m a 0 end
  | _ => 0
  end.
(* twice the signed area of the triangle made by the origin and the edge *)
Definition swept (m : mesh R) (l : list nat) : R :=
  match l with [a; b] => xcoord m a 0 * xcoord m b 1 - xcoord m b 0 * xcoord m a 1 | _ => 0 end.
(* component i of the vector product *)
Definition vector_product (i : nat) (u v : nat -> R) : R :=
  match i with
  | 0%nat => u 1%nat * v 2%nat - u 2%nat * v 1%nat
  | 1%nat => u 2%nat * v 0%nat - u 0%nat * v 2%nat
  | _ => u 0%nat * v 1%nat - u 1%nat * v 0%nat
  end.
Definition from_to (m : mesh R) (a b j : nat) : R := xcoord m b j - xcoord m a j.
(* the area vector of a triangle; of a quadrilateral (half the product of the diagonals) *)
Definition area_vector (m : mesh R) (i : nat) (l : list nat) : R :=
  match l with
  | [a; b; c] => vector_product i (from_to m a b) (from_to m a c) / 2
  | [a; b; c; d] => vector_product i (from_to m a c) (from_to m b d) / 2
  | _ => 0
  end.

(* v is the integral, over the line with the given kind and points, of component i of the unit normal vector computed
   by calc_normal_vector, times the ratio of the lengths (of line and reference line) that it returns *)
Definition normal_integral (m : mesh R) (kd : geokind) (ps : list nat) (i : nat) (v : R) : Prop :=
  exists s nv, pad_of_side m kd ps s /\
    (forall z, exists mag un q, calc_normal_vector s 2 [z] = Ok (mag, un, q) /\ nv z = mag * nth i un 0) /\
    int1 (-1) 1 nv v.

(* the areas and volumes of straight cells, positive if the nodes are in the right order *)
Definition cell_area (m : mesh R) (c : cell) (a : R) : Prop :=
  exists p, get_pad m (c_id c) = Ok p /\
    ((c_kind c = Tri3 /\ a = IntegSpec.tri_area p) \/ (c_kind c = Qua4 /\ a = IntegSpec.qua_area p)).
Definition cell_volume (m : mesh R) (c : cell) (a : R) : Prop :=
  exists p, get_pad m (c_id c) = Ok p /\ c_kind c = Tet4 /\ a = IntegSpec.tet_volume p.
(* six times the signed volume of the tetrahedron made by the origin and the triangle *)
Definition swept3 (m : mesh R) (l : list nat) : R :=
  match l with
  | [a; b; c] => xcoord m a 0 * vector_product 0 (xcoord m b) (xcoord m c) + xcoord m a 1 * vector_product 1 (xcoord m b) (xcoord m c)
      + xcoord m a 2 * vector_product 2 (xcoord m b) (xcoord m c)
  | _ => 0
  end.

(* number of edges that start (end) at point p *)
Definition starts_at (p : nat) (ke : TopoModel.ekey * TopoModel.edge) : bool :=
  match TopoModel.e_points (snd ke) with a :: b :: _ => (a =? p)%nat | _ => false end.
Definition ends_at (p : nat) (ke : TopoModel.ekey * TopoModel.edge) : bool :=
  match TopoModel.e_points (snd ke) with a :: b :: _ => (b =? p)%nat | _ => false end.
