(* Vocabulary of the properties of the conversion of meshes. *)
From Coq Require Import Reals List Arith ZArith.
From Verif Require Import Base Kind MeshModel TopoSpec ShapesModel.
Import ListNotations.
Local Open Scope nat_scope.

(* all cells have the kind k *)
Definition one_kind {T} (m : mesh T) (k : geokind) : Prop := forall c, In c (cells m) -> c_kind c = k.
(* triangles and quadrilaterals *)
Definition plane (k : geokind) : Prop := kind_class k = CTri \/ kind_class k = CQua.
(* the number of corners; the corners are the first nodes *)
Definition ncorners (k : geokind) : nat := match kind_class k with CTri => 3 | _ => 4 end.

(* a mesh that can be converted into the kind [target] *)
Definition convertible {T} (m : mesh T) (source target : geokind) : Prop :=
  ndim m = 2 /\ cells m <> [] /\ one_kind m source /\ plane source /\ kind_class target = kind_class source.

(* different cells share the end points of a local edge *)
Definition shares {T} (m : mesh T) (c e n ne : nat) : Prop :=
  n <> c /\ exists a b, has_edge m a b (c, e) /\ has_edge m a b (n, ne).
(* no edge belongs to three cells *)
Definition two_per_edge {T} (m : mesh T) : Prop := forall a b x y z,
  has_edge m a b x -> has_edge m a b y -> has_edge m a b z -> x = y \/ x = z \/ y = z.
(* no directed edge occurs twice: cells are numbered in the same sense *)
Definition oriented {T} (m : mesh T) : Prop := forall p q c e n ne,
  edge_of m c e p q -> edge_of m n ne p q -> c = n /\ e = ne.
(* cells that share an edge share all nodes of the edge *)
Definition conforming {T} (m : mesh T) : Prop := forall c e n ne p q cl cn i,
  edge_of m c e p q -> edge_of m n ne q p ->
  nth_error (cells m) c = Some cl -> nth_error (cells m) n = Some cn ->
  i < kind_edge_nnode (c_kind cl) ->
  nth_error (c_points cl) (edge_node_id_inward (c_kind cl) e i) = nth_error (c_points cn) (edge_node_id (c_kind cn) ne i).

(* point of a node of a cell *)
Definition node_point {T} (m : mesh T) (c a : nat) (pt : point T) : Prop :=
  exists cl id, nth_error (cells m) c = Some cl /\ nth_error (c_points cl) a = Some id /\ nth_error (points m) id = Some pt.
(* id of the point of a node of a cell *)
Definition node_id {T} (m : mesh T) (c a id : nat) : Prop :=
  exists cl, nth_error (cells m) c = Some cl /\ nth_error (c_points cl) a = Some id.

(* the coordinates i of the points of a cell, and the image of ksi *)
Definition cell_x (m : mesh R) (c : cell) (i : nat) : list R :=
  map (fun id => match nth_error (points m) id with Some pt => nth i (pt_coords pt) 0%R | None => 0%R end) (c_points c).
Definition image (m : mesh R) (c : cell) (ksi : list R) : list R :=
  map (fun i => dot (calc_interp (c_kind c) ksi) (cell_x m c i)) (seq 0 (ndim m)).

(* node a of the kind k is on the edge e, but not an end point *)
Definition on_edge (k : geokind) (e a : nat) : Prop :=
  e < kind_nedge k /\ exists i, 2 <= i < kind_edge_nnode k /\ edge_node_id k e i = a.
(* the marker of the last middle node of an edge; 0 if there is none *)
Definition edge_mark {T} (m : mesh T) (c : cell) (e : nat) (z : Z) : Prop :=
  if 2 <? kind_edge_nnode (c_kind c) then
    exists id pt, nth_error (c_points c) (edge_node_id (c_kind c) e (kind_edge_nnode (c_kind c) - 1)) = Some id /\
      nth_error (points m) id = Some pt /\ z = pt_marker pt
  else z = 0%Z.

(* the functions that the kind s interpolates are interpolated by the kind t without error *)
Definition keeps_shape (s t : geokind) : bool :=
  match s, t with
  | Tri3, (Tri3 | Tri6 | Tri10 | Tri15) | Tri6, (Tri6 | Tri10 | Tri15) | Tri10, (Tri10 | Tri15) | Tri15, Tri15 => true
  | Qua4, (Qua4 | Qua8 | Qua9 | Qua12 | Qua16 | Qua17) | Qua8, (Qua8 | Qua9 | Qua12 | Qua16 | Qua17)
  | Qua9, (Qua9 | Qua16 | Qua17) | Qua12, (Qua12 | Qua16 | Qua17) | Qua16, Qua16 | Qua17, Qua17 => true
  | _, _ => false
  end.
