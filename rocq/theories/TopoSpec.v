(* Vocabulary of the properties of edges, faces and features of a mesh. *)
From Coq Require Import List Arith ZArith Permutation.
From Verif Require Import Kind MeshModel.
Import ListNotations.
Open Scope nat_scope.

(* {p,q} = {a,b} *)
Definition same_pair (a b p q : nat) : Prop := (p = a /\ q = b) \/ (p = b /\ q = a).

Section Mesh.
Context {T : Type}.
(* local edge e of the two-dimensional cell with id c runs between the points p and q *)
Definition edge_of (m : mesh T) (c e p q : nat) : Prop :=
  exists cl, In cl (cells m) /\ c_id cl = c /\ kind_ndim (c_kind cl) = 2 /\ e < kind_nedge (c_kind cl) /\
    nth_error (c_points cl) (edge_node_id (c_kind cl) e 0) = Some p /\
    nth_error (c_points cl) (edge_node_id (c_kind cl) e 1) = Some q.
(* (cell id, local edge) has the end points a and b *)
Definition has_edge (m : mesh T) (a b : nat) (ce : nat * nat) : Prop :=
  exists p q, edge_of m (fst ce) (snd ce) p q /\ same_pair a b p q.

(* local face f of the solid cell with id c starts with the points ps, [nc kind] in number *)
Definition face_starts (nc : geokind -> nat) (m : mesh T) (c f : nat) (ps : list nat) : Prop :=
  exists cl, In cl (cells m) /\ c_id cl = c /\ kind_ndim (c_kind cl) = 3 /\ f < kind_nface (c_kind cl) /\
    map (fun i => nth_error (c_points cl) (face_node_id (c_kind cl) f i)) (seq 0 (nc (c_kind cl))) = map Some ps.
(* number of corner points of the faces of a solid; the corners come first *)
Definition face_ncorner (k : geokind) : nat := match kind_class k with CTet => 3 | _ => 4 end.
(* local face f of the solid cell with id c has the corner points ps, in the local order *)
Definition face_of (m : mesh T) (c f : nat) (ps : list nat) : Prop := face_starts face_ncorner m c f ps.
(* (cell id, local face) has the corner points ps, in any order *)
Definition has_face (m : mesh T) (ps : list nat) (cf : nat * nat) : Prop :=
  exists qs, face_of m (fst cf) (snd cf) qs /\ Permutation ps qs.
(* same with the first four points of the face (three if it has three points only) *)
Definition first_four (k : geokind) : nat := Nat.min 4 (kind_face_nnode k).
Definition has_face4 (m : mesh T) (ps : list nat) (cf : nat * nat) : Prop :=
  exists qs, face_starts first_four m (fst cf) (snd cf) qs /\ Permutation ps qs.

(* there are no ten or twenty node tetrahedra *)
Definition no_quadratic_tets (m : mesh T) : Prop :=
  forall c, In c (cells m) -> c_kind c <> Tet10 /\ c_kind c <> Tet20.

(* the nodes of local edge e of the two-dimensional cell c (kind and points of the edge) *)
Definition edge_nodes (m : mesh T) (c e : nat) (kd : geokind) (ps : list nat) : Prop :=
  exists cl, In cl (cells m) /\ c_id cl = c /\ kind_ndim (c_kind cl) = 2 /\ e < kind_nedge (c_kind cl) /\
    kind_edge_kind (c_kind cl) = Some kd /\
    map (fun i => nth_error (c_points cl) (edge_node_id (c_kind cl) e i)) (seq 0 (kind_edge_nnode (c_kind cl))) = map Some ps.
(* the nodes of local face f of the solid c *)
Definition face_nodes (m : mesh T) (c f : nat) (kd : geokind) (ps : list nat) : Prop :=
  exists cl, In cl (cells m) /\ c_id cl = c /\ kind_ndim (c_kind cl) = 3 /\ f < kind_nface (c_kind cl) /\
    kind_face_kind (c_kind cl) = Some kd /\
    map (fun i => nth_error (c_points cl) (face_node_id (c_kind cl) f i)) (seq 0 (kind_face_nnode (c_kind cl))) = map Some ps.
(* a point of a cable (one-dimensional cell) or of a shell (two-dimensional cell in 3D) *)
Definition cable_or_shell (m : mesh T) (cl : cell) : Prop :=
  In cl (cells m) /\ (kind_ndim (c_kind cl) = 1 \/ (kind_ndim (c_kind cl) = 2 /\ ndim m = 3)).

(* the marker of an edge: that of the last marked edge with the same end points, otherwise 0 *)
Definition edge_marker (m : mesh T) (a b : nat) (mk : Z) : Prop :=
  (exists l1 l2 p q, marked_edges m = l1 ++ (mk, p, q) :: l2 /\ same_pair a b p q /\
     forall mk' p' q', In (mk', p', q') l2 -> ~ same_pair a b p' q') \/
  (mk = 0%Z /\ forall mk' p' q', In (mk', p', q') (marked_edges m) -> ~ same_pair a b p' q').
(* the points of a marked face *)
Definition marked_face_points (q : Z * nat * nat * nat * option nat) : list nat :=
  let '(_, p1, p2, p3, p4) := q in [p1; p2; p3] ++ match p4 with Some p => [p] | None => [] end.
Definition face_marker (m : mesh T) (ps : list nat) (mk : Z) : Prop :=
  (exists l1 l2 q, marked_faces m = l1 ++ q :: l2 /\ fst (fst (fst (fst q))) = mk /\
     Permutation ps (marked_face_points q) /\
     forall q', In q' l2 -> ~ Permutation ps (marked_face_points q')) \/
  (mk = 0%Z /\ forall q', In q' (marked_faces m) -> ~ Permutation ps (marked_face_points q')).

(* coordinate j of point p *)
Definition coord_is (m : mesh T) (p j : nat) (x : T) : Prop :=
  exists pt, nth_error (points m) p = Some pt /\ nth_error (pt_coords pt) j = Some x.
End Mesh.

(* x is a least / greatest element of the set *)
Definition least {T} (leb : T -> T -> bool) (S : T -> Prop) (x : T) : Prop := S x /\ forall y, S y -> leb x y = true.
Definition greatest {T} (leb : T -> T -> bool) (S : T -> Prop) (x : T) : Prop := S x /\ forall y, S y -> leb y x = true.
(* a total order *)
Definition total_order {T} (leb : T -> T -> bool) : Prop :=
  (forall x y, leb x y = true \/ leb y x = true) /\
  (forall x y z, leb x y = true -> leb y z = true -> leb x z = true).

(* (cell, local index) pairs in the order of the cells *)
Definition lex (x y : nat * nat) : Prop := fst x < fst y \/ (fst x = fst y /\ snd x < snd y).
(* x is the first pair satisfying P *)
Definition first_with (P : nat * nat -> Prop) (x : nat * nat) : Prop := P x /\ forall y, P y -> y = x \/ lex x y.
(* features wanted: all, or those belonging to exactly one cell *)
Definition wanted (extract_all : bool) (P : nat * nat -> Prop) : Prop :=
  if extract_all then exists x, P x else exists! x, P x.
(* local edge e of a surface of the given kind and points runs between p and q *)
Definition side_of (kd : geokind) (ps : list nat) (e p q : nat) : Prop :=
  e < kind_nedge kd /\ nth_error ps (edge_node_id kd e 0) = Some p /\ nth_error ps (edge_node_id kd e 1) = Some q.
Definition side_nodes (kd : geokind) (ps : list nat) (e : nat) (ekd : geokind) (eps : list nat) : Prop :=
  kind_edge_kind kd = Some ekd /\
  map (fun i => nth_error ps (edge_node_id kd e i)) (seq 0 (kind_edge_nnode kd)) = map Some eps.
