(* GENERATED by tools/gen_shapes.py from /repo/src/shapes/{lin2..hex32}.rs -- do not edit.
   Every table and every arithmetic expression is copied term by term; f64 literals are exact
   rationals (1.0/3.0 becomes 1/3), so rounding is not modelled. *)
From Coq Require Import List QArith.
From Verif Require Import Expr.
Import ListNotations.
Open Scope nat_scope.

(** * Lin2 -- src/shapes/lin2.rs *)
(* src/shapes/lin2.rs:25 EDGE_NNODE *)
Definition lin2_edge_nnode : nat := 0.
(* src/shapes/lin2.rs:27 FACE_NEDGE *)
Definition lin2_face_nedge : nat := 0.
(* src/shapes/lin2.rs:26 FACE_NNODE *)
Definition lin2_face_nnode : nat := 0.
(* src/shapes/lin2.rs:21 GEO_NDIM *)
Definition lin2_geo_ndim : nat := 1.
(* src/shapes/lin2.rs:23 NEDGE *)
Definition lin2_nedge : nat := 0.
(* src/shapes/lin2.rs:24 NFACE *)
Definition lin2_nface : nat := 0.
(* src/shapes/lin2.rs:22 NNODE *)
Definition lin2_nnode : nat := 2.
(* src/shapes/lin2.rs:30 NODE_REFERENCE_COORDS *)
Definition lin2_node_reference_coords : list (list Q) :=
  [[((-1) # 1)];
   [(1 # 1)]]%Q.
(* src/shapes/lin2.rs:44-49 calc_interp *)
Definition lin2_interp : list expr := (
  let r := X 0 in
  [ C (1 # 2) * (C (1 # 1) - r);
    C (1 # 2) * (C (1 # 1) + r) ])%expr.
(* src/shapes/lin2.rs:61-64 calc_deriv *)
(* row m, column j is deriv.get(m, j) *)
Definition lin2_deriv : list (list expr) := (
  [ [C ((-1) # 2)];
    [C (1 # 2)] ])%expr.

(** * Lin3 -- src/shapes/lin3.rs *)
(* src/shapes/lin3.rs:26 EDGE_NNODE *)
Definition lin3_edge_nnode : nat := 0.
(* src/shapes/lin3.rs:28 FACE_NEDGE *)
Definition lin3_face_nedge : nat := 0.
(* src/shapes/lin3.rs:27 FACE_NNODE *)
Definition lin3_face_nnode : nat := 0.
(* src/shapes/lin3.rs:22 GEO_NDIM *)
Definition lin3_geo_ndim : nat := 1.
(* src/shapes/lin3.rs:24 NEDGE *)
Definition lin3_nedge : nat := 0.
(* src/shapes/lin3.rs:25 NFACE *)
Definition lin3_nface : nat := 0.
(* src/shapes/lin3.rs:23 NNODE *)
Definition lin3_nnode : nat := 3.
(* src/shapes/lin3.rs:29 N_INTERIOR_NODE *)
Definition lin3_n_interior_node : nat := 1.
(* src/shapes/lin3.rs:32 NODE_REFERENCE_COORDS *)
Definition lin3_node_reference_coords : list (list Q) :=
  [[((-1) # 1)];
   [(1 # 1)];
   [(0 # 1)]]%Q.
(* src/shapes/lin3.rs:38 INTERIOR_NODES *)
Definition lin3_interior_nodes : list nat :=
  [2].
(* src/shapes/lin3.rs:49-55 calc_interp *)
Definition lin3_interp : list expr := (
  let r := X 0 in
  [ C (1 # 2) * (r * r - r);
    C (1 # 2) * (r * r + r);
    C (1 # 1) - r * r ])%expr.
(* src/shapes/lin3.rs:67-73 calc_deriv *)
(* row m, column j is deriv.get(m, j) *)
Definition lin3_deriv : list (list expr) := (
  let r := X 0 in
  [ [r - C (1 # 2)];
    [r + C (1 # 2)];
    [C ((-2) # 1) * r] ])%expr.

(** * Lin4 -- src/shapes/lin4.rs *)
(* src/shapes/lin4.rs:24 EDGE_NNODE *)
Definition lin4_edge_nnode : nat := 0.
(* src/shapes/lin4.rs:26 FACE_NEDGE *)
Definition lin4_face_nedge : nat := 0.
(* src/shapes/lin4.rs:25 FACE_NNODE *)
Definition lin4_face_nnode : nat := 0.
(* src/shapes/lin4.rs:20 GEO_NDIM *)
Definition lin4_geo_ndim : nat := 1.
(* src/shapes/lin4.rs:22 NEDGE *)
Definition lin4_nedge : nat := 0.
(* src/shapes/lin4.rs:23 NFACE *)
Definition lin4_nface : nat := 0.
(* src/shapes/lin4.rs:21 NNODE *)
Definition lin4_nnode : nat := 4.
(* src/shapes/lin4.rs:27 N_INTERIOR_NODE *)
Definition lin4_n_interior_node : nat := 2.
(* src/shapes/lin4.rs:30 NODE_REFERENCE_COORDS *)
Definition lin4_node_reference_coords : list (list Q) :=
  [[((-1) # 1)];
   [(1 # 1)];
   [((-1) # 3)];
   [(1 # 3)]]%Q.
(* src/shapes/lin4.rs:37 INTERIOR_NODES *)
Definition lin4_interior_nodes : list nat :=
  [2; 3].
(* src/shapes/lin4.rs:48-55 calc_interp *)
Definition lin4_interp : list expr := (
  let r := X 0 in
  [ (C ((-9) # 1) * r * r * r + C (9 # 1) * r * r + r - C (1 # 1)) /c (16 # 1);
    (C (9 # 1) * r * r * r + C (9 # 1) * r * r - r - C (1 # 1)) /c (16 # 1);
    (C (27 # 1) * r * r * r - C (9 # 1) * r * r - C (27 # 1) * r + C (9 # 1)) /c (16 # 1);
    (C ((-27) # 1) * r * r * r - C (9 # 1) * r * r + C (27 # 1) * r + C (9 # 1)) /c (16 # 1) ])%expr.
(* src/shapes/lin4.rs:67-74 calc_deriv *)
(* row m, column j is deriv.get(m, j) *)
Definition lin4_deriv : list (list expr) := (
  let r := X 0 in
  [ [C (1 # 16) * (C ((-27) # 1) * r * r + C (18 # 1) * r + C (1 # 1))];
    [C (1 # 16) * (C (27 # 1) * r * r + C (18 # 1) * r - C (1 # 1))];
    [C (1 # 16) * (C (81 # 1) * r * r - C (18 # 1) * r - C (27 # 1))];
    [C (1 # 16) * (C ((-81) # 1) * r * r - C (18 # 1) * r + C (27 # 1))] ])%expr.

(** * Lin5 -- src/shapes/lin5.rs *)
(* src/shapes/lin5.rs:25 EDGE_NNODE *)
Definition lin5_edge_nnode : nat := 0.
(* src/shapes/lin5.rs:27 FACE_NEDGE *)
Definition lin5_face_nedge : nat := 0.
(* src/shapes/lin5.rs:26 FACE_NNODE *)
Definition lin5_face_nnode : nat := 0.
(* src/shapes/lin5.rs:21 GEO_NDIM *)
Definition lin5_geo_ndim : nat := 1.
(* src/shapes/lin5.rs:23 NEDGE *)
Definition lin5_nedge : nat := 0.
(* src/shapes/lin5.rs:24 NFACE *)
Definition lin5_nface : nat := 0.
(* src/shapes/lin5.rs:22 NNODE *)
Definition lin5_nnode : nat := 5.
(* src/shapes/lin5.rs:28 N_INTERIOR_NODE *)
Definition lin5_n_interior_node : nat := 3.
(* src/shapes/lin5.rs:31 NODE_REFERENCE_COORDS *)
Definition lin5_node_reference_coords : list (list Q) :=
  [[((-1) # 1)];
   [(1 # 1)];
   [(0 # 1)];
   [((-1) # 2)];
   [(1 # 2)]]%Q.
(* src/shapes/lin5.rs:39 INTERIOR_NODES *)
Definition lin5_interior_nodes : list nat :=
  [2; 3; 4].
(* src/shapes/lin5.rs:50-58 calc_interp *)
Definition lin5_interp : list expr := (
  let r := X 0 in
  [ (r - C (1 # 1)) * (C (1 # 1) - C (2 # 1) * r) * r * (C ((-1) # 1) - C (2 # 1) * r) /c (6 # 1);
    (C (1 # 1) - C (2 # 1) * r) * r * (C ((-1) # 1) - C (2 # 1) * r) * (C (1 # 1) + r) /c (6 # 1);
    (C (1 # 1) - r) * (C (1 # 1) - C (2 # 1) * r) * (C ((-1) # 1) - C (2 # 1) * r) * (C ((-1) # 1) - r);
    C (4 # 1) * (C (1 # 1) - r) * (C (1 # 1) - C (2 # 1) * r) * r * (C ((-1) # 1) - r) /c (3 # 1);
    C (4 # 1) * (C (1 # 1) - r) * r * (C ((-1) # 1) - C (2 # 1) * r) * (C ((-1) # 1) - r) /c (3 # 1) ])%expr.
(* src/shapes/lin5.rs:70-115 calc_deriv *)
(* row m, column j is deriv.get(m, j) *)
Definition lin5_deriv : list (list expr) := (
  let r := X 0 in
  [ [- ((C (1 # 1) - C (2 # 1) * r) * (r - C (1 # 1)) * r) /c (3 # 1) - (C ((-2) # 1) * r - C (1 # 1)) * (r - C (1 # 1)) * r /c (3 # 1) + (C ((-2) # 1) * r - C (1 # 1)) * (C (1 # 1) - C (2 # 1) * r) * r /c (6 # 1) + (C ((-2) # 1) * r - C (1 # 1)) * (C (1 # 1) - C (2 # 1) * r) * (r - C (1 # 1)) /c (6 # 1)];
    [- ((C (1 # 1) - C (2 # 1) * r) * r * (r + C (1 # 1))) /c (3 # 1) - (C ((-2) # 1) * r - C (1 # 1)) * r * (r + C (1 # 1)) /c (3 # 1) + (C ((-2) # 1) * r - C (1 # 1)) * (C (1 # 1) - C (2 # 1) * r) * (r + C (1 # 1)) /c (6 # 1) + (C ((-2) # 1) * r - C (1 # 1)) * (C (1 # 1) - C (2 # 1) * r) * r /c (6 # 1)];
    [C ((-2) # 1) * (C (1 # 1) - C (2 # 1) * r) * (- r - C (1 # 1)) * (C (1 # 1) - r) - C (2 # 1) * (C ((-2) # 1) * r - C (1 # 1)) * (- r - C (1 # 1)) * (C (1 # 1) - r) - (C ((-2) # 1) * r - C (1 # 1)) * (C (1 # 1) - C (2 # 1) * r) * (C (1 # 1) - r) - (C ((-2) # 1) * r - C (1 # 1)) * (C (1 # 1) - C (2 # 1) * r) * (- r - C (1 # 1))];
    [- (C (8 # 1) * (- r - C (1 # 1)) * (C (1 # 1) - r) * r) /c (3 # 1) - C (4 # 1) * (C (1 # 1) - C (2 # 1) * r) * (C (1 # 1) - r) * r /c (3 # 1) - C (4 # 1) * (C (1 # 1) - C (2 # 1) * r) * (- r - C (1 # 1)) * r /c (3 # 1) + C (4 # 1) * (C (1 # 1) - C (2 # 1) * r) * (- r - C (1 # 1)) * (C (1 # 1) - r) /c (3 # 1)];
    [- (C (8 # 1) * (- r - C (1 # 1)) * (C (1 # 1) - r) * r) /c (3 # 1) - C (4 # 1) * (C ((-2) # 1) * r - C (1 # 1)) * (C (1 # 1) - r) * r /c (3 # 1) - C (4 # 1) * (C ((-2) # 1) * r - C (1 # 1)) * (- r - C (1 # 1)) * r /c (3 # 1) + C (4 # 1) * (C ((-2) # 1) * r - C (1 # 1)) * (- r - C (1 # 1)) * (C (1 # 1) - r) /c (3 # 1)] ])%expr.

(** * Tri3 -- src/shapes/tri3.rs *)
(* src/shapes/tri3.rs:54 EDGE_NNODE *)
Definition tri3_edge_nnode : nat := 2.
(* src/shapes/tri3.rs:56 FACE_NEDGE *)
Definition tri3_face_nedge : nat := 0.
(* src/shapes/tri3.rs:55 FACE_NNODE *)
Definition tri3_face_nnode : nat := 0.
(* src/shapes/tri3.rs:50 GEO_NDIM *)
Definition tri3_geo_ndim : nat := 2.
(* src/shapes/tri3.rs:52 NEDGE *)
Definition tri3_nedge : nat := 3.
(* src/shapes/tri3.rs:53 NFACE *)
Definition tri3_nface : nat := 0.
(* src/shapes/tri3.rs:51 NNODE *)
Definition tri3_nnode : nat := 3.
(* src/shapes/tri3.rs:57 TRIANGULATE_NTRIANGLE *)
Definition tri3_triangulate_ntriangle : nat := 1.
(* src/shapes/tri3.rs:60 EDGE_NODE_IDS *)
Definition tri3_edge_node_ids : list (list nat) :=
  [[1; 0];
   [2; 1];
   [0; 2]].
(* src/shapes/tri3.rs:67 EDGE_NODE_IDS_INWARD *)
Definition tri3_edge_node_ids_inward : list (list nat) :=
  [[0; 1];
   [1; 2];
   [2; 0]].
(* src/shapes/tri3.rs:74 NODE_REFERENCE_COORDS *)
Definition tri3_node_reference_coords : list (list Q) :=
  [[(0 # 1); (0 # 1)];
   [(1 # 1); (0 # 1)];
   [(0 # 1); (1 # 1)]]%Q.
(* src/shapes/tri3.rs:81 TRIANGULATE_TRIANGLES *)
Definition tri3_triangulate_triangles : list (list nat) :=
  [[0; 1; 2]].
(* src/shapes/tri3.rs:94-100 calc_interp *)
Definition tri3_interp : list expr := (
  let r := X 0 in
  let s := X 1 in
  [ C (1 # 1) - r - s;
    r;
    s ])%expr.
(* src/shapes/tri3.rs:112-120 calc_deriv *)
(* row m, column j is deriv.get(m, j) *)
Definition tri3_deriv : list (list expr) := (
  [ [C ((-1) # 1); C ((-1) # 1)];
    [C (1 # 1); C (0 # 1)];
    [C (0 # 1); C (1 # 1)] ])%expr.

(** * Tri6 -- src/shapes/tri6.rs *)
(* src/shapes/tri6.rs:55 EDGE_NNODE *)
Definition tri6_edge_nnode : nat := 3.
(* src/shapes/tri6.rs:57 FACE_NEDGE *)
Definition tri6_face_nedge : nat := 0.
(* src/shapes/tri6.rs:56 FACE_NNODE *)
Definition tri6_face_nnode : nat := 0.
(* src/shapes/tri6.rs:51 GEO_NDIM *)
Definition tri6_geo_ndim : nat := 2.
(* src/shapes/tri6.rs:53 NEDGE *)
Definition tri6_nedge : nat := 3.
(* src/shapes/tri6.rs:54 NFACE *)
Definition tri6_nface : nat := 0.
(* src/shapes/tri6.rs:52 NNODE *)
Definition tri6_nnode : nat := 6.
(* src/shapes/tri6.rs:58 TRIANGULATE_NTRIANGLE *)
Definition tri6_triangulate_ntriangle : nat := 4.
(* src/shapes/tri6.rs:61 EDGE_NODE_IDS *)
Definition tri6_edge_node_ids : list (list nat) :=
  [[1; 0; 3];
   [2; 1; 4];
   [0; 2; 5]].
(* src/shapes/tri6.rs:68 EDGE_NODE_IDS_INWARD *)
Definition tri6_edge_node_ids_inward : list (list nat) :=
  [[0; 1; 3];
   [1; 2; 4];
   [2; 0; 5]].
(* src/shapes/tri6.rs:75 NODE_REFERENCE_COORDS *)
Definition tri6_node_reference_coords : list (list Q) :=
  [[(0 # 1); (0 # 1)];
   [(1 # 1); (0 # 1)];
   [(0 # 1); (1 # 1)];
   [(1 # 2); (0 # 1)];
   [(1 # 2); (1 # 2)];
   [(0 # 1); (1 # 2)]]%Q.
(* src/shapes/tri6.rs:85 TRIANGULATE_TRIANGLES *)
Definition tri6_triangulate_triangles : list (list nat) :=
  [[0; 3; 5];
   [3; 4; 5];
   [3; 1; 4];
   [5; 4; 2]].
(* src/shapes/tri6.rs:101-110 calc_interp *)
Definition tri6_interp : list expr := (
  let r := X 0 in
  let s := X 1 in
  [ C (1 # 1) - (r + s) * (C (3 # 1) - C (2 # 1) * (r + s));
    r * (C (2 # 1) * r - C (1 # 1));
    s * (C (2 # 1) * s - C (1 # 1));
    C (4 # 1) * r * (C (1 # 1) - (r + s));
    C (4 # 1) * r * s;
    C (4 # 1) * s * (C (1 # 1) - (r + s)) ])%expr.
(* src/shapes/tri6.rs:122-138 calc_deriv *)
(* row m, column j is deriv.get(m, j) *)
Definition tri6_deriv : list (list expr) := (
  let r := X 0 in
  let s := X 1 in
  [ [C ((-3) # 1) + C (4 # 1) * (r + s); C ((-3) # 1) + C (4 # 1) * (r + s)];
    [C (4 # 1) * r - C (1 # 1); C (0 # 1)];
    [C (0 # 1); C (4 # 1) * s - C (1 # 1)];
    [C (4 # 1) - C (8 # 1) * r - C (4 # 1) * s; C ((-4) # 1) * r];
    [C (4 # 1) * s; C (4 # 1) * r];
    [C ((-4) # 1) * s; C (4 # 1) - C (4 # 1) * r - C (8 # 1) * s] ])%expr.

(** * Tri10 -- src/shapes/tri10.rs *)
(* src/shapes/tri10.rs:51 EDGE_NNODE *)
Definition tri10_edge_nnode : nat := 4.
(* src/shapes/tri10.rs:53 FACE_NEDGE *)
Definition tri10_face_nedge : nat := 0.
(* src/shapes/tri10.rs:52 FACE_NNODE *)
Definition tri10_face_nnode : nat := 0.
(* src/shapes/tri10.rs:47 GEO_NDIM *)
Definition tri10_geo_ndim : nat := 2.
(* src/shapes/tri10.rs:49 NEDGE *)
Definition tri10_nedge : nat := 3.
(* src/shapes/tri10.rs:50 NFACE *)
Definition tri10_nface : nat := 0.
(* src/shapes/tri10.rs:48 NNODE *)
Definition tri10_nnode : nat := 10.
(* src/shapes/tri10.rs:54 N_INTERIOR_NODE *)
Definition tri10_n_interior_node : nat := 1.
(* src/shapes/tri10.rs:55 TRIANGULATE_NTRIANGLE *)
Definition tri10_triangulate_ntriangle : nat := 9.
(* src/shapes/tri10.rs:58 EDGE_NODE_IDS *)
Definition tri10_edge_node_ids : list (list nat) :=
  [[1; 0; 6; 3];
   [2; 1; 7; 4];
   [0; 2; 8; 5]].
(* src/shapes/tri10.rs:65 EDGE_NODE_IDS_INWARD *)
Definition tri10_edge_node_ids_inward : list (list nat) :=
  [[0; 1; 3; 6];
   [1; 2; 4; 7];
   [2; 0; 5; 8]].
(* src/shapes/tri10.rs:72 NODE_REFERENCE_COORDS *)
Definition tri10_node_reference_coords : list (list Q) :=
  [[(0 # 1); (0 # 1)];
   [(1 # 1); (0 # 1)];
   [(0 # 1); (1 # 1)];
   [(1 # 3); (0 # 1)];
   [(2 # 3); (1 # 3)];
   [(0 # 1); (2 # 3)];
   [(2 # 3); (0 # 1)];
   [(1 # 3); (2 # 3)];
   [(0 # 1); (1 # 3)];
   [(1 # 3); (1 # 3)]]%Q.
(* src/shapes/tri10.rs:85 INTERIOR_NODES *)
Definition tri10_interior_nodes : list nat :=
  [9].
(* src/shapes/tri10.rs:88 TRIANGULATE_TRIANGLES *)
Definition tri10_triangulate_triangles : list (list nat) :=
  [[0; 3; 8];
   [3; 9; 8];
   [3; 6; 9];
   [6; 4; 9];
   [6; 1; 4];
   [8; 9; 5];
   [9; 7; 5];
   [9; 4; 7];
   [5; 7; 2]].
(* src/shapes/tri10.rs:109-127 calc_interp *)
Definition tri10_interp : list expr := (
  let r := X 0 in
  let s := X 1 in
  let z := C (1 # 1) - r - s in
  let t1 := s * (C (3 # 1) * s - C (1 # 1)) in
  let t2 := z * (C (3 # 1) * z - C (1 # 1)) in
  let t3 := r * (C (3 # 1) * r - C (1 # 1)) in
  [ C (1 # 2) * t2 * (C (3 # 1) * z - C (2 # 1));
    C (1 # 2) * t3 * (C (3 # 1) * r - C (2 # 1));
    C (1 # 2) * t1 * (C (3 # 1) * s - C (2 # 1));
    C (9 # 2) * r * t2;
    C (9 # 2) * s * t3;
    C (9 # 2) * z * t1;
    C (9 # 2) * z * t3;
    C (9 # 2) * r * t1;
    C (9 # 2) * s * t2;
    C (27 # 1) * s * z * r ])%expr.
(* src/shapes/tri10.rs:139-177 calc_deriv *)
(* row m, column j is deriv.get(m, j) *)
Definition tri10_deriv : list (list expr) := (
  let r := X 0 in
  let s := X 1 in
  let z := C (1 # 1) - r - s in
  let q0 := C (9 # 2) * (C (6 # 1) * z - C (1 # 1)) in
  let q1 := C (9 # 2) * s * (C (3 # 1) * s - C (1 # 1)) in
  let q2 := C (9 # 2) * z * (C (3 # 1) * z - C (1 # 1)) in
  let q3 := C (9 # 2) * r * (C (3 # 1) * r - C (1 # 1)) in
  let q4 := C (9 # 2) * (C (6 # 1) * s - C (1 # 1)) in
  let q5 := C (9 # 2) * (C (6 # 1) * r - C (1 # 1)) in
  let q6 := q0 * s in
  let q7 := q0 * r in
  let q8 := C ((-1) # 2) * (C (27 # 1) * z * z - C (18 # 1) * z + C (2 # 1)) in
  let q9 := C (1 # 2) * (C (27 # 1) * s * s - C (18 # 1) * s + C (2 # 1)) in
  let q10 := C (1 # 2) * (C (27 # 1) * r * r - C (18 # 1) * r + C (2 # 1)) in
  [ [q8; q8];
    [q10; C (0 # 1)];
    [C (0 # 1); q9];
    [q2 - q7; - q7];
    [s * q5; q3];
    [- q1; z * q4 - q1];
    [z * q5 - q3; - q3];
    [q1; r * q4];
    [- q6; q2 - q6];
    [C (27 # 1) * s * (z - r); C (27 # 1) * r * (z - s)] ])%expr.

(** * Tri15 -- src/shapes/tri15.rs *)
(* src/shapes/tri15.rs:58 EDGE_NNODE *)
Definition tri15_edge_nnode : nat := 5.
(* src/shapes/tri15.rs:60 FACE_NEDGE *)
Definition tri15_face_nedge : nat := 0.
(* src/shapes/tri15.rs:59 FACE_NNODE *)
Definition tri15_face_nnode : nat := 0.
(* src/shapes/tri15.rs:54 GEO_NDIM *)
Definition tri15_geo_ndim : nat := 2.
(* src/shapes/tri15.rs:56 NEDGE *)
Definition tri15_nedge : nat := 3.
(* src/shapes/tri15.rs:57 NFACE *)
Definition tri15_nface : nat := 0.
(* src/shapes/tri15.rs:55 NNODE *)
Definition tri15_nnode : nat := 15.
(* src/shapes/tri15.rs:61 N_INTERIOR_NODE *)
Definition tri15_n_interior_node : nat := 3.
(* src/shapes/tri15.rs:62 TRIANGULATE_NTRIANGLE *)
Definition tri15_triangulate_ntriangle : nat := 16.
(* src/shapes/tri15.rs:65 EDGE_NODE_IDS *)
Definition tri15_edge_node_ids : list (list nat) :=
  [[1; 0; 3; 7; 6];
   [2; 1; 4; 9; 8];
   [0; 2; 5; 11; 10]].
(* src/shapes/tri15.rs:72 EDGE_NODE_IDS_INWARD *)
Definition tri15_edge_node_ids_inward : list (list nat) :=
  [[0; 1; 3; 6; 7];
   [1; 2; 4; 8; 9];
   [2; 0; 5; 10; 11]].
(* src/shapes/tri15.rs:79 NODE_REFERENCE_COORDS *)
Definition tri15_node_reference_coords : list (list Q) :=
  [[(0 # 1); (0 # 1)];
   [(1 # 1); (0 # 1)];
   [(0 # 1); (1 # 1)];
   [(1 # 2); (0 # 1)];
   [(1 # 2); (1 # 2)];
   [(0 # 1); (1 # 2)];
   [(1 # 4); (0 # 1)];
   [(3 # 4); (0 # 1)];
   [(3 # 4); (1 # 4)];
   [(1 # 4); (3 # 4)];
   [(0 # 1); (3 # 4)];
   [(0 # 1); (1 # 4)];
   [(1 # 4); (1 # 4)];
   [(1 # 2); (1 # 4)];
   [(1 # 4); (1 # 2)]]%Q.
(* src/shapes/tri15.rs:97 INTERIOR_NODES *)
Definition tri15_interior_nodes : list nat :=
  [12; 13; 14].
(* src/shapes/tri15.rs:100 TRIANGULATE_TRIANGLES *)
Definition tri15_triangulate_triangles : list (list nat) :=
  [[0; 6; 11];
   [6; 12; 11];
   [6; 3; 12];
   [3; 13; 12];
   [3; 7; 13];
   [7; 8; 13];
   [7; 1; 8];
   [11; 12; 5];
   [12; 14; 5];
   [12; 13; 14];
   [13; 4; 14];
   [13; 8; 4];
   [5; 14; 10];
   [14; 9; 10];
   [14; 4; 9];
   [10; 9; 2]].
(* src/shapes/tri15.rs:128-159 calc_interp *)
Definition tri15_interp : list expr := (
  let r := X 0 in
  let s := X 1 in
  let pt1 := C (128 # 3) in
  let pt2 := C (32 # 3) in
  let cc := C (1 # 1) - r - s in
  let t1 := r - C (1 # 4) in
  let t2 := r - C (1 # 2) in
  let t3 := r - C (3 # 4) in
  let t4 := s - C (1 # 4) in
  let t5 := s - C (1 # 2) in
  let t6 := s - C (3 # 4) in
  let t7 := cc - C (1 # 4) in
  let t8 := cc - C (1 # 2) in
  let t9 := cc - C (3 # 4) in
  [ pt2 * cc * t7 * t8 * t9;
    pt2 * r * t1 * t2 * t3;
    pt2 * s * t4 * t5 * t6;
    C (64 # 1) * cc * r * t1 * t7;
    C (64 # 1) * r * s * t1 * t4;
    C (64 # 1) * s * cc * t4 * t7;
    pt1 * cc * r * t7 * t8;
    pt1 * cc * r * t1 * t2;
    pt1 * r * s * t1 * t2;
    pt1 * r * s * t4 * t5;
    pt1 * s * cc * t4 * t5;
    pt1 * s * cc * t7 * t8;
    C (128 # 1) * r * s * cc * t7;
    C (128 # 1) * r * s * t1 * cc;
    C (128 # 1) * r * s * cc * t4 ])%expr.
(* src/shapes/tri15.rs:171-218 calc_deriv *)
(* row m, column j is deriv.get(m, j) *)
Definition tri15_deriv : list (list expr) := (
  let r := X 0 in
  let s := X 1 in
  let pt1 := C (128 # 3) in
  let pt2 := C (32 # 3) in
  let cc := C (1 # 1) - r - s in
  let t1 := r - C (1 # 4) in
  let t2 := r - C (1 # 2) in
  let t3 := r - C (3 # 4) in
  let t4 := s - C (1 # 4) in
  let t5 := s - C (1 # 2) in
  let t6 := s - C (3 # 4) in
  let t7 := cc - C (1 # 4) in
  let t8 := cc - C (1 # 2) in
  let t9 := cc - C (3 # 4) in
  [ [- pt2 * (t8 * t9 * (t7 + cc) + cc * t7 * (t8 + t9)); - pt2 * (t8 * t9 * (t7 + cc) + cc * t7 * (t8 + t9))];
    [pt2 * (t2 * t3 * (t1 + r) + r * t1 * (t3 + t2)); C (0 # 1)];
    [C (0 # 1); pt2 * (t5 * t6 * (t4 + s) + s * t4 * (t6 + t5))];
    [C (64 # 1) * (cc * t7 * (t1 + r) - r * t1 * (t7 + cc)); C ((-64) # 1) * r * t1 * (t7 + cc)];
    [C (64 # 1) * s * t4 * (t1 + r); C (64 # 1) * r * t1 * (t4 + s)];
    [C ((-64) # 1) * s * t4 * (t7 + cc); C (64 # 1) * (cc * t7 * (t4 + s) - s * t4 * (t7 + cc))];
    [pt1 * (cc * t7 * t8 - r * (t8 * (t7 + cc) + cc * t7)); - pt1 * r * (t8 * (t7 + cc) + cc * t7)];
    [pt1 * (cc * (t2 * (t1 + r) + r * t1) - r * t1 * t2); - pt1 * r * t1 * t2];
    [pt1 * s * (t2 * (t1 + r) + r * t1); pt1 * r * t1 * t2];
    [pt1 * s * t4 * t5; pt1 * r * (t5 * (t4 + s) + s * t4)];
    [- pt1 * s * t4 * t5; pt1 * (cc * (t5 * (t4 + s) + s * t4) - s * t4 * t5)];
    [- pt1 * s * (t8 * (t7 + cc) + cc * t7); pt1 * (cc * t7 * t8 - s * (t8 * (t7 + cc) + cc * t7))];
    [C (128 # 1) * s * (cc * t7 - r * (t7 + cc)); C (128 # 1) * r * (cc * t7 - s * (cc + t7))];
    [C (128 # 1) * s * (cc * (t1 + r) - r * t1); C (128 # 1) * r * t1 * (cc - s)];
    [C (128 # 1) * s * t4 * (cc - r); C (128 # 1) * r * (cc * (t4 + s) - s * t4)] ])%expr.

(** * Qua4 -- src/shapes/qua4.rs *)
(* src/shapes/qua4.rs:45 EDGE_NNODE *)
Definition qua4_edge_nnode : nat := 2.
(* src/shapes/qua4.rs:47 FACE_NEDGE *)
Definition qua4_face_nedge : nat := 0.
(* src/shapes/qua4.rs:46 FACE_NNODE *)
Definition qua4_face_nnode : nat := 0.
(* src/shapes/qua4.rs:41 GEO_NDIM *)
Definition qua4_geo_ndim : nat := 2.
(* src/shapes/qua4.rs:43 NEDGE *)
Definition qua4_nedge : nat := 4.
(* src/shapes/qua4.rs:44 NFACE *)
Definition qua4_nface : nat := 0.
(* src/shapes/qua4.rs:42 NNODE *)
Definition qua4_nnode : nat := 4.
(* src/shapes/qua4.rs:48 TRIANGULATE_NTRIANGLE *)
Definition qua4_triangulate_ntriangle : nat := 2.
(* src/shapes/qua4.rs:51 EDGE_NODE_IDS *)
Definition qua4_edge_node_ids : list (list nat) :=
  [[1; 0];
   [2; 1];
   [3; 2];
   [0; 3]].
(* src/shapes/qua4.rs:59 EDGE_NODE_IDS_INWARD *)
Definition qua4_edge_node_ids_inward : list (list nat) :=
  [[0; 1];
   [1; 2];
   [2; 3];
   [3; 0]].
(* src/shapes/qua4.rs:67 NODE_REFERENCE_COORDS *)
Definition qua4_node_reference_coords : list (list Q) :=
  [[((-1) # 1); ((-1) # 1)];
   [(1 # 1); ((-1) # 1)];
   [(1 # 1); (1 # 1)];
   [((-1) # 1); (1 # 1)]]%Q.
(* src/shapes/qua4.rs:75 TRIANGULATE_TRIANGLES *)
Definition qua4_triangulate_triangles : list (list nat) :=
  [[0; 1; 3];
   [1; 2; 3]].
(* src/shapes/qua4.rs:89-96 calc_interp *)
Definition qua4_interp : list expr := (
  let r := X 0 in
  let s := X 1 in
  [ (C (1 # 1) - r - s + r * s) /c (4 # 1);
    (C (1 # 1) + r - s - r * s) /c (4 # 1);
    (C (1 # 1) + r + s + r * s) /c (4 # 1);
    (C (1 # 1) - r + s - r * s) /c (4 # 1) ])%expr.
(* src/shapes/qua4.rs:108-122 calc_deriv *)
(* row m, column j is deriv.get(m, j) *)
Definition qua4_deriv : list (list expr) := (
  let r := X 0 in
  let s := X 1 in
  [ [(C ((-1) # 1) + s) /c (4 # 1); (C ((-1) # 1) + r) /c (4 # 1)];
    [(C (1 # 1) - s) /c (4 # 1); (C ((-1) # 1) - r) /c (4 # 1)];
    [(C (1 # 1) + s) /c (4 # 1); (C (1 # 1) + r) /c (4 # 1)];
    [(C ((-1) # 1) - s) /c (4 # 1); (C (1 # 1) - r) /c (4 # 1)] ])%expr.

(** * Qua8 -- src/shapes/qua8.rs *)
(* src/shapes/qua8.rs:46 EDGE_NNODE *)
Definition qua8_edge_nnode : nat := 3.
(* src/shapes/qua8.rs:48 FACE_NEDGE *)
Definition qua8_face_nedge : nat := 0.
(* src/shapes/qua8.rs:47 FACE_NNODE *)
Definition qua8_face_nnode : nat := 0.
(* src/shapes/qua8.rs:42 GEO_NDIM *)
Definition qua8_geo_ndim : nat := 2.
(* src/shapes/qua8.rs:44 NEDGE *)
Definition qua8_nedge : nat := 4.
(* src/shapes/qua8.rs:45 NFACE *)
Definition qua8_nface : nat := 0.
(* src/shapes/qua8.rs:43 NNODE *)
Definition qua8_nnode : nat := 8.
(* src/shapes/qua8.rs:50 TRIANGULATE_EXTRA_NNODE *)
Definition qua8_triangulate_extra_nnode : nat := 1.
(* src/shapes/qua8.rs:49 TRIANGULATE_NTRIANGLE *)
Definition qua8_triangulate_ntriangle : nat := 8.
(* src/shapes/qua8.rs:53 EDGE_NODE_IDS *)
Definition qua8_edge_node_ids : list (list nat) :=
  [[1; 0; 4];
   [2; 1; 5];
   [3; 2; 6];
   [0; 3; 7]].
(* src/shapes/qua8.rs:61 EDGE_NODE_IDS_INWARD *)
Definition qua8_edge_node_ids_inward : list (list nat) :=
  [[0; 1; 4];
   [1; 2; 5];
   [2; 3; 6];
   [3; 0; 7]].
(* src/shapes/qua8.rs:69 NODE_REFERENCE_COORDS *)
Definition qua8_node_reference_coords : list (list Q) :=
  [[((-1) # 1); ((-1) # 1)];
   [(1 # 1); ((-1) # 1)];
   [(1 # 1); (1 # 1)];
   [((-1) # 1); (1 # 1)];
   [(0 # 1); ((-1) # 1)];
   [(1 # 1); (0 # 1)];
   [(0 # 1); (1 # 1)];
   [((-1) # 1); (0 # 1)]]%Q.
(* src/shapes/qua8.rs:81 TRIANGULATE_TRIANGLES *)
Definition qua8_triangulate_triangles : list (list nat) :=
  [[0; 4; 7];
   [4; 8; 7];
   [4; 1; 8];
   [1; 5; 8];
   [7; 8; 3];
   [8; 6; 3];
   [8; 5; 6];
   [5; 2; 6]].
(* src/shapes/qua8.rs:93 TRIANGULATE_EXTRA_COORDS *)
Definition qua8_triangulate_extra_coords : list (list Q) :=
  [[(0 # 1); (0 # 1)]]%Q.
(* src/shapes/qua8.rs:106-117 calc_interp *)
Definition qua8_interp : list expr := (
  let r := X 0 in
  let s := X 1 in
  [ (C (1 # 1) - r) * (C (1 # 1) - s) * (- r - s - C (1 # 1)) /c (4 # 1);
    (C (1 # 1) + r) * (C (1 # 1) - s) * (r - s - C (1 # 1)) /c (4 # 1);
    (C (1 # 1) + r) * (C (1 # 1) + s) * (r + s - C (1 # 1)) /c (4 # 1);
    (C (1 # 1) - r) * (C (1 # 1) + s) * (- r + s - C (1 # 1)) /c (4 # 1);
    (C (1 # 1) - s) * (C (1 # 1) - r * r) /c (2 # 1);
    (C (1 # 1) + r) * (C (1 # 1) - s * s) /c (2 # 1);
    (C (1 # 1) + s) * (C (1 # 1) - r * r) /c (2 # 1);
    (C (1 # 1) - r) * (C (1 # 1) - s * s) /c (2 # 1) ])%expr.
(* src/shapes/qua8.rs:129-149 calc_deriv *)
(* row m, column j is deriv.get(m, j) *)
Definition qua8_deriv : list (list expr) := (
  let r := X 0 in
  let s := X 1 in
  [ [- (C (1 # 1) - s) * (- r - r - s) /c (4 # 1); - (C (1 # 1) - r) * (- s - s - r) /c (4 # 1)];
    [(C (1 # 1) - s) * (r + r - s) /c (4 # 1); - (C (1 # 1) + r) * (- s - s + r) /c (4 # 1)];
    [(C (1 # 1) + s) * (r + r + s) /c (4 # 1); (C (1 # 1) + r) * (s + s + r) /c (4 # 1)];
    [- (C (1 # 1) + s) * (- r - r + s) /c (4 # 1); (C (1 # 1) - r) * (s + s - r) /c (4 # 1)];
    [- (C (1 # 1) - s) * r; - (C (1 # 1) - r * r) /c (2 # 1)];
    [(C (1 # 1) - s * s) /c (2 # 1); - (C (1 # 1) + r) * s];
    [- (C (1 # 1) + s) * r; (C (1 # 1) - r * r) /c (2 # 1)];
    [- (C (1 # 1) - s * s) /c (2 # 1); - (C (1 # 1) - r) * s] ])%expr.

(** * Qua9 -- src/shapes/qua9.rs *)
(* src/shapes/qua9.rs:47 EDGE_NNODE *)
Definition qua9_edge_nnode : nat := 3.
(* src/shapes/qua9.rs:49 FACE_NEDGE *)
Definition qua9_face_nedge : nat := 0.
(* src/shapes/qua9.rs:48 FACE_NNODE *)
Definition qua9_face_nnode : nat := 0.
(* src/shapes/qua9.rs:43 GEO_NDIM *)
Definition qua9_geo_ndim : nat := 2.
(* src/shapes/qua9.rs:45 NEDGE *)
Definition qua9_nedge : nat := 4.
(* src/shapes/qua9.rs:46 NFACE *)
Definition qua9_nface : nat := 0.
(* src/shapes/qua9.rs:44 NNODE *)
Definition qua9_nnode : nat := 9.
(* src/shapes/qua9.rs:50 N_INTERIOR_NODE *)
Definition qua9_n_interior_node : nat := 1.
(* src/shapes/qua9.rs:51 TRIANGULATE_NTRIANGLE *)
Definition qua9_triangulate_ntriangle : nat := 8.
(* src/shapes/qua9.rs:54 EDGE_NODE_IDS *)
Definition qua9_edge_node_ids : list (list nat) :=
  [[1; 0; 4];
   [2; 1; 5];
   [3; 2; 6];
   [0; 3; 7]].
(* src/shapes/qua9.rs:62 EDGE_NODE_IDS_INWARD *)
Definition qua9_edge_node_ids_inward : list (list nat) :=
  [[0; 1; 4];
   [1; 2; 5];
   [2; 3; 6];
   [3; 0; 7]].
(* src/shapes/qua9.rs:70 NODE_REFERENCE_COORDS *)
Definition qua9_node_reference_coords : list (list Q) :=
  [[((-1) # 1); ((-1) # 1)];
   [(1 # 1); ((-1) # 1)];
   [(1 # 1); (1 # 1)];
   [((-1) # 1); (1 # 1)];
   [(0 # 1); ((-1) # 1)];
   [(1 # 1); (0 # 1)];
   [(0 # 1); (1 # 1)];
   [((-1) # 1); (0 # 1)];
   [(0 # 1); (0 # 1)]]%Q.
(* src/shapes/qua9.rs:82 INTERIOR_NODES *)
Definition qua9_interior_nodes : list nat :=
  [8].
(* src/shapes/qua9.rs:85 TRIANGULATE_TRIANGLES *)
Definition qua9_triangulate_triangles : list (list nat) :=
  [[0; 4; 7];
   [4; 8; 7];
   [4; 1; 8];
   [1; 5; 8];
   [7; 8; 3];
   [8; 6; 3];
   [8; 5; 6];
   [5; 2; 6]].
(* src/shapes/qua9.rs:105-119 calc_interp *)
Definition qua9_interp : list expr := (
  let r := X 0 in
  let s := X 1 in
  [ r * (r - C (1 # 1)) * s * (s - C (1 # 1)) /c (4 # 1);
    r * (r + C (1 # 1)) * s * (s - C (1 # 1)) /c (4 # 1);
    r * (r + C (1 # 1)) * s * (s + C (1 # 1)) /c (4 # 1);
    r * (r - C (1 # 1)) * s * (s + C (1 # 1)) /c (4 # 1);
    - (r * r - C (1 # 1)) * s * (s - C (1 # 1)) /c (2 # 1);
    - r * (r + C (1 # 1)) * (s * s - C (1 # 1)) /c (2 # 1);
    - (r * r - C (1 # 1)) * s * (s + C (1 # 1)) /c (2 # 1);
    - r * (r - C (1 # 1)) * (s * s - C (1 # 1)) /c (2 # 1);
    (r * r - C (1 # 1)) * (s * s - C (1 # 1)) ])%expr.
(* src/shapes/qua9.rs:131-156 calc_deriv *)
(* row m, column j is deriv.get(m, j) *)
Definition qua9_deriv : list (list expr) := (
  let r := X 0 in
  let s := X 1 in
  [ [(r + r - C (1 # 1)) * s * (s - C (1 # 1)) /c (4 # 1); r * (r - C (1 # 1)) * (s + s - C (1 # 1)) /c (4 # 1)];
    [(r + r + C (1 # 1)) * s * (s - C (1 # 1)) /c (4 # 1); r * (r + C (1 # 1)) * (s + s - C (1 # 1)) /c (4 # 1)];
    [(r + r + C (1 # 1)) * s * (s + C (1 # 1)) /c (4 # 1); r * (r + C (1 # 1)) * (s + s + C (1 # 1)) /c (4 # 1)];
    [(r + r - C (1 # 1)) * s * (s + C (1 # 1)) /c (4 # 1); r * (r - C (1 # 1)) * (s + s + C (1 # 1)) /c (4 # 1)];
    [- (r + r) * s * (s - C (1 # 1)) /c (2 # 1); - (r * r - C (1 # 1)) * (s + s - C (1 # 1)) /c (2 # 1)];
    [- (r + r + C (1 # 1)) * (s * s - C (1 # 1)) /c (2 # 1); - r * (r + C (1 # 1)) * (s + s) /c (2 # 1)];
    [- (r + r) * s * (s + C (1 # 1)) /c (2 # 1); - (r * r - C (1 # 1)) * (s + s + C (1 # 1)) /c (2 # 1)];
    [- (r + r - C (1 # 1)) * (s * s - C (1 # 1)) /c (2 # 1); - r * (r - C (1 # 1)) * (s + s) /c (2 # 1)];
    [C (2 # 1) * r * (s * s - C (1 # 1)); C (2 # 1) * s * (r * r - C (1 # 1))] ])%expr.

(** * Qua12 -- src/shapes/qua12.rs *)
(* src/shapes/qua12.rs:53 EDGE_NNODE *)
Definition qua12_edge_nnode : nat := 4.
(* src/shapes/qua12.rs:55 FACE_NEDGE *)
Definition qua12_face_nedge : nat := 0.
(* src/shapes/qua12.rs:54 FACE_NNODE *)
Definition qua12_face_nnode : nat := 0.
(* src/shapes/qua12.rs:49 GEO_NDIM *)
Definition qua12_geo_ndim : nat := 2.
(* src/shapes/qua12.rs:51 NEDGE *)
Definition qua12_nedge : nat := 4.
(* src/shapes/qua12.rs:52 NFACE *)
Definition qua12_nface : nat := 0.
(* src/shapes/qua12.rs:50 NNODE *)
Definition qua12_nnode : nat := 12.
(* src/shapes/qua12.rs:57 TRIANGULATE_EXTRA_NNODE *)
Definition qua12_triangulate_extra_nnode : nat := 4.
(* src/shapes/qua12.rs:56 TRIANGULATE_NTRIANGLE *)
Definition qua12_triangulate_ntriangle : nat := 18.
(* src/shapes/qua12.rs:60 EDGE_NODE_IDS *)
Definition qua12_edge_node_ids : list (list nat) :=
  [[1; 0; 8; 4];
   [2; 1; 9; 5];
   [3; 2; 10; 6];
   [0; 3; 11; 7]].
(* src/shapes/qua12.rs:68 EDGE_NODE_IDS_INWARD *)
Definition qua12_edge_node_ids_inward : list (list nat) :=
  [[0; 1; 4; 8];
   [1; 2; 5; 9];
   [2; 3; 6; 10];
   [3; 0; 7; 11]].
(* src/shapes/qua12.rs:76 NODE_REFERENCE_COORDS *)
Definition qua12_node_reference_coords : list (list Q) :=
  [[((-1) # 1); ((-1) # 1)];
   [(1 # 1); ((-1) # 1)];
   [(1 # 1); (1 # 1)];
   [((-1) # 1); (1 # 1)];
   [((-1) # 3); ((-1) # 1)];
   [(1 # 1); ((-1) # 3)];
   [(1 # 3); (1 # 1)];
   [((-1) # 1); (1 # 3)];
   [(1 # 3); ((-1) # 1)];
   [(1 # 1); (1 # 3)];
   [((-1) # 3); (1 # 1)];
   [((-1) # 1); ((-1) # 3)]]%Q.
(* src/shapes/qua12.rs:92 TRIANGULATE_TRIANGLES *)
Definition qua12_triangulate_triangles : list (list nat) :=
  [[0; 4; 11];
   [4; 12; 11];
   [4; 8; 12];
   [8; 13; 12];
   [8; 1; 13];
   [1; 5; 13];
   [11; 12; 7];
   [12; 15; 7];
   [12; 13; 15];
   [13; 14; 15];
   [13; 5; 14];
   [5; 9; 14];
   [7; 15; 3];
   [15; 10; 3];
   [15; 14; 10];
   [14; 6; 10];
   [14; 9; 6];
   [9; 2; 6]].
(* src/shapes/qua12.rs:114 TRIANGULATE_EXTRA_COORDS *)
Definition qua12_triangulate_extra_coords : list (list Q) :=
  [[((-1) # 3); ((-1) # 3)];
   [(1 # 3); ((-1) # 3)];
   [(1 # 3); (1 # 3)];
   [((-1) # 3); (1 # 3)]]%Q.
(* src/shapes/qua12.rs:130-150 calc_interp *)
Definition qua12_interp : list expr := (
  let r := X 0 in
  let s := X 1 in
  let rm := C (1 # 1) - r in
  let rp := C (1 # 1) + r in
  let sm := C (1 # 1) - s in
  let sp := C (1 # 1) + s in
  [ rm * sm * (C (9 # 1) * (r * r + s * s) - C (10 # 1)) /c (32 # 1);
    rp * sm * (C (9 # 1) * (r * r + s * s) - C (10 # 1)) /c (32 # 1);
    rp * sp * (C (9 # 1) * (r * r + s * s) - C (10 # 1)) /c (32 # 1);
    rm * sp * (C (9 # 1) * (r * r + s * s) - C (10 # 1)) /c (32 # 1);
    C (9 # 1) * (C (1 # 1) - r * r) * (C (1 # 1) - C (3 # 1) * r) * sm /c (32 # 1);
    C (9 # 1) * (C (1 # 1) - s * s) * (C (1 # 1) - C (3 # 1) * s) * rp /c (32 # 1);
    C (9 # 1) * (C (1 # 1) - r * r) * (C (1 # 1) + C (3 # 1) * r) * sp /c (32 # 1);
    C (9 # 1) * (C (1 # 1) - s * s) * (C (1 # 1) + C (3 # 1) * s) * rm /c (32 # 1);
    C (9 # 1) * (C (1 # 1) - r * r) * (C (1 # 1) + C (3 # 1) * r) * sm /c (32 # 1);
    C (9 # 1) * (C (1 # 1) - s * s) * (C (1 # 1) + C (3 # 1) * s) * rp /c (32 # 1);
    C (9 # 1) * (C (1 # 1) - r * r) * (C (1 # 1) - C (3 # 1) * r) * sp /c (32 # 1);
    C (9 # 1) * (C (1 # 1) - s * s) * (C (1 # 1) - C (3 # 1) * s) * rm /c (32 # 1) ])%expr.
(* src/shapes/qua12.rs:162-195 calc_deriv *)
(* row m, column j is deriv.get(m, j) *)
Definition qua12_deriv : list (list expr) := (
  let r := X 0 in
  let s := X 1 in
  let rm := C (1 # 1) - r in
  let rp := C (1 # 1) + r in
  let sm := C (1 # 1) - s in
  let sp := C (1 # 1) + s in
  [ [sm * (C (9 # 1) * (C (2 # 1) * r - C (3 # 1) * r * r - s * s) + C (10 # 1)) /c (32 # 1); rm * (C (9 # 1) * (C (2 # 1) * s - C (3 # 1) * s * s - r * r) + C (10 # 1)) /c (32 # 1)];
    [sm * (C (9 # 1) * (C (2 # 1) * r + C (3 # 1) * r * r + s * s) - C (10 # 1)) /c (32 # 1); rp * (C (9 # 1) * (C (2 # 1) * s - C (3 # 1) * s * s - r * r) + C (10 # 1)) /c (32 # 1)];
    [sp * (C (9 # 1) * (C (2 # 1) * r + C (3 # 1) * r * r + s * s) - C (10 # 1)) /c (32 # 1); rp * (C (9 # 1) * (C (2 # 1) * s + C (3 # 1) * s * s + r * r) - C (10 # 1)) /c (32 # 1)];
    [sp * (C (9 # 1) * (C (2 # 1) * r - C (3 # 1) * r * r - s * s) + C (10 # 1)) /c (32 # 1); rm * (C (9 # 1) * (C (2 # 1) * s + C (3 # 1) * s * s + r * r) - C (10 # 1)) /c (32 # 1)];
    [C (9 # 1) * sm * (C (9 # 1) * r * r - C (2 # 1) * r - C (3 # 1)) /c (32 # 1); C ((-9) # 1) * (C (1 # 1) - r * r) * (C (1 # 1) - C (3 # 1) * r) /c (32 # 1)];
    [C (9 # 1) * (C (1 # 1) - s * s) * (C (1 # 1) - C (3 # 1) * s) /c (32 # 1); C (9 # 1) * rp * (C (9 # 1) * s * s - C (2 # 1) * s - C (3 # 1)) /c (32 # 1)];
    [C (9 # 1) * sp * (C ((-9) # 1) * r * r - C (2 # 1) * r + C (3 # 1)) /c (32 # 1); C (9 # 1) * (C (1 # 1) - r * r) * (C (1 # 1) + C (3 # 1) * r) /c (32 # 1)];
    [C ((-9) # 1) * (C (1 # 1) - s * s) * (C (1 # 1) + C (3 # 1) * s) /c (32 # 1); C (9 # 1) * rm * (C ((-9) # 1) * s * s - C (2 # 1) * s + C (3 # 1)) /c (32 # 1)];
    [C (9 # 1) * sm * (C ((-9) # 1) * r * r - C (2 # 1) * r + C (3 # 1)) /c (32 # 1); C ((-9) # 1) * (C (1 # 1) - r * r) * (C (1 # 1) + C (3 # 1) * r) /c (32 # 1)];
    [C (9 # 1) * (C (1 # 1) - s * s) * (C (1 # 1) + C (3 # 1) * s) /c (32 # 1); C (9 # 1) * rp * (C ((-9) # 1) * s * s - C (2 # 1) * s + C (3 # 1)) /c (32 # 1)];
    [C (9 # 1) * sp * (C (9 # 1) * r * r - C (2 # 1) * r - C (3 # 1)) /c (32 # 1); C (9 # 1) * (C (1 # 1) - r * r) * (C (1 # 1) - C (3 # 1) * r) /c (32 # 1)];
    [C ((-9) # 1) * (C (1 # 1) - s * s) * (C (1 # 1) - C (3 # 1) * s) /c (32 # 1); C (9 # 1) * rm * (C (9 # 1) * s * s - C (2 # 1) * s - C (3 # 1)) /c (32 # 1)] ])%expr.

(** * Qua16 -- src/shapes/qua16.rs *)
(* src/shapes/qua16.rs:53 EDGE_NNODE *)
Definition qua16_edge_nnode : nat := 4.
(* src/shapes/qua16.rs:55 FACE_NEDGE *)
Definition qua16_face_nedge : nat := 0.
(* src/shapes/qua16.rs:54 FACE_NNODE *)
Definition qua16_face_nnode : nat := 0.
(* src/shapes/qua16.rs:49 GEO_NDIM *)
Definition qua16_geo_ndim : nat := 2.
(* src/shapes/qua16.rs:51 NEDGE *)
Definition qua16_nedge : nat := 4.
(* src/shapes/qua16.rs:52 NFACE *)
Definition qua16_nface : nat := 0.
(* src/shapes/qua16.rs:50 NNODE *)
Definition qua16_nnode : nat := 16.
(* src/shapes/qua16.rs:56 N_INTERIOR_NODE *)
Definition qua16_n_interior_node : nat := 4.
(* src/shapes/qua16.rs:57 TRIANGULATE_NTRIANGLE *)
Definition qua16_triangulate_ntriangle : nat := 18.
(* src/shapes/qua16.rs:60 EDGE_NODE_IDS *)
Definition qua16_edge_node_ids : list (list nat) :=
  [[1; 0; 8; 4];
   [2; 1; 9; 5];
   [3; 2; 10; 6];
   [0; 3; 11; 7]].
(* src/shapes/qua16.rs:68 EDGE_NODE_IDS_INWARD *)
Definition qua16_edge_node_ids_inward : list (list nat) :=
  [[0; 1; 4; 8];
   [1; 2; 5; 9];
   [2; 3; 6; 10];
   [3; 0; 7; 11]].
(* src/shapes/qua16.rs:76 NODE_REFERENCE_COORDS *)
Definition qua16_node_reference_coords : list (list Q) :=
  [[((-1) # 1); ((-1) # 1)];
   [(1 # 1); ((-1) # 1)];
   [(1 # 1); (1 # 1)];
   [((-1) # 1); (1 # 1)];
   [((-1) # 3); ((-1) # 1)];
   [(1 # 1); ((-1) # 3)];
   [(1 # 3); (1 # 1)];
   [((-1) # 1); (1 # 3)];
   [(1 # 3); ((-1) # 1)];
   [(1 # 1); (1 # 3)];
   [((-1) # 3); (1 # 1)];
   [((-1) # 1); ((-1) # 3)];
   [((-1) # 3); ((-1) # 3)];
   [(1 # 3); ((-1) # 3)];
   [(1 # 3); (1 # 3)];
   [((-1) # 3); (1 # 3)]]%Q.
(* src/shapes/qua16.rs:95 INTERIOR_NODES *)
Definition qua16_interior_nodes : list nat :=
  [12; 13; 14; 15].
(* src/shapes/qua16.rs:98 TRIANGULATE_TRIANGLES *)
Definition qua16_triangulate_triangles : list (list nat) :=
  [[0; 4; 11];
   [4; 12; 11];
   [4; 8; 12];
   [8; 13; 12];
   [8; 1; 13];
   [1; 5; 13];
   [11; 12; 7];
   [12; 15; 7];
   [12; 13; 15];
   [13; 14; 15];
   [13; 5; 14];
   [5; 9; 14];
   [7; 15; 3];
   [15; 10; 3];
   [15; 14; 10];
   [14; 6; 10];
   [14; 9; 6];
   [9; 2; 6]].
(* src/shapes/qua16.rs:128-159 calc_interp *)
Definition qua16_interp : list expr := (
  let r := X 0 in
  let s := X 1 in
  let nn_r0 := (C ((-9) # 1) * r * r * r + C (9 # 1) * r * r + r - C (1 # 1)) /c (16 # 1) in
  let nn_r1 := (C (9 # 1) * r * r * r + C (9 # 1) * r * r - r - C (1 # 1)) /c (16 # 1) in
  let nn_r2 := (C (27 # 1) * r * r * r - C (9 # 1) * r * r - C (27 # 1) * r + C (9 # 1)) /c (16 # 1) in
  let nn_r3 := (C ((-27) # 1) * r * r * r - C (9 # 1) * r * r + C (27 # 1) * r + C (9 # 1)) /c (16 # 1) in
  let nn_s0 := (C ((-9) # 1) * s * s * s + C (9 # 1) * s * s + s - C (1 # 1)) /c (16 # 1) in
  let nn_s1 := (C (9 # 1) * s * s * s + C (9 # 1) * s * s - s - C (1 # 1)) /c (16 # 1) in
  let nn_s2 := (C (27 # 1) * s * s * s - C (9 # 1) * s * s - C (27 # 1) * s + C (9 # 1)) /c (16 # 1) in
  let nn_s3 := (C ((-27) # 1) * s * s * s - C (9 # 1) * s * s + C (27 # 1) * s + C (9 # 1)) /c (16 # 1) in
  [ nn_r0 * nn_s0;
    nn_r1 * nn_s0;
    nn_r1 * nn_s1;
    nn_r0 * nn_s1;
    nn_r2 * nn_s0;
    nn_r1 * nn_s2;
    nn_r3 * nn_s1;
    nn_r0 * nn_s3;
    nn_r3 * nn_s0;
    nn_r1 * nn_s3;
    nn_r2 * nn_s1;
    nn_r0 * nn_s2;
    nn_r2 * nn_s2;
    nn_r3 * nn_s2;
    nn_r3 * nn_s3;
    nn_r2 * nn_s3 ])%expr.
(* src/shapes/qua16.rs:171-231 calc_deriv *)
(* row m, column j is deriv.get(m, j) *)
Definition qua16_deriv : list (list expr) := (
  let r := X 0 in
  let s := X 1 in
  let nn_r0 := (C ((-9) # 1) * r * r * r + C (9 # 1) * r * r + r - C (1 # 1)) /c (16 # 1) in
  let nn_r1 := (C (9 # 1) * r * r * r + C (9 # 1) * r * r - r - C (1 # 1)) /c (16 # 1) in
  let nn_r2 := (C (27 # 1) * r * r * r - C (9 # 1) * r * r - C (27 # 1) * r + C (9 # 1)) /c (16 # 1) in
  let nn_r3 := (C ((-27) # 1) * r * r * r - C (9 # 1) * r * r + C (27 # 1) * r + C (9 # 1)) /c (16 # 1) in
  let nn_s0 := (C ((-9) # 1) * s * s * s + C (9 # 1) * s * s + s - C (1 # 1)) /c (16 # 1) in
  let nn_s1 := (C (9 # 1) * s * s * s + C (9 # 1) * s * s - s - C (1 # 1)) /c (16 # 1) in
  let nn_s2 := (C (27 # 1) * s * s * s - C (9 # 1) * s * s - C (27 # 1) * s + C (9 # 1)) /c (16 # 1) in
  let nn_s3 := (C ((-27) # 1) * s * s * s - C (9 # 1) * s * s + C (27 # 1) * s + C (9 # 1)) /c (16 # 1) in
  let dnn_dr0 := (C ((-27) # 1) * r * r + C (18 # 1) * r + C (1 # 1)) /c (16 # 1) in
  let dnn_dr1 := (C (27 # 1) * r * r + C (18 # 1) * r - C (1 # 1)) /c (16 # 1) in
  let dnn_dr2 := (C (81 # 1) * r * r - C (18 # 1) * r - C (27 # 1)) /c (16 # 1) in
  let dnn_dr3 := (C ((-81) # 1) * r * r - C (18 # 1) * r + C (27 # 1)) /c (16 # 1) in
  let dnn_ds0 := (C ((-27) # 1) * s * s + C (18 # 1) * s + C (1 # 1)) /c (16 # 1) in
  let dnn_ds1 := (C (27 # 1) * s * s + C (18 # 1) * s - C (1 # 1)) /c (16 # 1) in
  let dnn_ds2 := (C (81 # 1) * s * s - C (18 # 1) * s - C (27 # 1)) /c (16 # 1) in
  let dnn_ds3 := (C ((-81) # 1) * s * s - C (18 # 1) * s + C (27 # 1)) /c (16 # 1) in
  [ [dnn_dr0 * nn_s0; nn_r0 * dnn_ds0];
    [dnn_dr1 * nn_s0; nn_r1 * dnn_ds0];
    [dnn_dr1 * nn_s1; nn_r1 * dnn_ds1];
    [dnn_dr0 * nn_s1; nn_r0 * dnn_ds1];
    [dnn_dr2 * nn_s0; nn_r2 * dnn_ds0];
    [dnn_dr1 * nn_s2; nn_r1 * dnn_ds2];
    [dnn_dr3 * nn_s1; nn_r3 * dnn_ds1];
    [dnn_dr0 * nn_s3; nn_r0 * dnn_ds3];
    [dnn_dr3 * nn_s0; nn_r3 * dnn_ds0];
    [dnn_dr1 * nn_s3; nn_r1 * dnn_ds3];
    [dnn_dr2 * nn_s1; nn_r2 * dnn_ds1];
    [dnn_dr0 * nn_s2; nn_r0 * dnn_ds2];
    [dnn_dr2 * nn_s2; nn_r2 * dnn_ds2];
    [dnn_dr3 * nn_s2; nn_r3 * dnn_ds2];
    [dnn_dr3 * nn_s3; nn_r3 * dnn_ds3];
    [dnn_dr2 * nn_s3; nn_r2 * dnn_ds3] ])%expr.

(** * Qua17 -- src/shapes/qua17.rs *)
(* src/shapes/qua17.rs:59 EDGE_NNODE *)
Definition qua17_edge_nnode : nat := 5.
(* src/shapes/qua17.rs:61 FACE_NEDGE *)
Definition qua17_face_nedge : nat := 0.
(* src/shapes/qua17.rs:60 FACE_NNODE *)
Definition qua17_face_nnode : nat := 0.
(* src/shapes/qua17.rs:55 GEO_NDIM *)
Definition qua17_geo_ndim : nat := 2.
(* src/shapes/qua17.rs:57 NEDGE *)
Definition qua17_nedge : nat := 4.
(* src/shapes/qua17.rs:58 NFACE *)
Definition qua17_nface : nat := 0.
(* src/shapes/qua17.rs:56 NNODE *)
Definition qua17_nnode : nat := 17.
(* src/shapes/qua17.rs:62 N_INTERIOR_NODE *)
Definition qua17_n_interior_node : nat := 1.
(* src/shapes/qua17.rs:64 TRIANGULATE_EXTRA_NNODE *)
Definition qua17_triangulate_extra_nnode : nat := 8.
(* src/shapes/qua17.rs:63 TRIANGULATE_NTRIANGLE *)
Definition qua17_triangulate_ntriangle : nat := 32.
(* src/shapes/qua17.rs:67 EDGE_NODE_IDS *)
Definition qua17_edge_node_ids : list (list nat) :=
  [[1; 0; 4; 10; 9];
   [2; 1; 5; 12; 11];
   [3; 2; 6; 14; 13];
   [0; 3; 7; 16; 15]].
(* src/shapes/qua17.rs:75 EDGE_NODE_IDS_INWARD *)
Definition qua17_edge_node_ids_inward : list (list nat) :=
  [[0; 1; 4; 9; 10];
   [1; 2; 5; 11; 12];
   [2; 3; 6; 13; 14];
   [3; 0; 7; 15; 16]].
(* src/shapes/qua17.rs:83 NODE_REFERENCE_COORDS *)
Definition qua17_node_reference_coords : list (list Q) :=
  [[((-1) # 1); ((-1) # 1)];
   [(1 # 1); ((-1) # 1)];
   [(1 # 1); (1 # 1)];
   [((-1) # 1); (1 # 1)];
   [(0 # 1); ((-1) # 1)];
   [(1 # 1); (0 # 1)];
   [(0 # 1); (1 # 1)];
   [((-1) # 1); (0 # 1)];
   [(0 # 1); (0 # 1)];
   [((-1) # 2); ((-1) # 1)];
   [(1 # 2); ((-1) # 1)];
   [(1 # 1); ((-1) # 2)];
   [(1 # 1); (1 # 2)];
   [(1 # 2); (1 # 1)];
   [((-1) # 2); (1 # 1)];
   [((-1) # 1); (1 # 2)];
   [((-1) # 1); ((-1) # 2)]]%Q.
(* src/shapes/qua17.rs:103 INTERIOR_NODES *)
Definition qua17_interior_nodes : list nat :=
  [8].
(* src/shapes/qua17.rs:106 TRIANGULATE_TRIANGLES *)
Definition qua17_triangulate_triangles : list (list nat) :=
  [[0; 9; 16];
   [9; 17; 16];
   [9; 4; 17];
   [4; 21; 17];
   [4; 10; 21];
   [10; 18; 21];
   [10; 1; 18];
   [1; 11; 18];
   [16; 17; 7];
   [17; 24; 7];
   [17; 21; 24];
   [21; 8; 24];
   [21; 18; 8];
   [18; 22; 8];
   [18; 11; 22];
   [11; 5; 22];
   [7; 24; 15];
   [24; 20; 15];
   [24; 8; 20];
   [8; 23; 20];
   [8; 22; 23];
   [22; 19; 23];
   [22; 5; 19];
   [5; 12; 19];
   [15; 20; 3];
   [20; 14; 3];
   [20; 23; 14];
   [23; 6; 14];
   [23; 19; 6];
   [19; 13; 6];
   [19; 12; 13];
   [12; 2; 13]].
(* src/shapes/qua17.rs:142 TRIANGULATE_EXTRA_COORDS *)
Definition qua17_triangulate_extra_coords : list (list Q) :=
  [[((-1) # 2); ((-1) # 2)];
   [(1 # 2); ((-1) # 2)];
   [(1 # 2); (1 # 2)];
   [((-1) # 2); (1 # 2)];
   [(0 # 1); ((-1) # 2)];
   [(1 # 2); (0 # 1)];
   [(0 # 1); (1 # 2)];
   [((-1) # 2); (0 # 1)]]%Q.
(* src/shapes/qua17.rs:162-194 calc_interp *)
Definition qua17_interp : list expr := (
  let r := X 0 in
  let s := X 1 in
  let a := C (2 # 3) in
  let rr := r * r in
  let ss := s * s in
  let rs := r * s in
  let rp := C (1 # 1) + r in
  let rm := C (1 # 1) - r in
  let sp := C (1 # 1) + s in
  let sm := C (1 # 1) - s in
  [ rm * sm * (C ((-4) # 1) * r * (rr - C (1 # 1)) - C (4 # 1) * s * (ss - C (1 # 1)) + C (3 # 1) * rs) /c (12 # 1);
    rp * sm * (C (4 # 1) * r * (rr - C (1 # 1)) - C (4 # 1) * s * (ss - C (1 # 1)) - C (3 # 1) * rs) /c (12 # 1);
    rp * sp * (C (4 # 1) * r * (rr - C (1 # 1)) + C (4 # 1) * s * (ss - C (1 # 1)) + C (3 # 1) * rs) /c (12 # 1);
    rm * sp * (C ((-4) # 1) * r * (rr - C (1 # 1)) + C (4 # 1) * s * (ss - C (1 # 1)) - C (3 # 1) * rs) /c (12 # 1);
    C (1 # 2) * rm * rp * (- s - C (4 # 1) * rr) * sm;
    C (1 # 2) * sm * sp * (r - C (4 # 1) * ss) * rp;
    C (1 # 2) * rm * rp * (s - C (4 # 1) * rr) * sp;
    C (1 # 2) * sm * sp * (- r - C (4 # 1) * ss) * rm;
    rm * rp * sm * sp;
    - a * r * sm * rm * rp * (C (1 # 1) - C (2 # 1) * r);
    a * r * sm * rm * rp * (C (1 # 1) + C (2 # 1) * r);
    - a * s * rp * sm * sp * (C (1 # 1) - C (2 # 1) * s);
    a * s * rp * sm * sp * (C (1 # 1) + C (2 # 1) * s);
    a * r * sp * rm * rp * (C (1 # 1) + C (2 # 1) * r);
    - a * r * sp * rm * rp * (C (1 # 1) - C (2 # 1) * r);
    a * s * sm * sp * (C (1 # 1) + C (2 # 1) * s) * rm;
    - a * s * rm * sm * sp * (C (1 # 1) - C (2 # 1) * s) ])%expr.
(* src/shapes/qua17.rs:206-292 calc_deriv *)
(* row m, column j is deriv.get(m, j) *)
Definition qua17_deriv : list (list expr) := (
  let r := X 0 in
  let s := X 1 in
  let a := C (2 # 3) in
  let rr := r * r in
  let ss := s * s in
  let rs := r * s in
  let rp := C (1 # 1) + r in
  let rm := C (1 # 1) - r in
  let sp := C (1 # 1) + s in
  let sm := C (1 # 1) - s in
  let b := C (1 # 12) in
  let r1 := r - C (1 # 1) in
  let rrr := rr * r in
  let sss := ss * s in
  [ [b * sm * (C (16 # 1) * rrr - C (12 # 1) * rr - C (6 # 1) * rs - C (8 # 1) * r + C (4 # 1) * sss - s + C (4 # 1)); b * rm * (C (16 # 1) * sss - C (12 # 1) * ss - C (6 # 1) * rs - C (8 # 1) * s + C (4 # 1) * rrr - r + C (4 # 1))];
    [b * sm * (C (16 # 1) * rrr + C (12 # 1) * rr - C (6 # 1) * rs - C (8 # 1) * r - C (4 # 1) * sss + s - C (4 # 1)); - b * rp * (C ((-16) # 1) * sss + C (12 # 1) * ss - C (6 # 1) * rs + C (8 # 1) * s + C (4 # 1) * rrr - r - C (4 # 1))];
    [b * sp * (C (16 # 1) * rrr + C (12 # 1) * rr + C (6 # 1) * rs - C (8 # 1) * r + C (4 # 1) * sss - s - C (4 # 1)); b * rp * (C (16 # 1) * sss + C (12 # 1) * ss + C (6 # 1) * rs - C (8 # 1) * s + C (4 # 1) * rrr - r - C (4 # 1))];
    [b * sp * (C (16 # 1) * rrr - C (12 # 1) * rr + C (6 # 1) * rs - C (8 # 1) * r - C (4 # 1) * sss + s + C (4 # 1)); b * r1 * (C ((-16) # 1) * sss - C (12 # 1) * ss + C (6 # 1) * rs + C (8 # 1) * s + C (4 # 1) * rrr - r + C (4 # 1))];
    [r * sm * (C (8 # 1) * rr + s - C (4 # 1)); C ((-1) # 2) * r1 * rp * (C (2 # 1) * s - C (1 # 1) + C (4 # 1) * rr)];
    [C (1 # 2) * sm * sp * (C (2 # 1) * r - C (4 # 1) * ss + C (1 # 1)); - s * rp * (C ((-8) # 1) * ss + r + C (4 # 1))];
    [r * sp * (C (8 # 1) * rr - s - C (4 # 1)); C (1 # 2) * r1 * rp * (C ((-2) # 1) * s + C (4 # 1) * rr - C (1 # 1))];
    [C (1 # 2) * sm * sp * (C (2 # 1) * r - C (1 # 1) + C (4 # 1) * ss); - s * r1 * (C (8 # 1) * ss + r - C (4 # 1))];
    [C ((-2) # 1) * r * sm * sp; C (2 # 1) * s * r1 * rp];
    [- a * (C (1 # 1) - C (4 # 1) * r - C (3 # 1) * rr + C (8 # 1) * rrr) * sm; a * r * r1 * rp * (C (2 # 1) * r - C (1 # 1))];
    [a * (C (1 # 1) + C (4 # 1) * r - C (3 # 1) * rr - C (8 # 1) * rrr) * sm; a * r * r1 * rp * (C (1 # 1) + C (2 # 1) * r)];
    [a * s * sm * sp * (C ((-1) # 1) + C (2 # 1) * s); - a * (C (1 # 1) - C (4 # 1) * s - C (3 # 1) * ss + C (8 # 1) * sss) * rp];
    [a * s * sm * sp * (C (1 # 1) + C (2 # 1) * s); - a * (C ((-1) # 1) - C (4 # 1) * s + C (3 # 1) * ss + C (8 # 1) * sss) * rp];
    [- a * (C ((-1) # 1) - C (4 # 1) * r + C (3 # 1) * rr + C (8 # 1) * rrr) * sp; - a * r * r1 * rp * (C (1 # 1) + C (2 # 1) * r)];
    [- a * (C (1 # 1) - C (4 # 1) * r - C (3 # 1) * rr + C (8 # 1) * rrr) * sp; - a * r * r1 * rp * (C (2 # 1) * r - C (1 # 1))];
    [- a * s * sm * sp * (C (1 # 1) + C (2 # 1) * s); a * (C ((-1) # 1) - C (4 # 1) * s + C (3 # 1) * ss + C (8 # 1) * sss) * r1];
    [a * s * sm * sp * (C (1 # 1) - C (2 # 1) * s); a * (C (1 # 1) - C (4 # 1) * s - C (3 # 1) * ss + C (8 # 1) * sss) * r1] ])%expr.

(** * Tet4 -- src/shapes/tet4.rs *)
(* src/shapes/tet4.rs:119 EDGE_NNODE *)
Definition tet4_edge_nnode : nat := 2.
(* src/shapes/tet4.rs:121 FACE_NEDGE *)
Definition tet4_face_nedge : nat := 3.
(* src/shapes/tet4.rs:120 FACE_NNODE *)
Definition tet4_face_nnode : nat := 3.
(* src/shapes/tet4.rs:115 GEO_NDIM *)
Definition tet4_geo_ndim : nat := 3.
(* src/shapes/tet4.rs:117 NEDGE *)
Definition tet4_nedge : nat := 6.
(* src/shapes/tet4.rs:118 NFACE *)
Definition tet4_nface : nat := 4.
(* src/shapes/tet4.rs:116 NNODE *)
Definition tet4_nnode : nat := 4.
(* src/shapes/tet4.rs:124 EDGE_NODE_IDS *)
Definition tet4_edge_node_ids : list (list nat) :=
  [[0; 1];
   [1; 2];
   [2; 0];
   [0; 3];
   [1; 3];
   [2; 3]].
(* src/shapes/tet4.rs:134 FACE_NODE_IDS *)
Definition tet4_face_node_ids : list (list nat) :=
  [[0; 3; 2];
   [0; 1; 3];
   [0; 2; 1];
   [1; 2; 3]].
(* src/shapes/tet4.rs:142 FACE_EDGE_NODE_IDS *)
Definition tet4_face_edge_node_ids : list (list (list nat)) :=
  [[[0; 3];
   [3; 2];
   [2; 0]];
   [[0; 1];
   [1; 3];
   [3; 0]];
   [[0; 2];
   [2; 1];
   [1; 0]];
   [[1; 2];
   [2; 3];
   [3; 1]]].
(* src/shapes/tet4.rs:150 NODE_REFERENCE_COORDS *)
Definition tet4_node_reference_coords : list (list Q) :=
  [[(0 # 1); (0 # 1); (0 # 1)];
   [(1 # 1); (0 # 1); (0 # 1)];
   [(0 # 1); (1 # 1); (0 # 1)];
   [(0 # 1); (0 # 1); (1 # 1)]]%Q.
(* src/shapes/tet4.rs:166-173 calc_interp *)
Definition tet4_interp : list expr := (
  let r := X 0 in
  let s := X 1 in
  let t := X 2 in
  [ C (1 # 1) - r - s - t;
    r;
    s;
    t ])%expr.
(* src/shapes/tet4.rs:185-200 calc_deriv *)
(* row m, column j is deriv.get(m, j) *)
Definition tet4_deriv : list (list expr) := (
  [ [C ((-1) # 1); C ((-1) # 1); C ((-1) # 1)];
    [C (1 # 1); C (0 # 1); C (0 # 1)];
    [C (0 # 1); C (1 # 1); C (0 # 1)];
    [C (0 # 1); C (0 # 1); C (1 # 1)] ])%expr.

(** * Tet10 -- src/shapes/tet10.rs *)
(* src/shapes/tet10.rs:119 EDGE_NNODE *)
Definition tet10_edge_nnode : nat := 3.
(* src/shapes/tet10.rs:121 FACE_NEDGE *)
Definition tet10_face_nedge : nat := 3.
(* src/shapes/tet10.rs:120 FACE_NNODE *)
Definition tet10_face_nnode : nat := 6.
(* src/shapes/tet10.rs:115 GEO_NDIM *)
Definition tet10_geo_ndim : nat := 3.
(* src/shapes/tet10.rs:117 NEDGE *)
Definition tet10_nedge : nat := 6.
(* src/shapes/tet10.rs:118 NFACE *)
Definition tet10_nface : nat := 4.
(* src/shapes/tet10.rs:116 NNODE *)
Definition tet10_nnode : nat := 10.
(* src/shapes/tet10.rs:124 EDGE_NODE_IDS *)
Definition tet10_edge_node_ids : list (list nat) :=
  [[0; 1; 4];
   [1; 2; 5];
   [2; 0; 6];
   [0; 3; 7];
   [1; 3; 8];
   [2; 3; 9]].
(* src/shapes/tet10.rs:134 FACE_NODE_IDS *)
Definition tet10_face_node_ids : list (list nat) :=
  [[0; 3; 2; 7; 9; 6];
   [0; 1; 3; 4; 8; 7];
   [0; 2; 1; 6; 5; 4];
   [1; 2; 3; 5; 9; 8]].
(* src/shapes/tet10.rs:142 FACE_EDGE_NODE_IDS *)
Definition tet10_face_edge_node_ids : list (list (list nat)) :=
  [[[0; 3; 7];
   [3; 2; 9];
   [2; 0; 6]];
   [[0; 1; 4];
   [1; 3; 8];
   [3; 0; 7]];
   [[0; 2; 6];
   [2; 1; 5];
   [1; 0; 4]];
   [[1; 2; 5];
   [2; 3; 9];
   [3; 1; 8]]].
(* src/shapes/tet10.rs:150 NODE_REFERENCE_COORDS *)
Definition tet10_node_reference_coords : list (list Q) :=
  [[(0 # 1); (0 # 1); (0 # 1)];
   [(1 # 1); (0 # 1); (0 # 1)];
   [(0 # 1); (1 # 1); (0 # 1)];
   [(0 # 1); (0 # 1); (1 # 1)];
   [(1 # 2); (0 # 1); (0 # 1)];
   [(1 # 2); (1 # 2); (0 # 1)];
   [(0 # 1); (1 # 2); (0 # 1)];
   [(0 # 1); (0 # 1); (1 # 2)];
   [(1 # 2); (0 # 1); (1 # 2)];
   [(0 # 1); (1 # 2); (1 # 2)]]%Q.
(* src/shapes/tet10.rs:172-187 calc_interp *)
Definition tet10_interp : list expr := (
  let r := X 0 in
  let s := X 1 in
  let t := X 2 in
  let u := C (1 # 1) - r - s - t in
  [ u * (C (2 # 1) * u - C (1 # 1));
    r * (C (2 # 1) * r - C (1 # 1));
    s * (C (2 # 1) * s - C (1 # 1));
    t * (C (2 # 1) * t - C (1 # 1));
    C (4 # 1) * u * r;
    C (4 # 1) * r * s;
    C (4 # 1) * s * u;
    C (4 # 1) * u * t;
    C (4 # 1) * r * t;
    C (4 # 1) * s * t ])%expr.
(* src/shapes/tet10.rs:199-234 calc_deriv *)
(* row m, column j is deriv.get(m, j) *)
Definition tet10_deriv : list (list expr) := (
  let r := X 0 in
  let s := X 1 in
  let t := X 2 in
  [ [C (4 # 1) * (r + s + t) - C (3 # 1); C (4 # 1) * (r + s + t) - C (3 # 1); C (4 # 1) * (r + s + t) - C (3 # 1)];
    [C (4 # 1) * r - C (1 # 1); C (0 # 1); C (0 # 1)];
    [C (0 # 1); C (4 # 1) * s - C (1 # 1); C (0 # 1)];
    [C (0 # 1); C (0 # 1); C (4 # 1) * t - C (1 # 1)];
    [C (4 # 1) - C (8 # 1) * r - C (4 # 1) * s - C (4 # 1) * t; C ((-4) # 1) * r; C ((-4) # 1) * r];
    [C (4 # 1) * s; C (4 # 1) * r; C (0 # 1)];
    [C ((-4) # 1) * s; C (4 # 1) - C (4 # 1) * r - C (8 # 1) * s - C (4 # 1) * t; C ((-4) # 1) * s];
    [C ((-4) # 1) * t; C ((-4) # 1) * t; C (4 # 1) - C (4 # 1) * r - C (4 # 1) * s - C (8 # 1) * t];
    [C (4 # 1) * t; C (0 # 1); C (4 # 1) * r];
    [C (0 # 1); C (4 # 1) * t; C (4 # 1) * s] ])%expr.

(** * Tet20 -- src/shapes/tet20.rs *)
(* src/shapes/tet20.rs:120 EDGE_NNODE *)
Definition tet20_edge_nnode : nat := 4.
(* src/shapes/tet20.rs:122 FACE_NEDGE *)
Definition tet20_face_nedge : nat := 3.
(* src/shapes/tet20.rs:121 FACE_NNODE *)
Definition tet20_face_nnode : nat := 10.
(* src/shapes/tet20.rs:116 GEO_NDIM *)
Definition tet20_geo_ndim : nat := 3.
(* src/shapes/tet20.rs:118 NEDGE *)
Definition tet20_nedge : nat := 6.
(* src/shapes/tet20.rs:119 NFACE *)
Definition tet20_nface : nat := 4.
(* src/shapes/tet20.rs:117 NNODE *)
Definition tet20_nnode : nat := 20.
(* src/shapes/tet20.rs:125 EDGE_NODE_IDS *)
Definition tet20_edge_node_ids : list (list nat) :=
  [[0; 1; 4; 5];
   [1; 2; 14; 15];
   [2; 0; 7; 6];
   [0; 3; 8; 9];
   [1; 3; 12; 13];
   [2; 3; 10; 11]].
(* src/shapes/tet20.rs:135 FACE_NODE_IDS *)
Definition tet20_face_node_ids : list (list nat) :=
  [[0; 3; 2; 8; 11; 7; 9; 10; 6; 16];
   [0; 1; 3; 4; 12; 9; 5; 13; 8; 17];
   [0; 2; 1; 6; 15; 5; 7; 14; 4; 18];
   [1; 2; 3; 14; 10; 13; 15; 11; 12; 19]].
(* src/shapes/tet20.rs:143 FACE_EDGE_NODE_IDS *)
Definition tet20_face_edge_node_ids : list (list (list nat)) :=
  [[[0; 3; 8; 9];
   [3; 2; 11; 10];
   [2; 0; 7; 6]];
   [[0; 1; 4; 5];
   [1; 3; 12; 13];
   [3; 0; 9; 8]];
   [[0; 2; 6; 7];
   [2; 1; 15; 14];
   [1; 0; 5; 4]];
   [[1; 2; 14; 15];
   [2; 3; 10; 11];
   [3; 1; 13; 12]]].
(* src/shapes/tet20.rs:151 NODE_REFERENCE_COORDS *)
Definition tet20_node_reference_coords : list (list Q) :=
  [[(0 # 1); (0 # 1); (0 # 1)];
   [(1 # 1); (0 # 1); (0 # 1)];
   [(0 # 1); (1 # 1); (0 # 1)];
   [(0 # 1); (0 # 1); (1 # 1)];
   [(1 # 3); (0 # 1); (0 # 1)];
   [(2 # 3); (0 # 1); (0 # 1)];
   [(0 # 1); (1 # 3); (0 # 1)];
   [(0 # 1); (2 # 3); (0 # 1)];
   [(0 # 1); (0 # 1); (1 # 3)];
   [(0 # 1); (0 # 1); (2 # 3)];
   [(0 # 1); (2 # 3); (1 # 3)];
   [(0 # 1); (1 # 3); (2 # 3)];
   [(2 # 3); (0 # 1); (1 # 3)];
   [(1 # 3); (0 # 1); (2 # 3)];
   [(2 # 3); (1 # 3); (0 # 1)];
   [(1 # 3); (2 # 3); (0 # 1)];
   [(0 # 1); (1 # 3); (1 # 3)];
   [(1 # 3); (0 # 1); (1 # 3)];
   [(1 # 3); (1 # 3); (0 # 1)];
   [(1 # 3); (1 # 3); (1 # 3)]]%Q.
(* src/shapes/tet20.rs:187-212 calc_interp *)
Definition tet20_interp : list expr := (
  let r := X 0 in
  let s := X 1 in
  let t := X 2 in
  let u := C (1 # 1) - r - s - t in
  [ (C (3 # 1) * u - C (1 # 1)) * (C (3 # 1) * u - C (2 # 1)) * u /c (2 # 1);
    (C (3 # 1) * r - C (1 # 1)) * (C (3 # 1) * r - C (2 # 1)) * r /c (2 # 1);
    (C (3 # 1) * s - C (1 # 1)) * (C (3 # 1) * s - C (2 # 1)) * s /c (2 # 1);
    (C (3 # 1) * t - C (1 # 1)) * (C (3 # 1) * t - C (2 # 1)) * t /c (2 # 1);
    C (9 # 1) * (C (3 # 1) * u - C (1 # 1)) * u * r /c (2 # 1);
    C (9 # 1) * (C (3 # 1) * r - C (1 # 1)) * u * r /c (2 # 1);
    C (9 # 1) * (C (3 # 1) * u - C (1 # 1)) * u * s /c (2 # 1);
    C (9 # 1) * (C (3 # 1) * s - C (1 # 1)) * u * s /c (2 # 1);
    C (9 # 1) * (C (3 # 1) * u - C (1 # 1)) * u * t /c (2 # 1);
    C (9 # 1) * (C (3 # 1) * t - C (1 # 1)) * u * t /c (2 # 1);
    C (9 # 1) * (C (3 # 1) * s - C (1 # 1)) * s * t /c (2 # 1);
    C (9 # 1) * (C (3 # 1) * t - C (1 # 1)) * s * t /c (2 # 1);
    C (9 # 1) * (C (3 # 1) * r - C (1 # 1)) * r * t /c (2 # 1);
    C (9 # 1) * (C (3 # 1) * t - C (1 # 1)) * r * t /c (2 # 1);
    C (9 # 1) * (C (3 # 1) * r - C (1 # 1)) * r * s /c (2 # 1);
    C (9 # 1) * (C (3 # 1) * s - C (1 # 1)) * r * s /c (2 # 1);
    C (27 # 1) * s * t * u;
    C (27 # 1) * r * t * u;
    C (27 # 1) * r * s * u;
    C (27 # 1) * r * s * t ])%expr.
(* src/shapes/tet20.rs:224-354 calc_deriv *)
(* row m, column j is deriv.get(m, j) *)
Definition tet20_deriv : list (list expr) := (
  let r := X 0 in
  let s := X 1 in
  let t := X 2 in
  let u := C (1 # 1) - r - s - t in
  [ [C ((-3) # 1) * u * (C ((-2) # 1) + C (3 # 1) * u) /c (2 # 1) - C (3 # 1) * u * (C ((-1) # 1) + C (3 # 1) * u) /c (2 # 1) - (C ((-2) # 1) + C (3 # 1) * u) * (C ((-1) # 1) + C (3 # 1) * u) /c (2 # 1); C ((-3) # 1) * u * (C ((-2) # 1) + C (3 # 1) * u) /c (2 # 1) - C (3 # 1) * u * (C ((-1) # 1) + C (3 # 1) * u) /c (2 # 1) - (C ((-2) # 1) + C (3 # 1) * u) * (C ((-1) # 1) + C (3 # 1) * u) /c (2 # 1); C ((-3) # 1) * u * (C ((-2) # 1) + C (3 # 1) * u) /c (2 # 1) - C (3 # 1) * u * (C ((-1) # 1) + C (3 # 1) * u) /c (2 # 1) - (C ((-2) # 1) + C (3 # 1) * u) * (C ((-1) # 1) + C (3 # 1) * u) /c (2 # 1)];
    [C (3 # 1) * r * (C ((-2) # 1) + C (3 # 1) * r) /c (2 # 1) + C (3 # 1) * r * (C ((-1) # 1) + C (3 # 1) * r) /c (2 # 1) + (C ((-2) # 1) + C (3 # 1) * r) * (C ((-1) # 1) + C (3 # 1) * r) /c (2 # 1); C (0 # 1); C (0 # 1)];
    [C (0 # 1); C (3 # 1) * s * (C ((-2) # 1) + C (3 # 1) * s) /c (2 # 1) + C (3 # 1) * s * (C ((-1) # 1) + C (3 # 1) * s) /c (2 # 1) + (C ((-2) # 1) + C (3 # 1) * s) * (C ((-1) # 1) + C (3 # 1) * s) /c (2 # 1); C (0 # 1)];
    [C (0 # 1); C (0 # 1); C (3 # 1) * t * (C ((-2) # 1) + C (3 # 1) * t) /c (2 # 1) + C (3 # 1) * t * (C ((-1) # 1) + C (3 # 1) * t) /c (2 # 1) + (C ((-2) # 1) + C (3 # 1) * t) * (C ((-1) # 1) + C (3 # 1) * t) /c (2 # 1)];
    [C ((-27) # 1) * r * u /c (2 # 1) - C (9 # 1) * r * (C ((-1) # 1) + C (3 # 1) * u) /c (2 # 1) + C (9 # 1) * u * (C ((-1) # 1) + C (3 # 1) * u) /c (2 # 1); C ((-27) # 1) * r * u /c (2 # 1) - C (9 # 1) * r * (C ((-1) # 1) + C (3 # 1) * u) /c (2 # 1); C ((-27) # 1) * r * u /c (2 # 1) - C (9 # 1) * r * (C ((-1) # 1) + C (3 # 1) * u) /c (2 # 1)];
    [C ((-9) # 1) * r * (C ((-1) # 1) + C (3 # 1) * r) /c (2 # 1) + C (27 # 1) * r * u /c (2 # 1) + C (9 # 1) * (C ((-1) # 1) + C (3 # 1) * r) * u /c (2 # 1); C ((-9) # 1) * r * (C ((-1) # 1) + C (3 # 1) * r) /c (2 # 1); C ((-9) # 1) * r * (C ((-1) # 1) + C (3 # 1) * r) /c (2 # 1)];
    [C ((-27) # 1) * s * u /c (2 # 1) - C (9 # 1) * s * (C ((-1) # 1) + C (3 # 1) * u) /c (2 # 1); C ((-27) # 1) * s * u /c (2 # 1) - C (9 # 1) * s * (C ((-1) # 1) + C (3 # 1) * u) /c (2 # 1) + C (9 # 1) * u * (C ((-1) # 1) + C (3 # 1) * u) /c (2 # 1); C ((-27) # 1) * s * u /c (2 # 1) - C (9 # 1) * s * (C ((-1) # 1) + C (3 # 1) * u) /c (2 # 1)];
    [C ((-9) # 1) * s * (C ((-1) # 1) + C (3 # 1) * s) /c (2 # 1); C ((-9) # 1) * s * (C ((-1) # 1) + C (3 # 1) * s) /c (2 # 1) + C (27 # 1) * s * u /c (2 # 1) + C (9 # 1) * (C ((-1) # 1) + C (3 # 1) * s) * u /c (2 # 1); C ((-9) # 1) * s * (C ((-1) # 1) + C (3 # 1) * s) /c (2 # 1)];
    [C ((-27) # 1) * t * u /c (2 # 1) - C (9 # 1) * t * (C ((-1) # 1) + C (3 # 1) * u) /c (2 # 1); C ((-27) # 1) * t * u /c (2 # 1) - C (9 # 1) * t * (C ((-1) # 1) + C (3 # 1) * u) /c (2 # 1); C ((-27) # 1) * t * u /c (2 # 1) - C (9 # 1) * t * (C ((-1) # 1) + C (3 # 1) * u) /c (2 # 1) + C (9 # 1) * u * (C ((-1) # 1) + C (3 # 1) * u) /c (2 # 1)];
    [C ((-9) # 1) * t * (C ((-1) # 1) + C (3 # 1) * t) /c (2 # 1); C ((-9) # 1) * t * (C ((-1) # 1) + C (3 # 1) * t) /c (2 # 1); C ((-9) # 1) * t * (C ((-1) # 1) + C (3 # 1) * t) /c (2 # 1) + C (27 # 1) * t * u /c (2 # 1) + C (9 # 1) * (C ((-1) # 1) + C (3 # 1) * t) * u /c (2 # 1)];
    [C (0 # 1); C (27 # 1) * s * t /c (2 # 1) + C (9 # 1) * (C ((-1) # 1) + C (3 # 1) * s) * t /c (2 # 1); C (9 # 1) * s * (C ((-1) # 1) + C (3 # 1) * s) /c (2 # 1)];
    [C (0 # 1); C (9 # 1) * t * (C ((-1) # 1) + C (3 # 1) * t) /c (2 # 1); C (27 # 1) * s * t /c (2 # 1) + C (9 # 1) * s * (C ((-1) # 1) + C (3 # 1) * t) /c (2 # 1)];
    [C (27 # 1) * r * t /c (2 # 1) + C (9 # 1) * (C ((-1) # 1) + C (3 # 1) * r) * t /c (2 # 1); C (0 # 1); C (9 # 1) * r * (C ((-1) # 1) + C (3 # 1) * r) /c (2 # 1)];
    [C (9 # 1) * t * (C ((-1) # 1) + C (3 # 1) * t) /c (2 # 1); C (0 # 1); C (27 # 1) * r * t /c (2 # 1) + C (9 # 1) * r * (C ((-1) # 1) + C (3 # 1) * t) /c (2 # 1)];
    [C (27 # 1) * r * s /c (2 # 1) + C (9 # 1) * (C ((-1) # 1) + C (3 # 1) * r) * s /c (2 # 1); C (9 # 1) * r * (C ((-1) # 1) + C (3 # 1) * r) /c (2 # 1); C (0 # 1)];
    [C (9 # 1) * s * (C ((-1) # 1) + C (3 # 1) * s) /c (2 # 1); C (27 # 1) * r * s /c (2 # 1) + C (9 # 1) * r * (C ((-1) # 1) + C (3 # 1) * s) /c (2 # 1); C (0 # 1)];
    [C ((-27) # 1) * s * t; C ((-27) # 1) * s * t + C (27 # 1) * t * u; C ((-27) # 1) * s * t + C (27 # 1) * s * u];
    [C ((-27) # 1) * r * t + C (27 # 1) * t * u; C ((-27) # 1) * r * t; C ((-27) # 1) * r * t + C (27 # 1) * r * u];
    [C ((-27) # 1) * r * s + C (27 # 1) * s * u; C ((-27) # 1) * r * s + C (27 # 1) * r * u; C ((-27) # 1) * r * s];
    [C (27 # 1) * s * t; C (27 # 1) * r * t; C (27 # 1) * r * s] ])%expr.

(** * Hex8 -- src/shapes/hex8.rs *)
(* src/shapes/hex8.rs:81 EDGE_NNODE *)
Definition hex8_edge_nnode : nat := 2.
(* src/shapes/hex8.rs:83 FACE_NEDGE *)
Definition hex8_face_nedge : nat := 4.
(* src/shapes/hex8.rs:82 FACE_NNODE *)
Definition hex8_face_nnode : nat := 4.
(* src/shapes/hex8.rs:77 GEO_NDIM *)
Definition hex8_geo_ndim : nat := 3.
(* src/shapes/hex8.rs:79 NEDGE *)
Definition hex8_nedge : nat := 12.
(* src/shapes/hex8.rs:80 NFACE *)
Definition hex8_nface : nat := 6.
(* src/shapes/hex8.rs:78 NNODE *)
Definition hex8_nnode : nat := 8.
(* src/shapes/hex8.rs:86 EDGE_NODE_IDS *)
Definition hex8_edge_node_ids : list (list nat) :=
  [[0; 1];
   [1; 2];
   [2; 3];
   [3; 0];
   [4; 5];
   [5; 6];
   [6; 7];
   [7; 4];
   [0; 4];
   [1; 5];
   [2; 6];
   [3; 7]].
(* src/shapes/hex8.rs:102 FACE_NODE_IDS *)
Definition hex8_face_node_ids : list (list nat) :=
  [[0; 4; 7; 3];
   [1; 2; 6; 5];
   [0; 1; 5; 4];
   [2; 3; 7; 6];
   [0; 3; 2; 1];
   [4; 5; 6; 7]].
(* src/shapes/hex8.rs:112 FACE_EDGE_NODE_IDS *)
Definition hex8_face_edge_node_ids : list (list (list nat)) :=
  [[[0; 4];
   [4; 7];
   [7; 3];
   [3; 0]];
   [[1; 2];
   [2; 6];
   [6; 5];
   [5; 1]];
   [[0; 1];
   [1; 5];
   [5; 4];
   [4; 0]];
   [[2; 3];
   [3; 7];
   [7; 6];
   [6; 2]];
   [[0; 3];
   [3; 2];
   [2; 1];
   [1; 0]];
   [[4; 5];
   [5; 6];
   [6; 7];
   [7; 4]]].
(* src/shapes/hex8.rs:122 NODE_REFERENCE_COORDS *)
Definition hex8_node_reference_coords : list (list Q) :=
  [[((-1) # 1); ((-1) # 1); ((-1) # 1)];
   [(1 # 1); ((-1) # 1); ((-1) # 1)];
   [(1 # 1); (1 # 1); ((-1) # 1)];
   [((-1) # 1); (1 # 1); ((-1) # 1)];
   [((-1) # 1); ((-1) # 1); (1 # 1)];
   [(1 # 1); ((-1) # 1); (1 # 1)];
   [(1 # 1); (1 # 1); (1 # 1)];
   [((-1) # 1); (1 # 1); (1 # 1)]]%Q.
(* src/shapes/hex8.rs:142-160 calc_interp *)
Definition hex8_interp : list expr := (
  let r := X 0 in
  let s := X 1 in
  let t := X 2 in
  let rm := C (1 # 1) - r in
  let sm := C (1 # 1) - s in
  let tm := C (1 # 1) - t in
  let rp := C (1 # 1) + r in
  let sp := C (1 # 1) + s in
  let tp := C (1 # 1) + t in
  [ rm * sm * tm /c (8 # 1);
    rp * sm * tm /c (8 # 1);
    rp * sp * tm /c (8 # 1);
    rm * sp * tm /c (8 # 1);
    rm * sm * tp /c (8 # 1);
    rp * sm * tp /c (8 # 1);
    rp * sp * tp /c (8 # 1);
    rm * sp * tp /c (8 # 1) ])%expr.
(* src/shapes/hex8.rs:172-211 calc_deriv *)
(* row m, column j is deriv.get(m, j) *)
Definition hex8_deriv : list (list expr) := (
  let r := X 0 in
  let s := X 1 in
  let t := X 2 in
  let rm := C (1 # 1) - r in
  let sm := C (1 # 1) - s in
  let tm := C (1 # 1) - t in
  let rp := C (1 # 1) + r in
  let sp := C (1 # 1) + s in
  let tp := C (1 # 1) + t in
  [ [- sm * tm /c (8 # 1); - rm * tm /c (8 # 1); - rm * sm /c (8 # 1)];
    [sm * tm /c (8 # 1); - rp * tm /c (8 # 1); - rp * sm /c (8 # 1)];
    [sp * tm /c (8 # 1); rp * tm /c (8 # 1); - rp * sp /c (8 # 1)];
    [- sp * tm /c (8 # 1); rm * tm /c (8 # 1); - rm * sp /c (8 # 1)];
    [- sm * tp /c (8 # 1); - rm * tp /c (8 # 1); rm * sm /c (8 # 1)];
    [sm * tp /c (8 # 1); - rp * tp /c (8 # 1); rp * sm /c (8 # 1)];
    [sp * tp /c (8 # 1); rp * tp /c (8 # 1); rp * sp /c (8 # 1)];
    [- sp * tp /c (8 # 1); rm * tp /c (8 # 1); rm * sp /c (8 # 1)] ])%expr.

(** * Hex20 -- src/shapes/hex20.rs *)
(* src/shapes/hex20.rs:82 EDGE_NNODE *)
Definition hex20_edge_nnode : nat := 3.
(* src/shapes/hex20.rs:84 FACE_NEDGE *)
Definition hex20_face_nedge : nat := 4.
(* src/shapes/hex20.rs:83 FACE_NNODE *)
Definition hex20_face_nnode : nat := 8.
(* src/shapes/hex20.rs:78 GEO_NDIM *)
Definition hex20_geo_ndim : nat := 3.
(* src/shapes/hex20.rs:80 NEDGE *)
Definition hex20_nedge : nat := 12.
(* src/shapes/hex20.rs:81 NFACE *)
Definition hex20_nface : nat := 6.
(* src/shapes/hex20.rs:79 NNODE *)
Definition hex20_nnode : nat := 20.
(* src/shapes/hex20.rs:87 EDGE_NODE_IDS *)
Definition hex20_edge_node_ids : list (list nat) :=
  [[0; 1; 8];
   [1; 2; 9];
   [2; 3; 10];
   [3; 0; 11];
   [4; 5; 12];
   [5; 6; 13];
   [6; 7; 14];
   [7; 4; 15];
   [0; 4; 16];
   [1; 5; 17];
   [2; 6; 18];
   [3; 7; 19]].
(* src/shapes/hex20.rs:103 FACE_NODE_IDS *)
Definition hex20_face_node_ids : list (list nat) :=
  [[0; 4; 7; 3; 16; 15; 19; 11];
   [1; 2; 6; 5; 9; 18; 13; 17];
   [0; 1; 5; 4; 8; 17; 12; 16];
   [2; 3; 7; 6; 10; 19; 14; 18];
   [0; 3; 2; 1; 11; 10; 9; 8];
   [4; 5; 6; 7; 12; 13; 14; 15]].
(* src/shapes/hex20.rs:113 FACE_EDGE_NODE_IDS *)
Definition hex20_face_edge_node_ids : list (list (list nat)) :=
  [[[0; 4; 16];
   [4; 7; 15];
   [7; 3; 19];
   [3; 0; 11]];
   [[1; 2; 9];
   [2; 6; 18];
   [6; 5; 13];
   [5; 1; 17]];
   [[0; 1; 8];
   [1; 5; 17];
   [5; 4; 12];
   [4; 0; 16]];
   [[2; 3; 10];
   [3; 7; 19];
   [7; 6; 14];
   [6; 2; 18]];
   [[0; 3; 11];
   [3; 2; 10];
   [2; 1; 9];
   [1; 0; 8]];
   [[4; 5; 12];
   [5; 6; 13];
   [6; 7; 14];
   [7; 4; 15]]].
(* src/shapes/hex20.rs:123 NODE_REFERENCE_COORDS *)
Definition hex20_node_reference_coords : list (list Q) :=
  [[((-1) # 1); ((-1) # 1); ((-1) # 1)];
   [(1 # 1); ((-1) # 1); ((-1) # 1)];
   [(1 # 1); (1 # 1); ((-1) # 1)];
   [((-1) # 1); (1 # 1); ((-1) # 1)];
   [((-1) # 1); ((-1) # 1); (1 # 1)];
   [(1 # 1); ((-1) # 1); (1 # 1)];
   [(1 # 1); (1 # 1); (1 # 1)];
   [((-1) # 1); (1 # 1); (1 # 1)];
   [(0 # 1); ((-1) # 1); ((-1) # 1)];
   [(1 # 1); (0 # 1); ((-1) # 1)];
   [(0 # 1); (1 # 1); ((-1) # 1)];
   [((-1) # 1); (0 # 1); ((-1) # 1)];
   [(0 # 1); ((-1) # 1); (1 # 1)];
   [(1 # 1); (0 # 1); (1 # 1)];
   [(0 # 1); (1 # 1); (1 # 1)];
   [((-1) # 1); (0 # 1); (1 # 1)];
   [((-1) # 1); ((-1) # 1); (0 # 1)];
   [(1 # 1); ((-1) # 1); (0 # 1)];
   [(1 # 1); (1 # 1); (0 # 1)];
   [((-1) # 1); (1 # 1); (0 # 1)]]%Q.
(* src/shapes/hex20.rs:159-192 calc_interp *)
Definition hex20_interp : list expr := (
  let r := X 0 in
  let s := X 1 in
  let t := X 2 in
  let rm := C (1 # 1) - r in
  let sm := C (1 # 1) - s in
  let tm := C (1 # 1) - t in
  let rp := C (1 # 1) + r in
  let sp := C (1 # 1) + s in
  let tp := C (1 # 1) + t in
  let rr := C (1 # 1) - r * r in
  let ss := C (1 # 1) - s * s in
  let tt := C (1 # 1) - t * t in
  [ rm * sm * tm * (C ((-2) # 1) - r - s - t) /c (8 # 1);
    rp * sm * tm * (C ((-2) # 1) + r - s - t) /c (8 # 1);
    rp * sp * tm * (C ((-2) # 1) + r + s - t) /c (8 # 1);
    rm * sp * tm * (C ((-2) # 1) - r + s - t) /c (8 # 1);
    rm * sm * tp * (C ((-2) # 1) - r - s + t) /c (8 # 1);
    rp * sm * tp * (C ((-2) # 1) + r - s + t) /c (8 # 1);
    rp * sp * tp * (C ((-2) # 1) + r + s + t) /c (8 # 1);
    rm * sp * tp * (C ((-2) # 1) - r + s + t) /c (8 # 1);
    rr * sm * tm /c (4 # 1);
    rp * ss * tm /c (4 # 1);
    rr * sp * tm /c (4 # 1);
    rm * ss * tm /c (4 # 1);
    rr * sm * tp /c (4 # 1);
    rp * ss * tp /c (4 # 1);
    rr * sp * tp /c (4 # 1);
    rm * ss * tp /c (4 # 1);
    rm * sm * tt /c (4 # 1);
    rp * sm * tt /c (4 # 1);
    rp * sp * tt /c (4 # 1);
    rm * sp * tt /c (4 # 1) ])%expr.
(* src/shapes/hex20.rs:204-282 calc_deriv *)
(* row m, column j is deriv.get(m, j) *)
Definition hex20_deriv : list (list expr) := (
  let r := X 0 in
  let s := X 1 in
  let t := X 2 in
  let rm := C (1 # 1) - r in
  let sm := C (1 # 1) - s in
  let tm := C (1 # 1) - t in
  let rp := C (1 # 1) + r in
  let sp := C (1 # 1) + s in
  let tp := C (1 # 1) + t in
  let rr := C (1 # 1) - r * r in
  let ss := C (1 # 1) - s * s in
  let tt := C (1 # 1) - t * t in
  [ [- rm * sm * tm /c (8 # 1) - sm * (C ((-2) # 1) - r - s - t) * tm /c (8 # 1); - rm * sm * tm /c (8 # 1) - rm * (C ((-2) # 1) - r - s - t) * tm /c (8 # 1); - rm * sm * (C ((-2) # 1) - r - s - t) /c (8 # 1) - rm * sm * tm /c (8 # 1)];
    [rp * sm * tm /c (8 # 1) + sm * (C ((-2) # 1) + r - s - t) * tm /c (8 # 1); - rp * sm * tm /c (8 # 1) - rp * (C ((-2) # 1) + r - s - t) * tm /c (8 # 1); - rp * sm * (C ((-2) # 1) + r - s - t) /c (8 # 1) - rp * sm * tm /c (8 # 1)];
    [rp * sp * tm /c (8 # 1) + sp * (C ((-2) # 1) + r + s - t) * tm /c (8 # 1); rp * sp * tm /c (8 # 1) + rp * (C ((-2) # 1) + r + s - t) * tm /c (8 # 1); - rp * sp * (C ((-2) # 1) + r + s - t) /c (8 # 1) - rp * sp * tm /c (8 # 1)];
    [- rm * sp * tm /c (8 # 1) - sp * (C ((-2) # 1) - r + s - t) * tm /c (8 # 1); rm * sp * tm /c (8 # 1) + rm * (C ((-2) # 1) - r + s - t) * tm /c (8 # 1); - rm * sp * (C ((-2) # 1) - r + s - t) /c (8 # 1) - rm * sp * tm /c (8 # 1)];
    [- rm * sm * tp /c (8 # 1) - sm * (C ((-2) # 1) - r - s + t) * tp /c (8 # 1); - rm * sm * tp /c (8 # 1) - rm * (C ((-2) # 1) - r - s + t) * tp /c (8 # 1); rm * sm * (C ((-2) # 1) - r - s + t) /c (8 # 1) + rm * sm * tp /c (8 # 1)];
    [rp * sm * tp /c (8 # 1) + sm * (C ((-2) # 1) + r - s + t) * tp /c (8 # 1); - rp * sm * tp /c (8 # 1) - rp * (C ((-2) # 1) + r - s + t) * tp /c (8 # 1); rp * sm * (C ((-2) # 1) + r - s + t) /c (8 # 1) + rp * sm * tp /c (8 # 1)];
    [rp * sp * tp /c (8 # 1) + sp * (C ((-2) # 1) + r + s + t) * tp /c (8 # 1); rp * sp * tp /c (8 # 1) + rp * (C ((-2) # 1) + r + s + t) * tp /c (8 # 1); rp * sp * (C ((-2) # 1) + r + s + t) /c (8 # 1) + rp * sp * tp /c (8 # 1)];
    [- rm * sp * tp /c (8 # 1) - sp * (C ((-2) # 1) - r + s + t) * tp /c (8 # 1); rm * sp * tp /c (8 # 1) + rm * (C ((-2) # 1) - r + s + t) * tp /c (8 # 1); rm * sp * (C ((-2) # 1) - r + s + t) /c (8 # 1) + rm * sp * tp /c (8 # 1)];
    [- r * sm * tm /c (2 # 1); - rr * tm /c (4 # 1); - rr * sm /c (4 # 1)];
    [ss * tm /c (4 # 1); - rp * s * tm /c (2 # 1); - rp * ss /c (4 # 1)];
    [- r * sp * tm /c (2 # 1); rr * tm /c (4 # 1); - rr * sp /c (4 # 1)];
    [- ss * tm /c (4 # 1); - rm * s * tm /c (2 # 1); - rm * ss /c (4 # 1)];
    [- r * sm * tp /c (2 # 1); - rr * tp /c (4 # 1); rr * sm /c (4 # 1)];
    [ss * tp /c (4 # 1); - rp * s * tp /c (2 # 1); rp * ss /c (4 # 1)];
    [- r * sp * tp /c (2 # 1); rr * tp /c (4 # 1); rr * sp /c (4 # 1)];
    [- ss * tp /c (4 # 1); - rm * s * tp /c (2 # 1); rm * ss /c (4 # 1)];
    [- sm * tt /c (4 # 1); - rm * tt /c (4 # 1); - rm * sm * t /c (2 # 1)];
    [sm * tt /c (4 # 1); - rp * tt /c (4 # 1); - rp * sm * t /c (2 # 1)];
    [sp * tt /c (4 # 1); rp * tt /c (4 # 1); - rp * sp * t /c (2 # 1)];
    [- sp * tt /c (4 # 1); rm * tt /c (4 # 1); - rm * sp * t /c (2 # 1)] ])%expr.

(** * Hex32 -- src/shapes/hex32.rs *)
(* src/shapes/hex32.rs:91 EDGE_NNODE *)
Definition hex32_edge_nnode : nat := 4.
(* src/shapes/hex32.rs:93 FACE_NEDGE *)
Definition hex32_face_nedge : nat := 4.
(* src/shapes/hex32.rs:92 FACE_NNODE *)
Definition hex32_face_nnode : nat := 12.
(* src/shapes/hex32.rs:87 GEO_NDIM *)
Definition hex32_geo_ndim : nat := 3.
(* src/shapes/hex32.rs:89 NEDGE *)
Definition hex32_nedge : nat := 12.
(* src/shapes/hex32.rs:90 NFACE *)
Definition hex32_nface : nat := 6.
(* src/shapes/hex32.rs:88 NNODE *)
Definition hex32_nnode : nat := 32.
(* src/shapes/hex32.rs:96 EDGE_NODE_IDS *)
Definition hex32_edge_node_ids : list (list nat) :=
  [[0; 1; 8; 9];
   [1; 2; 10; 11];
   [2; 3; 12; 13];
   [3; 0; 14; 15];
   [4; 5; 16; 17];
   [5; 6; 18; 19];
   [6; 7; 20; 21];
   [7; 4; 22; 23];
   [0; 4; 24; 25];
   [1; 5; 26; 27];
   [2; 6; 28; 29];
   [3; 7; 30; 31]].
(* src/shapes/hex32.rs:112 FACE_NODE_IDS *)
Definition hex32_face_node_ids : list (list nat) :=
  [[0; 4; 7; 3; 24; 23; 31; 14; 25; 22; 30; 15];
   [1; 2; 6; 5; 10; 28; 19; 27; 11; 29; 18; 26];
   [0; 1; 5; 4; 8; 26; 17; 25; 9; 27; 16; 24];
   [2; 3; 7; 6; 12; 30; 21; 29; 13; 31; 20; 28];
   [0; 3; 2; 1; 15; 13; 11; 9; 14; 12; 10; 8];
   [4; 5; 6; 7; 16; 18; 20; 22; 17; 19; 21; 23]].
(* src/shapes/hex32.rs:122 FACE_EDGE_NODE_IDS *)
Definition hex32_face_edge_node_ids : list (list (list nat)) :=
  [[[0; 4; 24; 25];
   [4; 7; 23; 22];
   [7; 3; 31; 30];
   [3; 0; 14; 15]];
   [[1; 2; 10; 11];
   [2; 6; 28; 29];
   [6; 5; 19; 18];
   [5; 1; 27; 26]];
   [[0; 1; 8; 9];
   [1; 5; 26; 27];
   [5; 4; 17; 16];
   [4; 0; 25; 24]];
   [[2; 3; 12; 13];
   [3; 7; 30; 31];
   [7; 6; 21; 20];
   [6; 2; 29; 28]];
   [[0; 3; 15; 14];
   [3; 2; 13; 12];
   [2; 1; 11; 10];
   [1; 0; 9; 8]];
   [[4; 5; 16; 17];
   [5; 6; 18; 19];
   [6; 7; 20; 21];
   [7; 4; 22; 23]]].
(* src/shapes/hex32.rs:132 NODE_REFERENCE_COORDS *)
Definition hex32_node_reference_coords : list (list Q) :=
  [[((-1) # 1); ((-1) # 1); ((-1) # 1)];
   [(1 # 1); ((-1) # 1); ((-1) # 1)];
   [(1 # 1); (1 # 1); ((-1) # 1)];
   [((-1) # 1); (1 # 1); ((-1) # 1)];
   [((-1) # 1); ((-1) # 1); (1 # 1)];
   [(1 # 1); ((-1) # 1); (1 # 1)];
   [(1 # 1); (1 # 1); (1 # 1)];
   [((-1) # 1); (1 # 1); (1 # 1)];
   [((-1) # 3); ((-1) # 1); ((-1) # 1)];
   [(1 # 3); ((-1) # 1); ((-1) # 1)];
   [(1 # 1); ((-1) # 3); ((-1) # 1)];
   [(1 # 1); (1 # 3); ((-1) # 1)];
   [(1 # 3); (1 # 1); ((-1) # 1)];
   [((-1) # 3); (1 # 1); ((-1) # 1)];
   [((-1) # 1); (1 # 3); ((-1) # 1)];
   [((-1) # 1); ((-1) # 3); ((-1) # 1)];
   [((-1) # 3); ((-1) # 1); (1 # 1)];
   [(1 # 3); ((-1) # 1); (1 # 1)];
   [(1 # 1); ((-1) # 3); (1 # 1)];
   [(1 # 1); (1 # 3); (1 # 1)];
   [(1 # 3); (1 # 1); (1 # 1)];
   [((-1) # 3); (1 # 1); (1 # 1)];
   [((-1) # 1); (1 # 3); (1 # 1)];
   [((-1) # 1); ((-1) # 3); (1 # 1)];
   [((-1) # 1); ((-1) # 1); ((-1) # 3)];
   [((-1) # 1); ((-1) # 1); (1 # 3)];
   [(1 # 1); ((-1) # 1); ((-1) # 3)];
   [(1 # 1); ((-1) # 1); (1 # 3)];
   [(1 # 1); (1 # 1); ((-1) # 3)];
   [(1 # 1); (1 # 1); (1 # 3)];
   [((-1) # 1); (1 # 1); ((-1) # 3)];
   [((-1) # 1); (1 # 1); (1 # 3)]]%Q.
(* src/shapes/hex32.rs:180-234 calc_interp *)
Definition hex32_interp : list expr := (
  let r := X 0 in
  let s := X 1 in
  let t := X 2 in
  let rm := C (1 # 1) - r in
  let sm := C (1 # 1) - s in
  let tm := C (1 # 1) - t in
  let rp := C (1 # 1) + r in
  let sp := C (1 # 1) + s in
  let tp := C (1 # 1) + t in
  let r3m := C (1 # 1) - C (3 # 1) * r in
  let s3m := C (1 # 1) - C (3 # 1) * s in
  let t3m := C (1 # 1) - C (3 # 1) * t in
  let r3p := C (1 # 1) + C (3 # 1) * r in
  let s3p := C (1 # 1) + C (3 # 1) * s in
  let t3p := C (1 # 1) + C (3 # 1) * t in
  let rr := C (1 # 1) - r * r in
  let ss := C (1 # 1) - s * s in
  let tt := C (1 # 1) - t * t in
  let rr9 := C (9 # 1) * r * r in
  let ss9 := C (9 # 1) * s * s in
  let tt9 := C (9 # 1) * t * t in
  [ rm * sm * tm * (C ((-19) # 1) + rr9 + ss9 + tt9) /c (64 # 1);
    rp * sm * tm * (C ((-19) # 1) + rr9 + ss9 + tt9) /c (64 # 1);
    rp * sp * tm * (C ((-19) # 1) + rr9 + ss9 + tt9) /c (64 # 1);
    rm * sp * tm * (C ((-19) # 1) + rr9 + ss9 + tt9) /c (64 # 1);
    rm * sm * tp * (C ((-19) # 1) + rr9 + ss9 + tt9) /c (64 # 1);
    rp * sm * tp * (C ((-19) # 1) + rr9 + ss9 + tt9) /c (64 # 1);
    rp * sp * tp * (C ((-19) # 1) + rr9 + ss9 + tt9) /c (64 # 1);
    rm * sp * tp * (C ((-19) # 1) + rr9 + ss9 + tt9) /c (64 # 1);
    C (9 # 1) * r3m * rr * sm * tm /c (64 # 1);
    C (9 # 1) * r3p * rr * sm * tm /c (64 # 1);
    C (9 # 1) * rp * s3m * ss * tm /c (64 # 1);
    C (9 # 1) * rp * s3p * ss * tm /c (64 # 1);
    C (9 # 1) * r3p * rr * sp * tm /c (64 # 1);
    C (9 # 1) * r3m * rr * sp * tm /c (64 # 1);
    C (9 # 1) * rm * s3p * ss * tm /c (64 # 1);
    C (9 # 1) * rm * s3m * ss * tm /c (64 # 1);
    C (9 # 1) * r3m * rr * sm * tp /c (64 # 1);
    C (9 # 1) * r3p * rr * sm * tp /c (64 # 1);
    C (9 # 1) * rp * s3m * ss * tp /c (64 # 1);
    C (9 # 1) * rp * s3p * ss * tp /c (64 # 1);
    C (9 # 1) * r3p * rr * sp * tp /c (64 # 1);
    C (9 # 1) * r3m * rr * sp * tp /c (64 # 1);
    C (9 # 1) * rm * s3p * ss * tp /c (64 # 1);
    C (9 # 1) * rm * s3m * ss * tp /c (64 # 1);
    C (9 # 1) * rm * sm * t3m * tt /c (64 # 1);
    C (9 # 1) * rm * sm * t3p * tt /c (64 # 1);
    C (9 # 1) * rp * sm * t3m * tt /c (64 # 1);
    C (9 # 1) * rp * sm * t3p * tt /c (64 # 1);
    C (9 # 1) * rp * sp * t3m * tt /c (64 # 1);
    C (9 # 1) * rp * sp * t3p * tt /c (64 # 1);
    C (9 # 1) * rm * sp * t3m * tt /c (64 # 1);
    C (9 # 1) * rm * sp * t3p * tt /c (64 # 1) ])%expr.
(* src/shapes/hex32.rs:246-465 calc_deriv *)
(* row m, column j is deriv.get(m, j) *)
Definition hex32_deriv : list (list expr) := (
  let r := X 0 in
  let s := X 1 in
  let t := X 2 in
  let rm := C (1 # 1) - r in
  let sm := C (1 # 1) - s in
  let tm := C (1 # 1) - t in
  let rp := C (1 # 1) + r in
  let sp := C (1 # 1) + s in
  let tp := C (1 # 1) + t in
  let r3m := C (1 # 1) - C (3 # 1) * r in
  let s3m := C (1 # 1) - C (3 # 1) * s in
  let t3m := C (1 # 1) - C (3 # 1) * t in
  let r3p := C (1 # 1) + C (3 # 1) * r in
  let s3p := C (1 # 1) + C (3 # 1) * s in
  let t3p := C (1 # 1) + C (3 # 1) * t in
  let rr := C (1 # 1) - r * r in
  let ss := C (1 # 1) - s * s in
  let tt := C (1 # 1) - t * t in
  let rr9 := C (9 # 1) * r * r in
  let ss9 := C (9 # 1) * s * s in
  let tt9 := C (9 # 1) * t * t in
  [ [C (9 # 1) * r * rm * sm * tm /c (32 # 1) - sm * tm * (C ((-19) # 1) + rr9 + ss9 + tt9) /c (64 # 1); C (9 # 1) * rm * s * sm * tm /c (32 # 1) - rm * tm * (C ((-19) # 1) + rr9 + ss9 + tt9) /c (64 # 1); C (9 # 1) * rm * sm * t * tm /c (32 # 1) - rm * sm * (C ((-19) # 1) + rr9 + ss9 + tt9) /c (64 # 1)];
    [C (9 # 1) * r * rp * sm * tm /c (32 # 1) + sm * tm * (C ((-19) # 1) + rr9 + ss9 + tt9) /c (64 # 1); C (9 # 1) * rp * s * sm * tm /c (32 # 1) - rp * tm * (C ((-19) # 1) + rr9 + ss9 + tt9) /c (64 # 1); C (9 # 1) * rp * sm * t * tm /c (32 # 1) - rp * sm * (C ((-19) # 1) + rr9 + ss9 + tt9) /c (64 # 1)];
    [C (9 # 1) * r * rp * sp * tm /c (32 # 1) + sp * tm * (C ((-19) # 1) + rr9 + ss9 + tt9) /c (64 # 1); C (9 # 1) * rp * s * sp * tm /c (32 # 1) + rp * tm * (C ((-19) # 1) + rr9 + ss9 + tt9) /c (64 # 1); C (9 # 1) * rp * sp * t * tm /c (32 # 1) - rp * sp * (C ((-19) # 1) + rr9 + ss9 + tt9) /c (64 # 1)];
    [C (9 # 1) * r * rm * sp * tm /c (32 # 1) - sp * tm * (C ((-19) # 1) + rr9 + ss9 + tt9) /c (64 # 1); C (9 # 1) * rm * s * sp * tm /c (32 # 1) + rm * tm * (C ((-19) # 1) + rr9 + ss9 + tt9) /c (64 # 1); C (9 # 1) * rm * sp * t * tm /c (32 # 1) - rm * sp * (C ((-19) # 1) + rr9 + ss9 + tt9) /c (64 # 1)];
    [C (9 # 1) * r * rm * sm * tp /c (32 # 1) - sm * tp * (C ((-19) # 1) + rr9 + ss9 + tt9) /c (64 # 1); C (9 # 1) * rm * s * sm * tp /c (32 # 1) - rm * tp * (C ((-19) # 1) + rr9 + ss9 + tt9) /c (64 # 1); C (9 # 1) * rm * sm * t * tp /c (32 # 1) + rm * sm * (C ((-19) # 1) + rr9 + ss9 + tt9) /c (64 # 1)];
    [C (9 # 1) * r * rp * sm * tp /c (32 # 1) + sm * tp * (C ((-19) # 1) + rr9 + ss9 + tt9) /c (64 # 1); C (9 # 1) * rp * s * sm * tp /c (32 # 1) - rp * tp * (C ((-19) # 1) + rr9 + ss9 + tt9) /c (64 # 1); C (9 # 1) * rp * sm * t * tp /c (32 # 1) + rp * sm * (C ((-19) # 1) + rr9 + ss9 + tt9) /c (64 # 1)];
    [C (9 # 1) * r * rp * sp * tp /c (32 # 1) + sp * tp * (C ((-19) # 1) + rr9 + ss9 + tt9) /c (64 # 1); C (9 # 1) * rp * s * sp * tp /c (32 # 1) + rp * tp * (C ((-19) # 1) + rr9 + ss9 + tt9) /c (64 # 1); C (9 # 1) * rp * sp * t * tp /c (32 # 1) + rp * sp * (C ((-19) # 1) + rr9 + ss9 + tt9) /c (64 # 1)];
    [C (9 # 1) * r * rm * sp * tp /c (32 # 1) - sp * tp * (C ((-19) # 1) + rr9 + ss9 + tt9) /c (64 # 1); C (9 # 1) * rm * s * sp * tp /c (32 # 1) + rm * tp * (C ((-19) # 1) + rr9 + ss9 + tt9) /c (64 # 1); C (9 # 1) * rm * sp * t * tp /c (32 # 1) + rm * sp * (C ((-19) # 1) + rr9 + ss9 + tt9) /c (64 # 1)];
    [C ((-9) # 1) * r * r3m * sm * tm /c (32 # 1) - C (27 # 1) * rr * sm * tm /c (64 # 1); C ((-9) # 1) * r3m * rr * tm /c (64 # 1); C ((-9) # 1) * r3m * rr * sm /c (64 # 1)];
    [C ((-9) # 1) * r * r3p * sm * tm /c (32 # 1) + C (27 # 1) * rr * sm * tm /c (64 # 1); C ((-9) # 1) * r3p * rr * tm /c (64 # 1); C ((-9) # 1) * r3p * rr * sm /c (64 # 1)];
    [C (9 # 1) * s3m * ss * tm /c (64 # 1); C ((-9) # 1) * rp * s * s3m * tm /c (32 # 1) - C (27 # 1) * rp * ss * tm /c (64 # 1); C ((-9) # 1) * rp * s3m * ss /c (64 # 1)];
    [C (9 # 1) * s3p * ss * tm /c (64 # 1); C ((-9) # 1) * rp * s * s3p * tm /c (32 # 1) + C (27 # 1) * rp * ss * tm /c (64 # 1); C ((-9) # 1) * rp * s3p * ss /c (64 # 1)];
    [C ((-9) # 1) * r * r3p * sp * tm /c (32 # 1) + C (27 # 1) * rr * sp * tm /c (64 # 1); C (9 # 1) * r3p * rr * tm /c (64 # 1); C ((-9) # 1) * r3p * rr * sp /c (64 # 1)];
    [C ((-9) # 1) * r * r3m * sp * tm /c (32 # 1) - C (27 # 1) * rr * sp * tm /c (64 # 1); C (9 # 1) * r3m * rr * tm /c (64 # 1); C ((-9) # 1) * r3m * rr * sp /c (64 # 1)];
    [C ((-9) # 1) * s3p * ss * tm /c (64 # 1); C ((-9) # 1) * rm * s * s3p * tm /c (32 # 1) + C (27 # 1) * rm * ss * tm /c (64 # 1); C ((-9) # 1) * rm * s3p * ss /c (64 # 1)];
    [C ((-9) # 1) * s3m * ss * tm /c (64 # 1); C ((-9) # 1) * rm * s * s3m * tm /c (32 # 1) - C (27 # 1) * rm * ss * tm /c (64 # 1); C ((-9) # 1) * rm * s3m * ss /c (64 # 1)];
    [C ((-9) # 1) * r * r3m * sm * tp /c (32 # 1) - C (27 # 1) * rr * sm * tp /c (64 # 1); C ((-9) # 1) * r3m * rr * tp /c (64 # 1); C (9 # 1) * r3m * rr * sm /c (64 # 1)];
    [C ((-9) # 1) * r * r3p * sm * tp /c (32 # 1) + C (27 # 1) * rr * sm * tp /c (64 # 1); C ((-9) # 1) * r3p * rr * tp /c (64 # 1); C (9 # 1) * r3p * rr * sm /c (64 # 1)];
    [C (9 # 1) * s3m * ss * tp /c (64 # 1); C ((-9) # 1) * rp * s * s3m * tp /c (32 # 1) - C (27 # 1) * rp * ss * tp /c (64 # 1); C (9 # 1) * rp * s3m * ss /c (64 # 1)];
    [C (9 # 1) * s3p * ss * tp /c (64 # 1); C ((-9) # 1) * rp * s * s3p * tp /c (32 # 1) + C (27 # 1) * rp * ss * tp /c (64 # 1); C (9 # 1) * rp * s3p * ss /c (64 # 1)];
    [C ((-9) # 1) * r * r3p * sp * tp /c (32 # 1) + C (27 # 1) * rr * sp * tp /c (64 # 1); C (9 # 1) * r3p * rr * tp /c (64 # 1); C (9 # 1) * r3p * rr * sp /c (64 # 1)];
    [C ((-9) # 1) * r * r3m * sp * tp /c (32 # 1) - C (27 # 1) * rr * sp * tp /c (64 # 1); C (9 # 1) * r3m * rr * tp /c (64 # 1); C (9 # 1) * r3m * rr * sp /c (64 # 1)];
    [C ((-9) # 1) * s3p * ss * tp /c (64 # 1); C ((-9) # 1) * rm * s * s3p * tp /c (32 # 1) + C (27 # 1) * rm * ss * tp /c (64 # 1); C (9 # 1) * rm * s3p * ss /c (64 # 1)];
    [C ((-9) # 1) * s3m * ss * tp /c (64 # 1); C ((-9) # 1) * rm * s * s3m * tp /c (32 # 1) - C (27 # 1) * rm * ss * tp /c (64 # 1); C (9 # 1) * rm * s3m * ss /c (64 # 1)];
    [C ((-9) # 1) * sm * t3m * tt /c (64 # 1); C ((-9) # 1) * rm * t3m * tt /c (64 # 1); C ((-9) # 1) * rm * sm * t * t3m /c (32 # 1) - C (27 # 1) * rm * sm * tt /c (64 # 1)];
    [C ((-9) # 1) * sm * t3p * tt /c (64 # 1); C ((-9) # 1) * rm * t3p * tt /c (64 # 1); C ((-9) # 1) * rm * sm * t * t3p /c (32 # 1) + C (27 # 1) * rm * sm * tt /c (64 # 1)];
    [C (9 # 1) * sm * t3m * tt /c (64 # 1); C ((-9) # 1) * rp * t3m * tt /c (64 # 1); C ((-9) # 1) * rp * sm * t * t3m /c (32 # 1) - C (27 # 1) * rp * sm * tt /c (64 # 1)];
    [C (9 # 1) * sm * t3p * tt /c (64 # 1); C ((-9) # 1) * rp * t3p * tt /c (64 # 1); C ((-9) # 1) * rp * sm * t * t3p /c (32 # 1) + C (27 # 1) * rp * sm * tt /c (64 # 1)];
    [C (9 # 1) * sp * t3m * tt /c (64 # 1); C (9 # 1) * rp * t3m * tt /c (64 # 1); C ((-9) # 1) * rp * sp * t * t3m /c (32 # 1) - C (27 # 1) * rp * sp * tt /c (64 # 1)];
    [C (9 # 1) * sp * t3p * tt /c (64 # 1); C (9 # 1) * rp * t3p * tt /c (64 # 1); C ((-9) # 1) * rp * sp * t * t3p /c (32 # 1) + C (27 # 1) * rp * sp * tt /c (64 # 1)];
    [C ((-9) # 1) * sp * t3m * tt /c (64 # 1); C (9 # 1) * rm * t3m * tt /c (64 # 1); C ((-9) # 1) * rm * sp * t * t3m /c (32 # 1) - C (27 # 1) * rm * sp * tt /c (64 # 1)];
    [C ((-9) # 1) * sp * t3p * tt /c (64 # 1); C (9 # 1) * rm * t3p * tt /c (64 # 1); C ((-9) # 1) * rm * sp * t * t3p /c (32 # 1) + C (27 # 1) * rm * sp * tt /c (64 # 1)] ])%expr.

