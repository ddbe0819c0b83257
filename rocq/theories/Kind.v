(* GENERATED by tools/gen_shapes.py from /repo/src/shapes/enums.rs -- do not edit. *)
From Coq Require Import List QArith String.
From Verif Require Import ShapesData.
Import ListNotations.
Open Scope nat_scope.

(* src/shapes/enums.rs:84 GeoClass *)
Inductive geoclass : Set := CLin | CTri | CQua | CTet | CHex.
(* src/shapes/enums.rs:116 GeoKind *)
Inductive geokind : Set := Lin2 | Lin3 | Lin4 | Lin5 | Tri3 | Tri6 | Tri10 | Tri15 | Qua4 | Qua8 | Qua9 | Qua12 | Qua16 | Qua17 | Tet4 | Tet10 | Tet20 | Hex8 | Hex20 | Hex32.

(* src/shapes/enums.rs:280-308 GeoKind::class *)
Definition kind_class (k : geokind) : geoclass :=
  match k with
  | Lin2 => CLin
  | Lin3 => CLin
  | Lin4 => CLin
  | Lin5 => CLin
  | Tri3 => CTri
  | Tri6 => CTri
  | Tri10 => CTri
  | Tri15 => CTri
  | Qua4 => CQua
  | Qua8 => CQua
  | Qua9 => CQua
  | Qua12 => CQua
  | Qua16 => CQua
  | Qua17 => CQua
  | Tet4 => CTet
  | Tet10 => CTet
  | Tet20 => CTet
  | Hex8 => CHex
  | Hex20 => CHex
  | Hex32 => CHex
  end.

(* src/shapes/enums.rs:311-339 GeoKind::ndim *)
Definition kind_ndim (k : geokind) : nat :=
  match k with
  | Lin2 => lin2_geo_ndim
  | Lin3 => lin3_geo_ndim
  | Lin4 => lin4_geo_ndim
  | Lin5 => lin5_geo_ndim
  | Tri3 => tri3_geo_ndim
  | Tri6 => tri6_geo_ndim
  | Tri10 => tri10_geo_ndim
  | Tri15 => tri15_geo_ndim
  | Qua4 => qua4_geo_ndim
  | Qua8 => qua8_geo_ndim
  | Qua9 => qua9_geo_ndim
  | Qua12 => qua12_geo_ndim
  | Qua16 => qua16_geo_ndim
  | Qua17 => qua17_geo_ndim
  | Tet4 => tet4_geo_ndim
  | Tet10 => tet10_geo_ndim
  | Tet20 => tet20_geo_ndim
  | Hex8 => hex8_geo_ndim
  | Hex20 => hex20_geo_ndim
  | Hex32 => hex32_geo_ndim
  end.

(* src/shapes/enums.rs:342-370 GeoKind::nnode *)
Definition kind_nnode (k : geokind) : nat :=
  match k with
  | Lin2 => lin2_nnode
  | Lin3 => lin3_nnode
  | Lin4 => lin4_nnode
  | Lin5 => lin5_nnode
  | Tri3 => tri3_nnode
  | Tri6 => tri6_nnode
  | Tri10 => tri10_nnode
  | Tri15 => tri15_nnode
  | Qua4 => qua4_nnode
  | Qua8 => qua8_nnode
  | Qua9 => qua9_nnode
  | Qua12 => qua12_nnode
  | Qua16 => qua16_nnode
  | Qua17 => qua17_nnode
  | Tet4 => tet4_nnode
  | Tet10 => tet10_nnode
  | Tet20 => tet20_nnode
  | Hex8 => hex8_nnode
  | Hex20 => hex20_nnode
  | Hex32 => hex32_nnode
  end.

(* src/shapes/enums.rs:373-401 GeoKind::nedge *)
Definition kind_nedge (k : geokind) : nat :=
  match k with
  | Lin2 => lin2_nedge
  | Lin3 => lin3_nedge
  | Lin4 => lin4_nedge
  | Lin5 => lin5_nedge
  | Tri3 => tri3_nedge
  | Tri6 => tri6_nedge
  | Tri10 => tri10_nedge
  | Tri15 => tri15_nedge
  | Qua4 => qua4_nedge
  | Qua8 => qua8_nedge
  | Qua9 => qua9_nedge
  | Qua12 => qua12_nedge
  | Qua16 => qua16_nedge
  | Qua17 => qua17_nedge
  | Tet4 => tet4_nedge
  | Tet10 => tet10_nedge
  | Tet20 => tet20_nedge
  | Hex8 => hex8_nedge
  | Hex20 => hex20_nedge
  | Hex32 => hex32_nedge
  end.

(* src/shapes/enums.rs:404-432 GeoKind::nface *)
Definition kind_nface (k : geokind) : nat :=
  match k with
  | Lin2 => lin2_nface
  | Lin3 => lin3_nface
  | Lin4 => lin4_nface
  | Lin5 => lin5_nface
  | Tri3 => tri3_nface
  | Tri6 => tri6_nface
  | Tri10 => tri10_nface
  | Tri15 => tri15_nface
  | Qua4 => qua4_nface
  | Qua8 => qua8_nface
  | Qua9 => qua9_nface
  | Qua12 => qua12_nface
  | Qua16 => qua16_nface
  | Qua17 => qua17_nface
  | Tet4 => tet4_nface
  | Tet10 => tet10_nface
  | Tet20 => tet20_nface
  | Hex8 => hex8_nface
  | Hex20 => hex20_nface
  | Hex32 => hex32_nface
  end.

(* src/shapes/enums.rs:435-463 GeoKind::edge_nnode *)
Definition kind_edge_nnode (k : geokind) : nat :=
  match k with
  | Lin2 => lin2_edge_nnode
  | Lin3 => lin3_edge_nnode
  | Lin4 => lin4_edge_nnode
  | Lin5 => lin5_edge_nnode
  | Tri3 => tri3_edge_nnode
  | Tri6 => tri6_edge_nnode
  | Tri10 => tri10_edge_nnode
  | Tri15 => tri15_edge_nnode
  | Qua4 => qua4_edge_nnode
  | Qua8 => qua8_edge_nnode
  | Qua9 => qua9_edge_nnode
  | Qua12 => qua12_edge_nnode
  | Qua16 => qua16_edge_nnode
  | Qua17 => qua17_edge_nnode
  | Tet4 => tet4_edge_nnode
  | Tet10 => tet10_edge_nnode
  | Tet20 => tet20_edge_nnode
  | Hex8 => hex8_edge_nnode
  | Hex20 => hex20_edge_nnode
  | Hex32 => hex32_edge_nnode
  end.

(* src/shapes/enums.rs:466-494 GeoKind::face_nnode *)
Definition kind_face_nnode (k : geokind) : nat :=
  match k with
  | Lin2 => lin2_face_nnode
  | Lin3 => lin3_face_nnode
  | Lin4 => lin4_face_nnode
  | Lin5 => lin5_face_nnode
  | Tri3 => tri3_face_nnode
  | Tri6 => tri6_face_nnode
  | Tri10 => tri10_face_nnode
  | Tri15 => tri15_face_nnode
  | Qua4 => qua4_face_nnode
  | Qua8 => qua8_face_nnode
  | Qua9 => qua9_face_nnode
  | Qua12 => qua12_face_nnode
  | Qua16 => qua16_face_nnode
  | Qua17 => qua17_face_nnode
  | Tet4 => tet4_face_nnode
  | Tet10 => tet10_face_nnode
  | Tet20 => tet20_face_nnode
  | Hex8 => hex8_face_nnode
  | Hex20 => hex20_face_nnode
  | Hex32 => hex32_face_nnode
  end.

(* src/shapes/enums.rs:497-525 GeoKind::face_nedge *)
Definition kind_face_nedge (k : geokind) : nat :=
  match k with
  | Lin2 => lin2_face_nedge
  | Lin3 => lin3_face_nedge
  | Lin4 => lin4_face_nedge
  | Lin5 => lin5_face_nedge
  | Tri3 => tri3_face_nedge
  | Tri6 => tri6_face_nedge
  | Tri10 => tri10_face_nedge
  | Tri15 => tri15_face_nedge
  | Qua4 => qua4_face_nedge
  | Qua8 => qua8_face_nedge
  | Qua9 => qua9_face_nedge
  | Qua12 => qua12_face_nedge
  | Qua16 => qua16_face_nedge
  | Qua17 => qua17_face_nedge
  | Tet4 => tet4_face_nedge
  | Tet10 => tet10_face_nedge
  | Tet20 => tet20_face_nedge
  | Hex8 => hex8_face_nedge
  | Hex20 => hex20_face_nedge
  | Hex32 => hex32_face_nedge
  end.

(* src/shapes/enums.rs:528-556 GeoKind::edge_kind *)
Definition kind_edge_kind (k : geokind) : option geokind :=
  match k with
  | Lin2 => None
  | Lin3 => None
  | Lin4 => None
  | Lin5 => None
  | Tri3 => Some Lin2
  | Tri6 => Some Lin3
  | Tri10 => Some Lin4
  | Tri15 => Some Lin5
  | Qua4 => Some Lin2
  | Qua8 => Some Lin3
  | Qua9 => Some Lin3
  | Qua12 => Some Lin4
  | Qua16 => Some Lin4
  | Qua17 => Some Lin5
  | Tet4 => Some Lin2
  | Tet10 => Some Lin3
  | Tet20 => Some Lin4
  | Hex8 => Some Lin2
  | Hex20 => Some Lin3
  | Hex32 => Some Lin4
  end.

(* src/shapes/enums.rs:559-587 GeoKind::face_kind *)
Definition kind_face_kind (k : geokind) : option geokind :=
  match k with
  | Lin2 => None
  | Lin3 => None
  | Lin4 => None
  | Lin5 => None
  | Tri3 => None
  | Tri6 => None
  | Tri10 => None
  | Tri15 => None
  | Qua4 => None
  | Qua8 => None
  | Qua9 => None
  | Qua12 => None
  | Qua16 => None
  | Qua17 => None
  | Tet4 => Some Tri3
  | Tet10 => Some Tri6
  | Tet20 => Some Tri10
  | Hex8 => Some Qua4
  | Hex20 => Some Qua8
  | Hex32 => Some Qua12
  end.

(* src/shapes/enums.rs:590-618 GeoKind::lower_order *)
Definition kind_lower_order (k : geokind) : option geokind :=
  match k with
  | Lin2 => None
  | Lin3 => Some Lin2
  | Lin4 => None
  | Lin5 => Some Lin3
  | Tri3 => None
  | Tri6 => Some Tri3
  | Tri10 => None
  | Tri15 => Some Tri6
  | Qua4 => None
  | Qua8 => Some Qua4
  | Qua9 => Some Qua4
  | Qua12 => None
  | Qua16 => None
  | Qua17 => Some Qua9
  | Tet4 => None
  | Tet10 => Some Tet4
  | Tet20 => None
  | Hex8 => None
  | Hex20 => Some Hex8
  | Hex32 => None
  end.

(* src/shapes/enums.rs:683-711 GeoKind::edge_node_id (total: indices out of range give 0, where the code panics) *)
Definition edge_node_id (k : geokind) (e i : nat) : nat :=
  match k with
  | Lin2 => 0
  | Lin3 => 0
  | Lin4 => 0
  | Lin5 => 0
  | Tri3 => nth i (nth e tri3_edge_node_ids []) 0
  | Tri6 => nth i (nth e tri6_edge_node_ids []) 0
  | Tri10 => nth i (nth e tri10_edge_node_ids []) 0
  | Tri15 => nth i (nth e tri15_edge_node_ids []) 0
  | Qua4 => nth i (nth e qua4_edge_node_ids []) 0
  | Qua8 => nth i (nth e qua8_edge_node_ids []) 0
  | Qua9 => nth i (nth e qua9_edge_node_ids []) 0
  | Qua12 => nth i (nth e qua12_edge_node_ids []) 0
  | Qua16 => nth i (nth e qua16_edge_node_ids []) 0
  | Qua17 => nth i (nth e qua17_edge_node_ids []) 0
  | Tet4 => nth i (nth e tet4_edge_node_ids []) 0
  | Tet10 => nth i (nth e tet10_edge_node_ids []) 0
  | Tet20 => nth i (nth e tet20_edge_node_ids []) 0
  | Hex8 => nth i (nth e hex8_edge_node_ids []) 0
  | Hex20 => nth i (nth e hex20_edge_node_ids []) 0
  | Hex32 => nth i (nth e hex32_edge_node_ids []) 0
  end.

(* src/shapes/enums.rs:776-804 GeoKind::edge_node_id_inward (total: indices out of range give 0, where the code panics) *)
Definition edge_node_id_inward (k : geokind) (e i : nat) : nat :=
  match k with
  | Lin2 => 0
  | Lin3 => 0
  | Lin4 => 0
  | Lin5 => 0
  | Tri3 => nth i (nth e tri3_edge_node_ids_inward []) 0
  | Tri6 => nth i (nth e tri6_edge_node_ids_inward []) 0
  | Tri10 => nth i (nth e tri10_edge_node_ids_inward []) 0
  | Tri15 => nth i (nth e tri15_edge_node_ids_inward []) 0
  | Qua4 => nth i (nth e qua4_edge_node_ids_inward []) 0
  | Qua8 => nth i (nth e qua8_edge_node_ids_inward []) 0
  | Qua9 => nth i (nth e qua9_edge_node_ids_inward []) 0
  | Qua12 => nth i (nth e qua12_edge_node_ids_inward []) 0
  | Qua16 => nth i (nth e qua16_edge_node_ids_inward []) 0
  | Qua17 => nth i (nth e qua17_edge_node_ids_inward []) 0
  | Tet4 => nth i (nth e tet4_edge_node_ids []) 0
  | Tet10 => nth i (nth e tet10_edge_node_ids []) 0
  | Tet20 => nth i (nth e tet20_edge_node_ids []) 0
  | Hex8 => nth i (nth e hex8_edge_node_ids []) 0
  | Hex20 => nth i (nth e hex20_edge_node_ids []) 0
  | Hex32 => nth i (nth e hex32_edge_node_ids []) 0
  end.

(* src/shapes/enums.rs:847-875 GeoKind::face_node_id (total: indices out of range give 0, where the code panics) *)
Definition face_node_id (k : geokind) (f i : nat) : nat :=
  match k with
  | Lin2 => 0
  | Lin3 => 0
  | Lin4 => 0
  | Lin5 => 0
  | Tri3 => 0
  | Tri6 => 0
  | Tri10 => 0
  | Tri15 => 0
  | Qua4 => 0
  | Qua8 => 0
  | Qua9 => 0
  | Qua12 => 0
  | Qua16 => 0
  | Qua17 => 0
  | Tet4 => nth i (nth f tet4_face_node_ids []) 0
  | Tet10 => nth i (nth f tet10_face_node_ids []) 0
  | Tet20 => nth i (nth f tet20_face_node_ids []) 0
  | Hex8 => nth i (nth f hex8_face_node_ids []) 0
  | Hex20 => nth i (nth f hex20_face_node_ids []) 0
  | Hex32 => nth i (nth f hex32_face_node_ids []) 0
  end.

(* src/shapes/enums.rs:925-953 GeoKind::face_edge_node_id (total: indices out of range give 0, where the code panics) *)
Definition face_edge_node_id (k : geokind) (f k' i : nat) : nat :=
  match k with
  | Lin2 => 0
  | Lin3 => 0
  | Lin4 => 0
  | Lin5 => 0
  | Tri3 => 0
  | Tri6 => 0
  | Tri10 => 0
  | Tri15 => 0
  | Qua4 => 0
  | Qua8 => 0
  | Qua9 => 0
  | Qua12 => 0
  | Qua16 => 0
  | Qua17 => 0
  | Tet4 => nth i (nth k' (nth f tet4_face_edge_node_ids []) []) 0
  | Tet10 => nth i (nth k' (nth f tet10_face_edge_node_ids []) []) 0
  | Tet20 => nth i (nth k' (nth f tet20_face_edge_node_ids []) []) 0
  | Hex8 => nth i (nth k' (nth f hex8_face_edge_node_ids []) []) 0
  | Hex20 => nth i (nth k' (nth f hex20_face_edge_node_ids []) []) 0
  | Hex32 => nth i (nth k' (nth f hex32_face_edge_node_ids []) []) 0
  end.

(* src/shapes/enums.rs:956-984 GeoKind::n_interior_nodes *)
Definition kind_n_interior_nodes (k : geokind) : nat :=
  match k with
  | Lin2 => 0
  | Lin3 => lin3_n_interior_node
  | Lin4 => lin4_n_interior_node
  | Lin5 => lin5_n_interior_node
  | Tri3 => 0
  | Tri6 => 0
  | Tri10 => tri10_n_interior_node
  | Tri15 => tri15_n_interior_node
  | Qua4 => 0
  | Qua8 => 0
  | Qua9 => qua9_n_interior_node
  | Qua12 => 0
  | Qua16 => qua16_n_interior_node
  | Qua17 => qua17_n_interior_node
  | Tet4 => 0
  | Tet10 => 0
  | Tet20 => 0
  | Hex8 => 0
  | Hex20 => 0
  | Hex32 => 0
  end.

(* src/shapes/enums.rs:990-1018 GeoKind::interior_node (total: indices out of range give 0, where the code panics) *)
Definition interior_node (k : geokind) (i : nat) : nat :=
  match k with
  | Lin2 => 0
  | Lin3 => nth i lin3_interior_nodes 0
  | Lin4 => nth i lin4_interior_nodes 0
  | Lin5 => nth i lin5_interior_nodes 0
  | Tri3 => 0
  | Tri6 => 0
  | Tri10 => nth i tri10_interior_nodes 0
  | Tri15 => nth i tri15_interior_nodes 0
  | Qua4 => 0
  | Qua8 => 0
  | Qua9 => nth i qua9_interior_nodes 0
  | Qua12 => 0
  | Qua16 => nth i qua16_interior_nodes 0
  | Qua17 => nth i qua17_interior_nodes 0
  | Tet4 => 0
  | Tet10 => 0
  | Tet20 => 0
  | Hex8 => 0
  | Hex20 => 0
  | Hex32 => 0
  end.

(* src/shapes/enums.rs:1049-1077 GeoKind::reference_coords (total: out of range gives [], where the code panics) *)
Definition reference_coords (k : geokind) (m : nat) : list Q :=
  match k with
  | Lin2 => nth m lin2_node_reference_coords []
  | Lin3 => nth m lin3_node_reference_coords []
  | Lin4 => nth m lin4_node_reference_coords []
  | Lin5 => nth m lin5_node_reference_coords []
  | Tri3 => nth m tri3_node_reference_coords []
  | Tri6 => nth m tri6_node_reference_coords []
  | Tri10 => nth m tri10_node_reference_coords []
  | Tri15 => nth m tri15_node_reference_coords []
  | Qua4 => nth m qua4_node_reference_coords []
  | Qua8 => nth m qua8_node_reference_coords []
  | Qua9 => nth m qua9_node_reference_coords []
  | Qua12 => nth m qua12_node_reference_coords []
  | Qua16 => nth m qua16_node_reference_coords []
  | Qua17 => nth m qua17_node_reference_coords []
  | Tet4 => nth m tet4_node_reference_coords []
  | Tet10 => nth m tet10_node_reference_coords []
  | Tet20 => nth m tet20_node_reference_coords []
  | Hex8 => nth m hex8_node_reference_coords []
  | Hex20 => nth m hex20_node_reference_coords []
  | Hex32 => nth m hex32_node_reference_coords []
  end.

(* src/shapes/enums.rs:1092-1120 GeoKind::ksi_min_ksi_del *)
Definition ksi_min_ksi_del (k : geokind) : Q * Q :=
  match k with
  | Lin2 => (((-1) # 1), (2 # 1))%Q
  | Lin3 => (((-1) # 1), (2 # 1))%Q
  | Lin4 => (((-1) # 1), (2 # 1))%Q
  | Lin5 => (((-1) # 1), (2 # 1))%Q
  | Tri3 => ((0 # 1), (1 # 1))%Q
  | Tri6 => ((0 # 1), (1 # 1))%Q
  | Tri10 => ((0 # 1), (1 # 1))%Q
  | Tri15 => ((0 # 1), (1 # 1))%Q
  | Qua4 => (((-1) # 1), (2 # 1))%Q
  | Qua8 => (((-1) # 1), (2 # 1))%Q
  | Qua9 => (((-1) # 1), (2 # 1))%Q
  | Qua12 => (((-1) # 1), (2 # 1))%Q
  | Qua16 => (((-1) # 1), (2 # 1))%Q
  | Qua17 => (((-1) # 1), (2 # 1))%Q
  | Tet4 => ((0 # 1), (1 # 1))%Q
  | Tet10 => ((0 # 1), (1 # 1))%Q
  | Tet20 => ((0 # 1), (1 # 1))%Q
  | Hex8 => (((-1) # 1), (2 # 1))%Q
  | Hex20 => (((-1) # 1), (2 # 1))%Q
  | Hex32 => (((-1) # 1), (2 # 1))%Q
  end.

(* src/shapes/enums.rs:1124-1152 GeoKind::functions, first component *)
Definition kind_interp (k : geokind) : list Expr.expr :=
  match k with
  | Lin2 => lin2_interp
  | Lin3 => lin3_interp
  | Lin4 => lin4_interp
  | Lin5 => lin5_interp
  | Tri3 => tri3_interp
  | Tri6 => tri6_interp
  | Tri10 => tri10_interp
  | Tri15 => tri15_interp
  | Qua4 => qua4_interp
  | Qua8 => qua8_interp
  | Qua9 => qua9_interp
  | Qua12 => qua12_interp
  | Qua16 => qua16_interp
  | Qua17 => qua17_interp
  | Tet4 => tet4_interp
  | Tet10 => tet10_interp
  | Tet20 => tet20_interp
  | Hex8 => hex8_interp
  | Hex20 => hex20_interp
  | Hex32 => hex32_interp
  end.

(* src/shapes/enums.rs:1124-1152 GeoKind::functions, second component *)
Definition kind_deriv (k : geokind) : list (list Expr.expr) :=
  match k with
  | Lin2 => lin2_deriv
  | Lin3 => lin3_deriv
  | Lin4 => lin4_deriv
  | Lin5 => lin5_deriv
  | Tri3 => tri3_deriv
  | Tri6 => tri6_deriv
  | Tri10 => tri10_deriv
  | Tri15 => tri15_deriv
  | Qua4 => qua4_deriv
  | Qua8 => qua8_deriv
  | Qua9 => qua9_deriv
  | Qua12 => qua12_deriv
  | Qua16 => qua16_deriv
  | Qua17 => qua17_deriv
  | Tet4 => tet4_deriv
  | Tet10 => tet10_deriv
  | Tet20 => tet20_deriv
  | Hex8 => hex8_deriv
  | Hex20 => hex20_deriv
  | Hex32 => hex32_deriv
  end.

(* src/shapes/enums.rs:1155-1183 GeoKind::is_lin *)
Definition is_lin (k : geokind) : bool :=
  match k with
  | Lin2 => true
  | Lin3 => true
  | Lin4 => true
  | Lin5 => true
  | Tri3 => false
  | Tri6 => false
  | Tri10 => false
  | Tri15 => false
  | Qua4 => false
  | Qua8 => false
  | Qua9 => false
  | Qua12 => false
  | Qua16 => false
  | Qua17 => false
  | Tet4 => false
  | Tet10 => false
  | Tet20 => false
  | Hex8 => false
  | Hex20 => false
  | Hex32 => false
  end.

(* src/shapes/enums.rs:1186-1214 GeoKind::is_tri_or_tet *)
Definition is_tri_or_tet (k : geokind) : bool :=
  match k with
  | Lin2 => false
  | Lin3 => false
  | Lin4 => false
  | Lin5 => false
  | Tri3 => true
  | Tri6 => true
  | Tri10 => true
  | Tri15 => true
  | Qua4 => false
  | Qua8 => false
  | Qua9 => false
  | Qua12 => false
  | Qua16 => false
  | Qua17 => false
  | Tet4 => true
  | Tet10 => true
  | Tet20 => true
  | Hex8 => false
  | Hex20 => false
  | Hex32 => false
  end.

(* src/shapes/enums.rs:1217-1245 GeoKind::is_qua_or_hex *)
Definition is_qua_or_hex (k : geokind) : bool :=
  match k with
  | Lin2 => false
  | Lin3 => false
  | Lin4 => false
  | Lin5 => false
  | Tri3 => false
  | Tri6 => false
  | Tri10 => false
  | Tri15 => false
  | Qua4 => true
  | Qua8 => true
  | Qua9 => true
  | Qua12 => true
  | Qua16 => true
  | Qua17 => true
  | Tet4 => false
  | Tet10 => false
  | Tet20 => false
  | Hex8 => true
  | Hex20 => true
  | Hex32 => true
  end.

(* src/shapes/enums.rs:1248-1288 GeoKind::vtk_type *)
Definition vtk_type (k : geokind) : option nat :=
  match k with
  | Lin2 => Some 3
  | Lin3 => Some 21
  | Lin4 => Some 35
  | Lin5 => None
  | Tri3 => Some 5
  | Tri6 => Some 22
  | Tri10 => None
  | Tri15 => None
  | Qua4 => Some 9
  | Qua8 => Some 23
  | Qua9 => Some 28
  | Qua12 => None
  | Qua16 => None
  | Qua17 => None
  | Tet4 => Some 10
  | Tet10 => Some 24
  | Tet20 => None
  | Hex8 => Some 12
  | Hex20 => Some 25
  | Hex32 => None
  end.

(* src/shapes/enums.rs:1296-1324 GeoKind::triangulate_ntriangle *)
Definition triangulate_ntriangle (k : geokind) : nat :=
  match k with
  | Lin2 => 0
  | Lin3 => 0
  | Lin4 => 0
  | Lin5 => 0
  | Tri3 => tri3_triangulate_ntriangle
  | Tri6 => tri6_triangulate_ntriangle
  | Tri10 => tri10_triangulate_ntriangle
  | Tri15 => tri15_triangulate_ntriangle
  | Qua4 => qua4_triangulate_ntriangle
  | Qua8 => qua8_triangulate_ntriangle
  | Qua9 => qua9_triangulate_ntriangle
  | Qua12 => qua12_triangulate_ntriangle
  | Qua16 => qua16_triangulate_ntriangle
  | Qua17 => qua17_triangulate_ntriangle
  | Tet4 => 0
  | Tet10 => 0
  | Tet20 => 0
  | Hex8 => 0
  | Hex20 => 0
  | Hex32 => 0
  end.

(* src/shapes/enums.rs:1337-1366 GeoKind::triangulate_triangle_nodes (None stands for UNAVAILABLE = usize::MAX and for the out-of-range panic) *)
Definition triangulate_triangle_nodes (k : geokind) (t i : nat) : option nat :=
  match k with
  | Lin2 => None
  | Lin3 => None
  | Lin4 => None
  | Lin5 => None
  | Tri3 => match nth_error tri3_triangulate_triangles t with Some w => nth_error w i | None => None end
  | Tri6 => match nth_error tri6_triangulate_triangles t with Some w => nth_error w i | None => None end
  | Tri10 => match nth_error tri10_triangulate_triangles t with Some w => nth_error w i | None => None end
  | Tri15 => match nth_error tri15_triangulate_triangles t with Some w => nth_error w i | None => None end
  | Qua4 => match nth_error qua4_triangulate_triangles t with Some w => nth_error w i | None => None end
  | Qua8 => match nth_error qua8_triangulate_triangles t with Some w => nth_error w i | None => None end
  | Qua9 => match nth_error qua9_triangulate_triangles t with Some w => nth_error w i | None => None end
  | Qua12 => match nth_error qua12_triangulate_triangles t with Some w => nth_error w i | None => None end
  | Qua16 => match nth_error qua16_triangulate_triangles t with Some w => nth_error w i | None => None end
  | Qua17 => match nth_error qua17_triangulate_triangles t with Some w => nth_error w i | None => None end
  | Tet4 => None
  | Tet10 => None
  | Tet20 => None
  | Hex8 => None
  | Hex20 => None
  | Hex32 => None
  end.

(* src/shapes/enums.rs:1374-1402 GeoKind::triangulate_extra_nnode *)
Definition triangulate_extra_nnode (k : geokind) : nat :=
  match k with
  | Lin2 => 0
  | Lin3 => 0
  | Lin4 => 0
  | Lin5 => 0
  | Tri3 => 0
  | Tri6 => 0
  | Tri10 => 0
  | Tri15 => 0
  | Qua4 => 0
  | Qua8 => qua8_triangulate_extra_nnode
  | Qua9 => 0
  | Qua12 => qua12_triangulate_extra_nnode
  | Qua16 => 0
  | Qua17 => qua17_triangulate_extra_nnode
  | Tet4 => 0
  | Tet10 => 0
  | Tet20 => 0
  | Hex8 => 0
  | Hex20 => 0
  | Hex32 => 0
  end.

(* src/shapes/enums.rs:1435-1464 GeoKind::triangulate_extra_coords *)
Definition triangulate_extra_coords (k : geokind) (k' : nat) : list Q :=
  match k with
  | Lin2 => []
  | Lin3 => []
  | Lin4 => []
  | Lin5 => []
  | Tri3 => []
  | Tri6 => []
  | Tri10 => []
  | Tri15 => []
  | Qua4 => []
  | Qua8 => nth k' qua8_triangulate_extra_coords []
  | Qua9 => []
  | Qua12 => nth k' qua12_triangulate_extra_coords []
  | Qua16 => []
  | Qua17 => nth k' qua17_triangulate_extra_coords []
  | Tet4 => []
  | Tet10 => []
  | Tet20 => []
  | Hex8 => []
  | Hex20 => []
  | Hex32 => []
  end.

(* src/shapes/enums.rs:249-277 GeoKind::to_string *)
Definition kind_to_string (k : geokind) : string :=
  match k with
  | Lin2 => "lin2"
  | Lin3 => "lin3"
  | Lin4 => "lin4"
  | Lin5 => "lin5"
  | Tri3 => "tri3"
  | Tri6 => "tri6"
  | Tri10 => "tri10"
  | Tri15 => "tri15"
  | Qua4 => "qua4"
  | Qua8 => "qua8"
  | Qua9 => "qua9"
  | Qua12 => "qua12"
  | Qua16 => "qua16"
  | Qua17 => "qua17"
  | Tet4 => "tet4"
  | Tet10 => "tet10"
  | Tet20 => "tet20"
  | Hex8 => "hex8"
  | Hex20 => "hex20"
  | Hex32 => "hex32"
  end%string.

(* src/shapes/enums.rs:217-246 GeoKind::from; None is the Err *)
Definition kind_from (s : string) : option geokind :=
  if String.eqb s "lin2" then Some Lin2 else
  if String.eqb s "lin3" then Some Lin3 else
  if String.eqb s "lin4" then Some Lin4 else
  if String.eqb s "lin5" then Some Lin5 else
  if String.eqb s "tri3" then Some Tri3 else
  if String.eqb s "tri6" then Some Tri6 else
  if String.eqb s "tri10" then Some Tri10 else
  if String.eqb s "tri15" then Some Tri15 else
  if String.eqb s "qua4" then Some Qua4 else
  if String.eqb s "qua8" then Some Qua8 else
  if String.eqb s "qua9" then Some Qua9 else
  if String.eqb s "qua12" then Some Qua12 else
  if String.eqb s "qua16" then Some Qua16 else
  if String.eqb s "qua17" then Some Qua17 else
  if String.eqb s "tet4" then Some Tet4 else
  if String.eqb s "tet10" then Some Tet10 else
  if String.eqb s "tet20" then Some Tet20 else
  if String.eqb s "hex8" then Some Hex8 else
  if String.eqb s "hex20" then Some Hex20 else
  if String.eqb s "hex32" then Some Hex32 else
  None.

(* src/shapes/enums.rs:1467 GeoKind::VALUES *)
Definition kind_values : list geokind := [Lin2; Lin3; Lin4; Lin5; Tri3; Tri6; Tri10; Tri15; Qua4; Qua8; Qua9; Qua12; Qua16; Qua17; Tet4; Tet10; Tet20; Hex8; Hex20; Hex32].

(* src/shapes/enums.rs:1497 HEX_EDGE_TO_FACE *)
Definition hex_edge_to_face : list (list nat) := [[2; 4]; [1; 4]; [3; 4]; [0; 4]; [2; 5]; [1; 5]; [3; 5]; [0; 5]; [0; 2]; [1; 2]; [1; 3]; [0; 3]].

