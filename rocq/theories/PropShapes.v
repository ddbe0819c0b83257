(* Properties C34-C40 and C44: interpolation functions, numbering tables, names, triangulation. *)
From Coq Require Import Reals QArith Qreals String List Lia Lra Bool Arith.
From Verif Require Import Expr ShapesData Kind ShapesModel ShapesSpec ShapesProof ShapesTables ShapesShared.
Import ListNotations.
Local Open Scope R_scope.

(** C34: partition of unity, at every point of reference space *)
Theorem C34_partition_of_unity : forall k ksi, sum (calc_interp k ksi) = 1.
Proof. exact interp_sum. Qed.
Print Assumptions C34_partition_of_unity.
Example C34_ex : length (calc_interp Tri3 [1/3; 1/4]) = 3%nat /\ nth 0 (calc_interp Tri3 [1/3; 1/4]) 0 = 5/12.
Proof. split; [reflexivity|]. unfold calc_interp, env, Q2R; cbn; unfold Q2R; simpl; lra. Qed.

Theorem C34_derivatives_sum_to_zero : forall k ksi j, (j < kind_ndim k)%nat ->
  sum (map (fun row => nth j row 0) (calc_deriv k ksi)) = 0.
Proof. exact deriv_sum. Qed.
Print Assumptions C34_derivatives_sum_to_zero.
Example C34_deriv_ex : (2 < kind_ndim Hex32)%nat.
Proof. vm_compute; lia. Qed.

(** C35: Kronecker property and its consequence for calc_coords *)
Theorem C35_kronecker : forall k m n, (m < kind_nnode k)%nat -> (n < kind_nnode k)%nat ->
  nth m (calc_interp k (ref_coords k n)) 0 = if Nat.eqb m n then 1 else 0.
Proof. exact interp_at_node. Qed.
Print Assumptions C35_kronecker.
Example C35_ex : (16 < kind_nnode Qua17)%nat /\ (3 < kind_nnode Qua17)%nat.
Proof. vm_compute; lia. Qed.

Theorem C35_coords_at_node : forall k xxt n, (n < kind_nnode k)%nat ->
  Forall (fun row => List.length row = kind_nnode k) xxt ->
  calc_coords k xxt (ref_coords k n) = map (fun row => nth n row 0) xxt.
Proof. exact coords_at_node. Qed.
Print Assumptions C35_coords_at_node.
Example C35_coords_ex : Forall (fun row => List.length row = kind_nnode Tri3) [[0; 2; 1]; [0; 0; 3]].
Proof. repeat constructor. Qed.

(** C36: calc_deriv is the partial derivative of calc_interp *)
Theorem C36_derivative : forall k ksi m j,
  List.length ksi = kind_ndim k -> (m < kind_nnode k)%nat -> (j < kind_ndim k)%nat ->
  derivable_pt_lim (fun x => nth m (calc_interp k (set_coord ksi j x)) 0)
                   (nth j ksi 0) (nth j (nth m (calc_deriv k ksi) []) 0).
Proof. exact deriv_correct. Qed.
Print Assumptions C36_derivative.
Example C36_ex : List.length [1/2; -1/3; 1/5] = kind_ndim Hex20 /\ (19 < kind_nnode Hex20)%nat /\ (2 < kind_ndim Hex20)%nat.
Proof. vm_compute; lia. Qed.

(** C37: affine fields are reproduced *)
Theorem C37_affine_reproduction : forall k a0 a ksi,
  List.length a = kind_ndim k -> List.length ksi = kind_ndim k ->
  dot (calc_interp k ksi) (map (fun m => a0 + affine a (ref_coords k m)) (seq 0 (kind_nnode k)))
  = a0 + affine a ksi.
Proof. exact affine_reproduction. Qed.
Print Assumptions C37_affine_reproduction.
Example C37_ex : List.length [2; -1] = kind_ndim Qua9 /\ 5 + affine [2; -1] [1/2; 1/3] = 17/3.
Proof. split; [reflexivity|]. simpl. lra. Qed.

(** C38: conformity *)
Theorem C38_edge_conformity : forall k ek e z u,
  kind_edge_kind k = Some ek -> (e < kind_nedge k)%nat -> List.length u = kind_nnode k ->
  dot (calc_interp k (seg_point (ref_coords k (edge_node_id k e 0)) (ref_coords k (edge_node_id k e 1)) z)) u
  = dot (calc_interp ek [z]) (map (fun i => nth (edge_node_id k e i) u 0) (seq 0 (kind_edge_nnode k))).
Proof. exact edge_conform. Qed.
Print Assumptions C38_edge_conformity.

Theorem C38_face_conformity : forall k fk f r s u,
  kind_face_kind k = Some fk -> (f < kind_nface k)%nat -> List.length u = kind_nnode k ->
  dot (calc_interp k (face_point k f r s)) u
  = dot (calc_interp fk [r; s]) (map (fun i => nth (face_node_id k f i) u 0) (seq 0 (kind_nnode fk))).
Proof. exact face_conform. Qed.
Print Assumptions C38_face_conformity.

(* two cells (possibly of different kinds) sharing the nodes of an edge *)
Theorem C38_shared_edge : forall k1 k2 ek e1 e2 u1 u2 z,
  (kind_class k2 = CTri \/ kind_class k2 = CQua) ->
  kind_edge_kind k1 = Some ek -> kind_edge_kind k2 = Some ek ->
  (e1 < kind_nedge k1)%nat -> (e2 < kind_nedge k2)%nat ->
  List.length u1 = kind_nnode k1 -> List.length u2 = kind_nnode k2 ->
  (forall i, (i < kind_nnode ek)%nat ->
     nth (edge_node_id k1 e1 i) u1 0 = nth (edge_node_id_inward k2 e2 i) u2 0) ->
  dot (calc_interp k1 (seg_point (ref_coords k1 (edge_node_id k1 e1 0)) (ref_coords k1 (edge_node_id k1 e1 1)) z)) u1
  = dot (calc_interp k2 (seg_point (ref_coords k2 (edge_node_id k2 e2 0)) (ref_coords k2 (edge_node_id k2 e2 1)) (- z))) u2.
Proof. exact shared_edge. Qed.
Print Assumptions C38_shared_edge.
(* a triangle and a quadrilateral sharing an edge: nodes (1,0) of the Tri3 are nodes (3,0) of the Qua4 *)
Example C38_shared_edge_ex : forall i, (i < kind_nnode Lin2)%nat ->
  nth (edge_node_id Tri3 0 i) [7; 9; 4] 0 = nth (edge_node_id_inward Qua4 3 i) [7; 1; 2; 9] 0.
Proof. intros i Hi. change (kind_nnode Lin2) with 2%nat in Hi. destruct i as [|[|i]]; [reflexivity|reflexivity|lia]. Qed.

(* two 3D cells sharing the nodes of a face, under any of the symmetries of the face *)
Theorem C38_shared_face : forall k1 k2 fk f1 f2 c u1 u2 r s,
  kind_face_kind k1 = Some fk -> kind_face_kind k2 = Some fk ->
  (f1 < kind_nface k1)%nat -> (f2 < kind_nface k2)%nat ->
  In c (symmetries fk) ->
  List.length u1 = kind_nnode k1 -> List.length u2 = kind_nnode k2 ->
  (forall i, (i < kind_nnode fk)%nat ->
     nth (face_node_id k1 f1 i) u1 0 = nth (face_node_id k2 f2 (sym_node fk c i)) u2 0) ->
  dot (calc_interp k1 (face_point k1 f1 r s)) u1 =
  dot (calc_interp k2 (face_point k2 f2 (nth 0 (sym_point fk c r s) 0) (nth 1 (sym_point fk c r s) 0))) u2.
Proof. exact shared_face. Qed.
Print Assumptions C38_shared_face.
(* face 1 (x=+1) of one Hex8 against face 0 (x=-1) of the next one *)
Example C38_shared_face_ex : In [0; 3; 2; 1]%nat (symmetries Qua4) /\
  forall i, (i < kind_nnode Qua4)%nat ->
   nth (face_node_id Hex8 1 i) [10; 1; 2; 13; 14; 5; 6; 17] 0 =
   nth (face_node_id Hex8 0 (sym_node Qua4 [0; 3; 2; 1]%nat i)) [1; 20; 21; 2; 5; 22; 23; 6] 0.
Proof.
  split; [simpl; tauto|]. intros i Hi. change (kind_nnode Qua4) with 4%nat in Hi.
  destruct i as [|[|[|[|i]]]]; [reflexivity|reflexivity|reflexivity|reflexivity|lia].
Qed.

(* the node permutation used above is the action of the symmetry on the nodes *)
Theorem C38_symmetry_acts_on_nodes : forall k c i, In c (symmetries k) -> (i < kind_nnode k)%nat ->
  ref_coords k (sym_node k c i) = sym_point k c (nth 0 (ref_coords k i) 0) (nth 1 (ref_coords k i) 0).
Proof. exact sym_node_position. Qed.
Print Assumptions C38_symmetry_acts_on_nodes.
Example C38_symmetry_ex : sym_node Qua8 [1; 2; 3; 0]%nat 4 = 5%nat.
Proof. reflexivity. Qed.

(** C39: numbering tables *)
Theorem C39_edge_nodes_on_edge : forall k ek e i j,
  kind_edge_kind k = Some ek -> (e < kind_nedge k)%nat -> (i < kind_edge_nnode k)%nat -> (j < kind_ndim k)%nat ->
  (qc j (reference_coords k (edge_node_id k e i)) ==
       (1 - qc 0 (reference_coords ek i)) / 2 * qc j (reference_coords k (edge_node_id k e 0)) +
       (1 + qc 0 (reference_coords ek i)) / 2 * qc j (reference_coords k (edge_node_id k e 1)))%Q.
Proof. exact edge_position. Qed.
Print Assumptions C39_edge_nodes_on_edge.

Theorem C39_inward_is_reverse : forall k ek e i,
  (kind_class k = CTri \/ kind_class k = CQua) -> kind_edge_kind k = Some ek ->
  (e < kind_nedge k)%nat -> (i < kind_edge_nnode k)%nat ->
  exists i', (i' < kind_edge_nnode k)%nat /\ edge_node_id_inward k e i = edge_node_id k e i' /\
    (qc 0 (reference_coords ek i') == - qc 0 (reference_coords ek i))%Q.
Proof. exact inward_reverse. Qed.
Print Assumptions C39_inward_is_reverse.

Theorem C39_face_edges : forall k fk, kind_face_kind k = Some fk ->
  kind_nedge fk = kind_face_nedge k /\ kind_edge_nnode fk = kind_edge_nnode k /\ kind_nnode fk = kind_face_nnode k /\
  kind_edge_kind fk = kind_edge_kind k /\
  forall f e i, (f < kind_nface k)%nat -> (e < kind_face_nedge k)%nat -> (i < kind_edge_nnode k)%nat ->
    face_edge_node_id k f e i = face_node_id k f (edge_node_id_inward fk e i).
Proof. exact face_edges. Qed.
Print Assumptions C39_face_edges.

Theorem C39_interior_nodes : forall k m, (m < kind_nnode k)%nat ->
  (exists i, (i < kind_n_interior_nodes k)%nat /\ interior_node k i = m) <->
  ~ (match kind_ndim k with
     | 1%nat => (m < 2)%nat
     | 2%nat => exists e i, (e < kind_nedge k)%nat /\ (i < kind_edge_nnode k)%nat /\ edge_node_id k e i = m
     | _ => exists f i, (f < kind_nface k)%nat /\ (i < kind_face_nnode k)%nat /\ face_node_id k f i = m
     end).
Proof. exact interior_iff. Qed.
Print Assumptions C39_interior_nodes.

Theorem C39_lower_order_nodes_first : forall k l, kind_lower_order k = Some l ->
  kind_class l = kind_class k /\ (kind_nnode l < kind_nnode k)%nat /\
  forall m j, (m < kind_nnode l)%nat -> (j < kind_ndim k)%nat ->
     (qc j (reference_coords k m) == qc j (reference_coords l m))%Q.
Proof. exact lower_order. Qed.
Print Assumptions C39_lower_order_nodes_first.

Theorem C39_entries_in_range : forall k,
  (forall e i, (e < kind_nedge k)%nat -> (i < kind_edge_nnode k)%nat -> (edge_node_id k e i < kind_nnode k)%nat) /\
  (forall f i, (f < kind_nface k)%nat -> (i < kind_face_nnode k)%nat -> (face_node_id k f i < kind_nnode k)%nat) /\
  (forall e, (e < kind_nedge k)%nat -> NoDup (map (edge_node_id k e) (seq 0 (kind_edge_nnode k)))) /\
  (forall f, (f < kind_nface k)%nat -> NoDup (map (face_node_id k f) (seq 0 (kind_face_nnode k)))).
Proof.
  exact (fun k => conj (edge_node_lt k) (conj (face_node_lt k) (conj (edge_nodes_distinct k) (face_nodes_distinct k)))).
Qed.
Print Assumptions C39_entries_in_range.

(* the faces of a cell bound it: every directed face edge occurs once and once reversed *)
Theorem C39_faces_closed : forall k, NoDup (face_directed_edges k) /\
  forall a b, In (a, b) (face_directed_edges k) -> In (b, a) (face_directed_edges k).
Proof. exact face_closed. Qed.
Print Assumptions C39_faces_closed.

(* right-handed normals of edges (2D) and faces (3D) point away from the cell *)
Theorem C39_edge_outward : forall k e, kind_ndim k = 2%nat -> (e < kind_nedge k)%nat ->
  (qarea2 (reference_coords k (edge_node_id k e 0)) (reference_coords k (edge_node_id k e 1)) (centroid k) < 0)%Q.
Proof. exact edge_outward. Qed.
Print Assumptions C39_edge_outward.
Theorem C39_face_outward : forall k f, kind_ndim k = 3%nat -> (f < kind_nface k)%nat ->
  (qvolume6 (reference_coords k (face_node_id k f 0)) (reference_coords k (face_node_id k f 1))
     (reference_coords k (face_node_id k f 2)) (centroid k) < 0)%Q.
Proof. exact face_outward. Qed.
Print Assumptions C39_face_outward.

Theorem C39_hex_edge_to_face : forall k e f,
  kind_class k = CHex -> (e < kind_nedge k)%nat -> (f < kind_nface k)%nat ->
  (In f (nth e hex_edge_to_face []) <->
   forall i, (i < kind_edge_nnode k)%nat -> exists n, (n < kind_face_nnode k)%nat /\ face_node_id k f n = edge_node_id k e i).
Proof. exact hex_edge_face. Qed.
Print Assumptions C39_hex_edge_to_face.
Example C39_ex : kind_face_kind Hex32 = Some Qua12 /\ kind_lower_order Tri15 = Some Tri6 /\
  (interior_node Tri15 0 = 12)%nat /\ List.length (face_directed_edges Hex20) = 24%nat /\
  kind_class Hex20 = CHex /\ (11 < kind_nedge Hex20)%nat /\ (5 < kind_nface Hex20)%nat.
Proof. repeat split; try reflexivity; vm_compute; lia. Qed.

(** C40: names *)
Theorem C40_name_round_trip : forall k, kind_from (kind_to_string k) = Some k.
Proof. exact kind_from_to_string. Qed.
Print Assumptions C40_name_round_trip.
Theorem C40_only_names_accepted : forall s k, kind_from s = Some k -> s = kind_to_string k.
Proof. exact kind_from_inv. Qed.
Print Assumptions C40_only_names_accepted.
Theorem C40_values_complete : forall k, In k kind_values.
Proof. exact kind_values_complete. Qed.
Print Assumptions C40_values_complete.
Example C40_ex : kind_from "tri15"%string = Some Tri15 /\ kind_from "Tri15"%string = None /\ kind_from "tri150"%string = None.
Proof. repeat split. Qed.

(** C44: triangulation of a cell *)
Theorem C44_triangulation_area : forall k xxt i j,
  (kind_class k = CTri \/ kind_class k = CQua) ->
  Forall (fun row => List.length row = kind_nnode k) xxt ->
  (i < List.length xxt)%nat -> (j < List.length xxt)%nat ->
  exists tris, triangulate k xxt = Some tris /\
    List.length tris = triangulate_ntriangle k /\
    Forall (fun tri => exists a b c, tri = [Some a; Some b; Some c]) tris /\
    sum (map (listed_area i j) tris) =
    shoelace (map (fun m => (nth m (nth i xxt []) 0, nth m (nth j xxt []) 0)) (boundary_loop k)).
Proof. exact triangulate_area. Qed.
Print Assumptions C44_triangulation_area.
Example C44_ex : boundary_loop Qua8 = [0; 4; 1; 5; 2; 6; 3; 7]%nat /\
  shoelace [(0, 0); (2, 0); (2, 3); (0, 3)] = 6.
Proof. split; [reflexivity|]. unfold shoelace. simpl. lra. Qed.

Theorem C44_triangles_positive : forall k t,
  (kind_class k = CTri \/ kind_class k = CQua) -> (t < triangulate_ntriangle k)%nat ->
  (0 < qarea2 (qnode k (tnode k t 0)) (qnode k (tnode k t 1)) (qnode k (tnode k t 2)))%Q.
Proof. exact tri_positive. Qed.
Print Assumptions C44_triangles_positive.

Theorem C44_triangles_match_edge_to_edge : forall k,
  (kind_class k = CTri \/ kind_class k = CQua) ->
  NoDup (directed_edges k) /\
  (forall a b, In (a, b) (loop_edges (boundary_loop k)) -> In (a, b) (directed_edges k) /\ ~ In (b, a) (directed_edges k)) /\
  (forall a b, In (a, b) (directed_edges k) -> In (a, b) (loop_edges (boundary_loop k)) \/ In (b, a) (directed_edges k)) /\
  (forall m, (m < kind_nnode k)%nat -> exists b, In (m, b) (directed_edges k)).
Proof. exact tri_manifold. Qed.
Print Assumptions C44_triangles_match_edge_to_edge.
Example C44_ex2 : (17 < triangulate_ntriangle Qua12)%nat /\ List.length (directed_edges Qua12) = 54%nat.
Proof. split; [vm_compute; lia|reflexivity]. Qed.
