(* Properties of the conversion of meshes, Mesh::convert_2d (/repo/src/mesh/convert_2d.rs): C48, C69, C70.
   [node_id m c a p]: node a of cell c is the point p;  [shares m c e n ne]: the local edge e of cell c and
   the local edge ne of another cell n have the same end points;  [image m c ksi]: the point of the cell
   at the reference coordinates ksi.  The iteration order of the hash map of edges is arbitrary. *)
From Coq Require Import String Reals QArith List Arith Bool ZArith Lia Lra Permutation.
From Verif Require Import Base Kind ShapesModel MeshModel MeshQuerySpec TopoModel TopoSpec ConvertModel ConvertSpec ConvertProof5 ConvertProof6 ConvertProof7 ConvertProof8.
Import ListNotations.
Local Open Scope list_scope.
Local Open Scope nat_scope.

(* the result of the conversion of a valid mesh *)
Definition converts (shuffle : emap -> emap) (m : mesh R) (source target : geokind) (d : mesh R) : Prop :=
  exists leb, (forall l, Permutation (shuffle l) l) /\ consistent m /\ coords_complete m /\ convertible m source target /\
    convert_2d leb shuffle m target = Ok d.

(** C48: cells, corners and shared nodes *)
Theorem C48_valid : forall shuffle m source target d, converts shuffle m source target d ->
  consistent d /\ coords_complete d /\ ndim d = 2 /\ List.length (cells d) = List.length (cells m) /\
  (forall c cl, nth_error (cells m) c = Some cl -> exists dc, nth_error (cells d) c = Some dc /\
     c_id dc = c_id cl /\ c_marker dc = c_marker cl /\ c_kind dc = target) /\
  (forall q, q < List.length (points d) -> exists c a, node_id d c a q).
Proof.
  intros shuffle m source target d (leb & Sh & C & K & V & E).
  destruct (result_valid leb shuffle Sh m source target C K V d E) as (A1 & A2 & A3 & _ & _ & A4 & A5 & A6).
  repeat (split; [now auto|]). split; [|auto]. intros c cl H. destruct (A5 c cl H) as (dc & B). exists dc.
  rewrite (proj1 (proj2 C c cl H)). exact B.
Qed.
Print Assumptions C48_valid.

Theorem C48_corners : forall shuffle m source target d, converts shuffle m source target d ->
  forall c a q pt, c < List.length (cells m) -> a < ncorners source -> node_id d c a q -> nth_error (points d) q = Some pt ->
  exists old op, node_id m c a old /\ nth_error (points m) old = Some op /\ pt_marker pt = pt_marker op /\ pt_coords pt = pt_coords op.
Proof. intros shuffle m source target d (leb & Sh & C & K & V & E). exact (result_corners leb shuffle Sh m source target C K V d E). Qed.
Print Assumptions C48_corners.

Theorem C48_corners_shared : forall shuffle m source target d, converts shuffle m source target d ->
  forall c a n b q q' old old', c < List.length (cells m) -> n < List.length (cells m) -> a < ncorners source -> b < ncorners source ->
  node_id d c a q -> node_id d n b q' -> node_id m c a old -> node_id m n b old' -> (q = q' <-> old = old').
Proof. intros shuffle m source target d (leb & Sh & C & K & V & E). exact (corner_same leb shuffle Sh m source target C K V d E). Qed.
Print Assumptions C48_corners_shared.

(* the nodes inside an edge are shared with the neighbour, in reverse order *)
Theorem C48_edges_shared : forall shuffle m source target d, converts shuffle m source target d -> two_per_edge m ->
  forall c e n ne i, shares m c e n ne -> 2 <= i < kind_edge_nnode target ->
  exists q, node_id d c (edge_node_id_inward target e i) q /\ node_id d n (edge_node_id target ne i) q.
Proof.
  intros shuffle m source target d (leb & Sh & C & K & V & E) TP c e n ne i S Hi.
  destruct (sin m source target C V c e n ne S) as (Lc & _ & He & _).
  destruct (node_some leb shuffle Sh m source target C K V d E c (edge_node_id_inward target e i) Lc) as (q & I).
  - apply (mid_range m source target V e i He Hi).
  - exists q. split; [auto|]. apply (edge_shared leb shuffle Sh m source target C K V d E c e n ne i q TP S Hi). exact I.
Qed.
Print Assumptions C48_edges_shared.

(* nothing else is shared *)
Theorem C48_no_other_sharing : forall shuffle m source target d, converts shuffle m source target d -> two_per_edge m ->
  forall c a n b q, c < List.length (cells m) -> n < List.length (cells m) -> a < kind_nnode target -> b < kind_nnode target ->
  node_id d c a q -> node_id d n b q ->
  (c = n /\ a = b) \/
  (a < ncorners source /\ b < ncorners source /\ exists old, node_id m c a old /\ node_id m n b old) \/
  (exists e ne i, shares m c e n ne /\ 2 <= i < kind_edge_nnode target /\ a = edge_node_id_inward target e i /\ b = edge_node_id target ne i).
Proof.
  intros shuffle m source target d (leb & Sh & C & K & V & E) TP c a n b q.
  exact (node_same leb shuffle Sh m source target C K V d E c a n b q TP).
Qed.
Print Assumptions C48_no_other_sharing.

(* markers of the new points *)
Theorem C48_markers : forall shuffle m source target d, converts shuffle m source target d -> two_per_edge m ->
  forall c cl a pt, nth_error (cells m) c = Some cl -> ncorners source <= a < kind_nnode target -> node_point d c a pt ->
  ((forall e, ~ on_edge target e a) -> pt_marker pt = 0%Z) /\
  (forall e, on_edge target e a -> edge_mark m cl e (pt_marker pt) \/
     exists n ne cn, n < c /\ shares m c e n ne /\ nth_error (cells m) n = Some cn /\ edge_mark m cn ne (pt_marker pt)) /\
  (forall e, on_edge target e a -> (forall n ne, n < c -> ~ shares m c e n ne) -> edge_mark m cl e (pt_marker pt)).
Proof.
  intros shuffle m source target d (leb & Sh & C & K & V & E) TP c cl a pt.
  exact (result_marker leb shuffle Sh m source target C K V d E c cl a pt TP).
Qed.
Print Assumptions C48_markers.

(* the marked edges are lost *)
Theorem C48_marked_edges_refuted : forall leb shuffle, (forall l, Permutation (shuffle l) l) ->
  exists m target d, consistent m /\ coords_complete m /\ marked_edges m <> [] /\
    convert_2d leb shuffle m target = Ok d /\ marked_edges d = [].
Proof.
  intros leb shuffle Sh. exists sq, Tri6.
  destruct (proj2 (convert_total leb shuffle Sh sq Tri6 sq_consistent sq_complete) (ex_intro (fun s => convertible sq s Tri6) Tri3 (sq_convertible Tri6 eq_refl))) as (d & E).
  exists d. split; [exact sq_consistent|]. split; [exact sq_complete|]. split; [discriminate|]. split; [exact E|].
  apply (result_valid leb shuffle Sh sq Tri3 Tri6 sq_consistent sq_complete (sq_convertible Tri6 eq_refl) d E).
Qed.
Print Assumptions C48_marked_edges_refuted.

(* two triangles into two triangles of any kind *)
Example C48_ex : forall shuffle, (forall l, Permutation (shuffle l) l) -> forall t, kind_class t = CTri ->
  (exists d, converts shuffle sq Tri3 t d) /\ two_per_edge sq /\ shares sq 0 1 1 1.
Proof.
  intros shuffle Sh t Ht. split; [|split; [exact (oriented_two sq sq_oriented)|exact sq_shares]].
  destruct (proj2 (convert_total (fun _ _ => true) shuffle Sh sq t sq_consistent sq_complete) (ex_intro (fun s => convertible sq s t) Tri3 (sq_convertible t Ht))) as (d & E).
  exists d, (fun _ _ => true). repeat (split; [first [exact Sh|exact sq_consistent|exact sq_complete|exact (sq_convertible t Ht)]|]). exact E.
Qed.

(** C69: positions and shapes *)
Theorem C69_positions : forall shuffle m source target d, converts shuffle m source target d -> oriented m -> conforming m ->
  forall c cl a pt, nth_error (cells m) c = Some cl -> a < kind_nnode target -> node_point d c a pt ->
  pt_coords pt = image m cl (ref_coords target a).
Proof.
  intros shuffle m source target d (leb & Sh & C & K & V & E) O F c cl a pt.
  exact (result_position leb shuffle Sh m source target C K V d E c cl a pt O F).
Qed.
Print Assumptions C69_positions.

Theorem C69_shapes : forall shuffle m source target d, converts shuffle m source target d -> oriented m -> conforming m ->
  keeps_shape source target = true ->
  forall c cl dc ksi, nth_error (cells m) c = Some cl -> nth_error (cells d) c = Some dc -> image d dc ksi = image m cl ksi.
Proof.
  intros shuffle m source target d (leb & Sh & C & K & V & E) O F Ks c cl dc ksi.
  exact (result_shape leb shuffle Sh m source target C K V d E c cl dc ksi O F Ks).
Qed.
Print Assumptions C69_shapes.

(* no assumption on the numbering: nodes that are not shared with an earlier cell *)
Theorem C69_unshared_positions : forall shuffle m source target d, converts shuffle m source target d ->
  forall c cl a pt, nth_error (cells m) c = Some cl -> ncorners source <= a < kind_nnode target ->
  (forall e n ne, on_edge target e a -> n < c -> ~ shares m c e n ne) -> node_point d c a pt ->
  pt_coords pt = image m cl (ref_coords target a).
Proof.
  intros shuffle m source target d (leb & Sh & C & K & V & E).
  exact (result_created leb shuffle Sh m source target C K V d E).
Qed.
Print Assumptions C69_unshared_positions.

(* a triangle numbered clockwise beside a triangle numbered counterclockwise *)
Theorem C69_clockwise_refuted : forall leb shuffle, (forall l, Permutation (shuffle l) l) ->
  exists m target d c cl a pt, consistent m /\ coords_complete m /\ convertible m Tri3 target /\ two_per_edge m /\
    convert_2d leb shuffle m target = Ok d /\ nth_error (cells m) c = Some cl /\ a < kind_nnode target /\ node_point d c a pt /\
    pt_coords pt <> image m cl (ref_coords target a).
Proof.
  intros leb shuffle Sh. destruct (cw_misplaced leb shuffle Sh) as (d & c & cl & a & pt & H). exists cw, Tri10, d, c, cl, a, pt.
  split; [exact cw_consistent|]. split; [exact cw_complete|]. split; [exact cw_convertible|]. split; [exact cw_two|exact H].
Qed.
Print Assumptions C69_clockwise_refuted.

Example C69_ex : oriented sq /\ conforming sq /\ keeps_shape Tri3 Tri10 = true /\ keeps_shape Qua8 Qua17 = true /\ keeps_shape Qua9 Qua8 = false.
Proof. split; [exact sq_oriented|]. split; [exact sq_conforming|]. vm_compute. auto. Qed.

(** C70: success and errors *)
Theorem C70_succeeds : forall leb shuffle, (forall l, Permutation (shuffle l) l) -> forall m target, consistent m -> coords_complete m ->
  ((exists d, convert_2d leb shuffle m target = Ok d) <-> exists source, convertible m source target).
Proof. exact convert_total. Qed.
Print Assumptions C70_succeeds.

Theorem C70_errors : forall leb shuffle, (forall l, Permutation (shuffle l) l) -> forall m source target, consistent m -> coords_complete m ->
  one_kind m source -> ~ convertible m source target -> exists msg, convert_2d leb shuffle m target = Err msg.
Proof. exact convert_error. Qed.
Print Assumptions C70_errors.

(* a mesh with triangles and quadrilaterals: index out of bounds instead of the error *)
Theorem C70_mixed_refuted : forall leb shuffle, (forall l, Permutation (shuffle l) l) ->
  exists m target, consistent m /\ coords_complete m /\ ndim m = 2 /\ convert_2d leb shuffle m target = Panic.
Proof.
  intros leb shuffle Sh. exists mixed, Tri6. split; [exact mixed_consistent|]. split; [exact mixed_complete|]. split; [reflexivity|].
  exact (mixed_panics leb shuffle Sh).
Qed.
Print Assumptions C70_mixed_refuted.

Example C70_ex : one_kind sq Tri3 /\ convertible sq Tri3 Tri15 /\ ~ convertible sq Tri3 Qua4.
Proof.
  split; [apply (sq_convertible Tri3 eq_refl)|]. split; [exact (sq_convertible Tri15 eq_refl)|].
  intros (_ & _ & _ & _ & H). discriminate H.
Qed.
