(* Property C47: where all nodes of a block with constraints are placed. *)
From Coq Require Import String Reals List Lia Lra Bool Arith ZArith Permutation.
From Verif Require Import Base BaseFacts TopoMaps Kind MeshModel MeshQuerySpec TopoModel GridModel GeomModel ShapesModel ShapesSpec PadModel PadSpec
  BlockModel BlockSpec BlockProof BlockProof2 BlockProof3 PosSpec PosProof2.
Import ListNotations.
Local Open Scope list_scope.
Local Open Scope R_scope.

(** C47: every node, for every kind of cell, if no two adjacent sides are constrained: nodes of the constrained sides are
    moved along the ray from the centre; other nodes of an edge with an end that was really moved are put back on the
    straight line between the ends; if there are constraints, interior nodes are interpolated from the nodes of the edges;
    all others are where the map of the block puts them *)
Theorem C47_positions : forall zdet sh shc b target msh idx m p, subdivided zdet sh shc b target msh ->
  b_ring b = false -> apart b -> valid_index b idx -> (m < kind_nnode target)%nat -> point_at b msh idx m p ->
  exists x, coords_of msh p x /\ final_at b target idx m x.
Proof.
  intros zdet sh shc b target msh idx m p (Z & P & Q & M & Ft & Sp & Run). pose proof (made_wf _ _ Z M) as W.
  exact (mesh_final b target sh shc P Q W (proj1 (fits_in _ _ (w_nd _ W)) Ft) Sp msh idx m p Run).
Qed.
Print Assumptions C47_positions.

(** this determines the coordinates *)
Theorem C47_determined : forall zdet b target idx m x x', 0 <= zdet -> made zdet b -> fits b target -> spaced b target ->
  apart b -> valid_index b idx -> (m < kind_nnode target)%nat -> final_at b target idx m x -> final_at b target idx m x' -> x = x'.
Proof.
  intros zdet b target idx m x x' Z M Ft Sp A V. pose proof (made_wf _ _ Z M) as W. pose proof (proj1 (fits_in _ _ (w_nd _ W)) Ft) as F.
  assert (exists ek, kind_edge_kind target = Some ek) as (ek & Ek) by (clear - F W; destruct (w_nd _ W) as [E|E]; rewrite E in F; simpl in F; repeat (destruct F as [<- |F]; [eexists; reflexivity|]); destruct F).
  exact (final_unique b target W F Sp idx V A ek Ek m x x').
Qed.
Print Assumptions C47_determined.

(* a square with a bent lower side, one cell with 8 nodes: the middle node of the right side follows the corner *)
Example C47_positions_ex : forall sh shc, (forall c, Permutation (sh c) c) -> (forall l, Permutation (shc l) l) ->
  exists b msh, subdivided (/ 2) sh shc b Qua8 msh /\ b_ring b = false /\ apart b /\ valid_index b [0; 0]%nat /\ b_ndim b = 2%nat /\
    edge_node_id Qua8 1 2 = 5%nat /\ free 2 (con_of b) (node_ksi b Qua8 [0; 0]%nat 5) /\
    pulled 2 (block_map b) (con_of b) (projects b) (node_ksi b Qua8 [0; 0]%nat (edge_node_id Qua8 1 0)) (node_ksi b Qua8 [0; 0]%nat (edge_node_id Qua8 1 1)).
Proof.
  intros sh shc P Q. destruct (bent_witness (/ 2) sh shc ltac:(lra) P Q) as (b & msh & M & Ft & Sp & R & A & Run & V & H).
  exists b, msh. split; [|auto]. split; [lra|]. split; [exact P|]. split; [exact Q|]. split; [exact M|]. split; [exact Ft|]. split; [exact Sp|exact Run].
Qed.
