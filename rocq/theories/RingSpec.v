(* Vocabulary of the properties of the meshes of quarter rings. *)
From Coq Require Import Reals List Arith ZArith Bool Permutation.
From Verif Require Import Base Kind MeshModel MeshQuerySpec ShapesModel ShapesSpec GeomSpec GridSpec TopoSpec BlockSpec JoinSpec StructSpec.
Import ListNotations.
Local Open Scope list_scope.
Local Open Scope R_scope.

(* the i-th of the values from a to b at distances in proportion to the weights *)
Definition cut (a b : R) (w : list R) (i : nat) : R := a + (b - a) * (sum (firstn i w) / sum w).
(* a sector r0 <= r <= r1, t0 <= t <= t1, z0 <= z <= z1 of cylindrical coordinates *)
Record sector := mkSector { r_0 : R; r_1 : R; t_0 : R; t_1 : R; z_0 : R; z_1 : R }.
(* the cell of a kind that fills it: the nodes of the reference cell are mapped to cylindrical coordinates *)
Definition polar (nd : nat) (r t z : R) : list R := firstn nd [r * cos t; r * sin t; z].
Definition sector_node (nd : nat) (target : geokind) (s : sector) (m : nat) : list R :=
  let x := ref_coords target m in
  polar nd (stretch (r_0 s) (r_1 s) (nth 0 x 0)) (stretch (t_0 s) (t_1 s) (nth 1 x 0)) (stretch (z_0 s) (z_1 s) (nth 2 x 0)).
Definition sector_shape (nd : nat) (target : geokind) (s : sector) : shape :=
  mkShape target 1%Z (map (sector_node nd target s) (seq 0 (kind_nnode target))).
(* the sectors of a quarter ring: r runs fastest, then the angle, then z *)
Definition ring_sectors (ra rb h : R) (wr : list R) (na nz : nat) : list sector :=
  flat_map (fun k => flat_map (fun j => map (fun i =>
      mkSector (cut ra rb wr i) (cut ra rb wr (S i)) (tick 0 (PI / 2) na j) (tick 0 (PI / 2) na (S j)) (tick 0 h nz k) (tick 0 h nz (S k)))
    (seq 0 (List.length wr))) (seq 0 na)) (seq 0 nz).

(* a mesh without marks or unused points whose cells are these, in this order *)
Definition pictures (nd : nat) (m : mesh R) (gs : list shape) : Prop :=
  consistent m /\ coords_complete m /\ ndim m = nd /\ marked_edges m = [] /\ marked_faces m = [] /\ all_used m /\ shows m gs.

(* the divisions of the reference interval [-1, 1] in proportion to the weights leave the nodes
   further apart than the tolerance [e] of the searches *)
Definition not_fine (e : R) (target : geokind) (w : list R) : Prop :=
  forall v, In v w -> INR (per target) * e < 2 * (v / sum w).
