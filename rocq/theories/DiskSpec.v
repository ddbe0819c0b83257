(* Vocabulary of the properties of the quarter disks and plates with a hole. *)
From Coq Require Import Reals List Arith ZArith Bool.
From Verif Require Import Base Kind MeshModel MeshQuerySpec BlockModel BlockSpec StructSpec RingSpec BlocksSpec.
Import ListNotations.
Local Open Scope list_scope.
Local Open Scope R_scope.

(* polar coordinates *)
Definition polar (rho t : R) : list R := [rho * cos t; rho * sin t].
Definition halfway (u v : list R) : list R := [(nth 0 u 0 + nth 0 v 0) / 2; (nth 1 u 0 + nth 1 v 0) / 2].
(* corners and middles of the edges of a part of a ring *)
Definition ring_part (r0 r1 t0 t1 : R) : list (list R) :=
  let r := (r0 + r1) / 2 in let t := (t0 + t1) / 2 in
  [polar r0 t0; polar r1 t0; polar r1 t1; polar r0 t1; polar r t0; polar r1 t; polar r t1; polar r0 t].
(* the same part, its sides numbered from the side at t1 (t0 < t1) *)
Definition ring_part' (r0 r1 t0 t1 : R) : list (list R) :=
  let r := (r0 + r1) / 2 in let t := (t0 + t1) / 2 in
  [polar r0 t1; polar r0 t0; polar r1 t0; polar r1 t1; polar r0 t; polar r t0; polar r1 t; polar r t1].
(* solid between the heights 0 and h *)
Definition extrude (h : R) (l : list (list R)) : list (list R) :=
  let at_z z := map (fun x => x ++ [z]) in
  let c := firstn 4 l in let e := skipn 4 l in
  at_z 0 c ++ at_z h c ++ match e with [] => [] | _ => at_z 0 e ++ at_z h e ++ at_z (h / 2) c end.

(* a block with equal divisions *)
Definition piece (nodes : list (list R)) (div : list nat) (sides : list (nat * condition)) : region :=
  mkRegion 1%Z [] nodes (map (repeat 1) div) sides.
Definition circle (r : R) : condition := In2d (Circle 0 0 r).
Definition cylinder (r : R) : condition := In3d (CylinderZ 0 0 r).

(* A-version: the inner part has straight sides *)
Definition core_a (r : R) := [[0; 0]; polar (r / 2) 0; polar (115 / 100 * (r / 2)) (PI / 4); polar (r / 2) (PI / 2)].
Definition right_a (r : R) := [polar (r / 2) 0; polar r 0; polar r (PI / 4); polar (115 / 100 * (r / 2)) (PI / 4)].
Definition top_a (r : R) := [polar (r / 2) (PI / 2); polar (115 / 100 * (r / 2)) (PI / 4); polar r (PI / 4); polar r (PI / 2)].
(* B-version: the inner part ends at a circle *)
Definition core_b (a : R) :=
  [[0; 0]; polar a 0; polar a (PI / 4); polar a (PI / 2); polar (a / 2) 0; polar a (PI / 8); polar a (3 * PI / 8); polar (a / 2) (PI / 2)].
Definition right_b (a r : R) := ring_part a r 0 (PI / 4).
Definition top_b (a r : R) := ring_part' a r (PI / 4) (PI / 2).
(* plate: two parts of a ring, two parts between the ring and the sides of length l *)
Definition far_1 (r l : R) :=
  [polar r 0; [l; 0]; [l; l]; polar r (PI / 4); halfway (polar r 0) [l; 0]; [l; l / 2]; halfway (polar r (PI / 4)) [l; l]; polar r (PI / 8)].
Definition far_2 (r l : R) :=
  [polar r (PI / 4); [l; l]; [0; l]; polar r (PI / 2); halfway (polar r (PI / 4)) [l; l]; [l / 2; l]; halfway (polar r (PI / 2)) [0; l]; polar r (3 * PI / 8)].

Definition disk_2d (core right top : list (list R)) (r : R) (na nb : nat) : list region :=
  [piece core [na; na] []; piece right [nb; na] [(1%nat, circle r)]; piece top [na; nb] [(2%nat, circle r)]].
Definition disk_3d (core right top : list (list R)) (r h : R) (na nb nz : nat) : list region :=
  [piece (extrude h core) [na; na; nz] []; piece (extrude h right) [nb; na; nz] [(1%nat, cylinder r)]; piece (extrude h top) [na; nb; nz] [(3%nat, cylinder r)]].
Definition plate_2d (r a b : R) (na nb n : nat) : list region :=
  let ra := r + a in let l := ra + b in
  [piece (ring_part r ra 0 (PI / 4)) [na; n] [(1%nat, circle ra); (3%nat, circle r)]; piece (ring_part r ra (PI / 4) (PI / 2)) [na; n] [(1%nat, circle ra); (3%nat, circle r)];
   piece (far_1 ra l) [nb; n] [(3%nat, circle ra)]; piece (far_2 ra l) [nb; n] [(3%nat, circle ra)]].
Definition plate_3d (r a b h : R) (na nb n nz : nat) : list region :=
  let ra := r + a in let l := ra + b in
  [piece (extrude h (ring_part r ra 0 (PI / 4))) [na; n; nz] [(1%nat, cylinder ra); (0%nat, cylinder r)];
   piece (extrude h (ring_part r ra (PI / 4) (PI / 2))) [na; n; nz] [(1%nat, cylinder ra); (0%nat, cylinder r)];
   piece (extrude h (far_1 ra l)) [nb; n; nz] [(0%nat, cylinder ra)]; piece (extrude h (far_2 ra l)) [nb; n; nz] [(0%nat, cylinder ra)]].

(* n divisions are not too fine for the searches *)
Definition coarse (e : R) (target : geokind) (n : nat) : Prop := INR (per target) * e * INR n < 2.
(* a corner or a node on an edge of the reference cell; the other nodes are inside *)
Definition frame_node (nd : nat) (target : geokind) (k : nat) : Prop :=
  (k < corners nd)%nat \/ exists e j, (e < kind_nedge target)%nat /\ (2 <= j < kind_edge_nnode target)%nat /\ k = edge_node_id target e j.
(* these nodes on a side with a condition (circle or cylinder with radius r and axis z) are within the distance e of it *)
Definition rounded (nd : nat) (e : R) (target : geokind) (gs : list region) (m : mesh R) : Prop :=
  forall i g idx c k p s r, nth_error gs i = Some g -> In (s, if (nd =? 2)%nat then circle r else cylinder r) (g_sides g) -> in_region g idx ->
    nth_error (cells m) (cell_number gs i g idx) = Some c -> nth_error (c_points c) k = Some p -> frame_node nd target k -> at_side nd s (region_ksi g target idx k) ->
    exists x, coords_of m p x /\ Rabs (dist2 (nth 0 x 0) (nth 1 x 0) - Rabs r) <= e.
(* the mesh has n cells, no marks, all nodes as the blocks put them *)
Definition contents (nd : nat) (e : R) (target : geokind) (gs : list region) (n : nat) (m : mesh R) : Prop :=
  consistent m /\ coords_complete m /\ all_used m /\ marked_edges m = [] /\ marked_faces m = [] /\ List.length (cells m) = n /\
  built nd e target gs m /\ rounded nd e target gs m.
