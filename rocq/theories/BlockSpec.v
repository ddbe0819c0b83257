(* Vocabulary of the properties of Block. *)
From Coq Require Import Reals QArith Qround List Arith ZArith Bool Permutation.
From Verif Require Import Base Kind MeshModel TopoModel ShapesModel ShapesSpec PadModel PadSpec GridModel BlockModel.
Import ListNotations.
Local Open Scope list_scope.
Local Open Scope R_scope.

(* a block obtained with Block::new and calls of the setters, successful or not *)
Inductive made (zdet : R) : block -> Prop :=
| made_new nd coords b : block_new zdet nd coords = Ok b -> made zdet b
| made_marker b v : made zdet b -> made zdet (set_marker b v)
| made_ndiv b l : made zdet b -> made zdet (snd (set_ndiv b l))
| made_w2 b wx wy : made zdet b -> made zdet (snd (set_div_weights_2d b wx wy))
| made_w3 b wx wy wz : made zdet b -> made zdet (snd (set_div_weights_3d b wx wy wz))
| made_ec b e c : made zdet b -> made zdet (snd (set_edge_constraint b e c))
| made_fc b f c : made zdet b -> made zdet (snd (set_face_constraint b f c))
| made_em b e v : made zdet b -> made zdet (snd (set_edge_marker b e v))
| made_fm b f v : made zdet b -> made zdet (snd (set_face_marker b f v))
| made_ring b a : made zdet b -> made zdet (snd (set_transform_into_ring b a)).

(* sizes of the matrix of coordinates that Block::new accepts; all rows are complete *)
Definition good_size (nd : nat) (coords : mat) : Prop :=
  (nd = 2 \/ nd = 3)%nat /\
  (if (nd =? 2)%nat then List.length coords = 4 \/ List.length coords = 8 else List.length coords = 8 \/ List.length coords = 20)%nat.
Definition rect (nd : nat) (coords : mat) : Prop := forall m, (m < List.length coords)%nat -> List.length (nth m coords []) = nd.
(* the kind used for the map of the block and its number of corners *)
Definition bkind (nd : nat) : geokind := if (nd =? 2)%nat then Qua8 else Hex20.
Definition corners (nd : nat) : nat := if (nd =? 2)%nat then 4%nat else 8%nat.

(* the pad holds the given nodes; missing middle nodes are halfway *)
Definition holds_nodes (nd : nat) (coords : mat) (p : pad) : Prop :=
  (forall m i, (m < List.length coords)%nat -> (i < nd)%nat -> node_x p i m = nth i (nth m coords []) 0) /\
  (List.length coords = corners nd -> forall e i, (e < kind_nedge (bkind nd))%nat -> (i < nd)%nat ->
     node_x p i (edge_node_id (bkind nd) e 2) =
       (node_x p i (edge_node_id (bkind nd) e 0) + node_x p i (edge_node_id (bkind nd) e 1)) / 2).
(* determinant of the Jacobian of that map at the centre *)
Definition det_center (nd : nat) (coords : mat) (d : R) : Prop :=
  exists p a, pad_wf p /\ p_kind p = bkind nd /\ p_space p = nd /\ holds_nodes nd coords p /\
    jacobian_of p (repeat 0 nd) a /\ d = det nd a.

(* number of divisions along a direction *)
Definition ndivs (b : block) (a : nat) : nat := nth a (b_ndiv b) 1%nat.
(* widths of the divisions along a direction of the reference space *)
Definition widths (b : block) (a : nat) : list R := nth a (b_delta b) [].

(* the target kinds allowed *)
Definition fits (b : block) (target : geokind) : Prop :=
  kind_class target = (if (b_ndim b =? 2)%nat then CQua else CHex).

(* nodes along an edge of the target, minus one *)
Definition per (target : geokind) : nat :=
  match target with
  | Qua8 | Qua9 | Hex20 => 2
  | Qua12 | Qua16 | Hex32 => 3
  | Qua17 => 4
  | _ => 1
  end%nat.

(* distance (in the reference space of the block) under which points are identified *)
Definition tol (b : block) : R := sqrt (INR (b_ndim b)) * / 10000.
(* the nodes of the target are further apart than that *)
Definition spaced (b : block) (target : geokind) : Prop :=
  forall a d, (a < b_ndim b)%nat -> In d (widths b a) -> INR (per target) * tol b < d.

(* an index of a cell, [i; j] or [i; j; k] *)
Definition valid_index (b : block) (idx : list nat) : Prop :=
  List.length idx = b_ndim b /\ forall a, (a < b_ndim b)%nat -> (nth a idx 0 < ndivs b a)%nat.
(* its position in the list of cells: x runs fastest *)
Fixpoint rank (n idx : list nat) : nat :=
  match n, idx with a :: n', i :: idx' => (i + a * rank n' idx')%nat | _, _ => 0%nat end.

(* the grid line i: -1 plus the first i widths *)
Definition line (ds : list R) (i : nat) : R := -1 + sum (firstn i ds).
(* reference coordinates, in the block, of node m of the cell *)
Definition node_ksi (b : block) (target : geokind) (idx : list nat) (m : nat) : list R :=
  map (fun a => line (widths b a) (nth a idx 0%nat) +
                nth (nth a idx 0%nat) (widths b a) 0 * ((1 + nth a (ref_coords target m) 0) / 2))
    (seq 0 (b_ndim b)).

(* integer coordinates of the same node on the finest regular lattice *)
Definition offset (target : geokind) (m a : nat) : nat :=
  Z.to_nat (Qfloor ((nth a (reference_coords target m) 0 + 1) * (Z.of_nat (per target) # 2))%Q).
Definition lattice (target : geokind) (idx : list nat) (m : nat) : list nat :=
  map (fun a => (per target * nth a idx 0 + offset target m a)%nat) (seq 0 (List.length idx)).

(* arguments of the ring that are accepted *)
Definition good_ring (a : ring) : Prop :=
  0 <= amin a < amax a /\ amax a <= PI / 2 /\ rmin a < rmax a /\ zmin a < zmax a.
(* the map of the block, from reference to real coordinates *)
Definition ring_point (a : ring) (ksi : list R) (i : nat) : R :=
  let r := (1 - nth 0 ksi 0) / 2 * rmin a + (1 + nth 0 ksi 0) / 2 * rmax a in
  let t := (1 - nth 1 ksi 0) / 2 * amin a + (1 + nth 1 ksi 0) / 2 * amax a in
  match i with
  | 0%nat => r * cos t
  | 1%nat => r * sin t
  | _ => (1 - nth 2 ksi 0) / 2 * zmin a + (1 + nth 2 ksi 0) / 2 * zmax a
  end.
Definition block_map (b : block) (ksi : list R) : list R :=
  map (fun i => if b_ring b then ring_point (b_args b) ksi i else pos (b_pad b) ksi i) (seq 0 (b_ndim b)).

(* the point of node m of the cell with this index *)
Definition point_at {T} (b : block) (msh : mesh T) (idx : list nat) (m p : nat) : Prop :=
  exists c, nth_error (cells msh) (rank (b_ndiv b) idx) = Some c /\ nth_error (c_points c) m = Some p.
Definition coords_of {T} (msh : mesh T) (p : nat) (x : list T) : Prop :=
  exists pt, nth_error (points msh) p = Some pt /\ pt_coords pt = x.

(* sides of the block in its reference space: direction and end *)
Definition side_axis (nd s : nat) : nat :=
  if (nd =? 2)%nat then match s with 0 => 1 | 1 => 0 | 2 => 1 | _ => 0 end%nat else Nat.div2 s.
Definition side_end (nd s : nat) : R :=
  if (nd =? 2)%nat then match s with 1%nat => 1 | 2%nat => 1 | _ => -1 end
  else if Nat.even s then -1 else 1.
Definition nsides (nd : nat) : nat := if (nd =? 2)%nat then 4%nat else 6%nat.
Definition at_side (nd s : nat) (ksi : list R) : Prop := nth (side_axis nd s) ksi 0 = side_end nd s.

(* the point satisfies the constraint: its distance from the centre (axis) is the radius *)
Definition dist2 (u v : R) : R := sqrt (u ^ 2 + v ^ 2).
Definition meets_2d (c : constraint2d) (x : list R) : Prop :=
  match c with Circle xc yc r => dist2 (nth 0 x 0 - xc) (nth 1 x 0 - yc) = Rabs r end.
Definition meets_3d (c : constraint3d) (x : list R) : Prop :=
  match c with
  | CylinderX yc zc r => dist2 (nth 1 x 0 - yc) (nth 2 x 0 - zc) = Rabs r
  | CylinderY xc zc r => dist2 (nth 0 x 0 - xc) (nth 2 x 0 - zc) = Rabs r
  | CylinderZ xc yc r => dist2 (nth 0 x 0 - xc) (nth 1 x 0 - yc) = Rabs r
  end.
Definition constrained (b : block) (s : nat) : Prop :=
  if (b_ndim b =? 2)%nat then mget Nat.eqb (b_ec b) s <> None else mget Nat.eqb (b_fc b) s <> None.
Definition meets (b : block) (s : nat) (x : list R) : Prop :=
  if (b_ndim b =? 2)%nat then match mget Nat.eqb (b_ec b) s with Some c => meets_2d c x | None => True end
  else match mget Nat.eqb (b_fc b) s with Some c => meets_3d c x | None => True end.
(* the point x' is x moved along the ray from the centre (axis), the other coordinate being kept *)
Definition projection (p q : nat) (pc qc r : R) (x x' : list R) : Prop :=
  let d := dist2 (nth p x 0 - pc) (nth q x 0 - qc) in
  List.length x' = List.length x /\ forall i, nth i x' 0 =
    if (i =? p)%nat then pc + r / d * (nth p x 0 - pc) else if (i =? q)%nat then qc + r / d * (nth q x 0 - qc) else nth i x 0.
Definition projects_2d (c : constraint2d) (x x' : list R) : Prop :=
  match c with Circle xc yc r => projection 0 1 xc yc r x x' end.
Definition projects_3d (c : constraint3d) (x x' : list R) : Prop :=
  match c with
  | CylinderX yc zc r => projection 1 2 yc zc r x x'
  | CylinderY xc zc r => projection 0 2 xc zc r x x'
  | CylinderZ xc yc r => projection 0 1 xc yc r x x'
  end.
Definition projects (b : block) (s : nat) (x x' : list R) : Prop :=
  if (b_ndim b =? 2)%nat then match mget Nat.eqb (b_ec b) s with Some c => projects_2d c x x' | None => x' = x end
  else match mget Nat.eqb (b_fc b) s with Some c => projects_3d c x x' | None => x' = x end.
(* the point is too close to the centre (axis) of the constraint of a side: less than 1e-8 away *)
Definition near_2d (c : constraint2d) (x : list R) : Prop :=
  match c with Circle xc yc _ => dist2 (nth 0 x 0 - xc) (nth 1 x 0 - yc) <= / 100000000 end.
Definition near_3d (c : constraint3d) (x : list R) : Prop :=
  match c with
  | CylinderX yc zc _ => dist2 (nth 1 x 0 - yc) (nth 2 x 0 - zc) <= / 100000000
  | CylinderY xc zc _ => dist2 (nth 0 x 0 - xc) (nth 2 x 0 - zc) <= / 100000000
  | CylinderZ xc yc _ => dist2 (nth 0 x 0 - xc) (nth 1 x 0 - yc) <= / 100000000
  end.
Definition near (b : block) (s : nat) (x : list R) : Prop :=
  if (b_ndim b =? 2)%nat then match mget Nat.eqb (b_ec b) s with Some c => near_2d c x | None => False end
  else match mget Nat.eqb (b_fc b) s with Some c => near_3d c x | None => False end.
(* no two constrained sides have a common point *)
Definition apart (b : block) : Prop :=
  forall s s', (s < nsides (b_ndim b))%nat -> (s' < nsides (b_ndim b))%nat -> constrained b s -> constrained b s' ->
    s <> s' -> side_axis (b_ndim b) s = side_axis (b_ndim b) s'.

(* the smallest edge, face or the whole of the reference cube that contains the given nodes *)
Definition on_nodes (k : geokind) (nodes : list nat) (x : list R) : Prop :=
  forall a v, (a < kind_ndim k)%nat -> (forall m, In m nodes -> nth a (ref_coords k m) 0 = v) -> nth a x 0 = v.
(* on an edge or face of the block *)
Definition on_block_edge (nd e : nat) (x : list R) : Prop :=
  on_nodes (bkind nd) [edge_node_id (bkind nd) e 0; edge_node_id (bkind nd) e 1] x.
Definition on_block_face (f : nat) (x : list R) : Prop := on_nodes Hex20 (map (face_node_id Hex20 f) (seq 0 4)) x.
(* kinds with a full lattice of nodes *)
Definition full_lattice (k : geokind) : Prop := In k [Qua4; Qua9; Qua16; Hex8].

(* what a setter of the divisions leaves alone *)
Definition same_but_div (b b' : block) : Prop :=
  b_marker b' = b_marker b /\ b_ndim b' = b_ndim b /\ b_ec b' = b_ec b /\ b_fc b' = b_fc b /\ b_em b' = b_em b /\ b_fm b' = b_fm b /\
  b_pad b' = b_pad b /\ b_args b' = b_args b /\ b_ring b' = b_ring b.
(* n equal divisions of [-1, 1] *)
Definition uniform (n : nat) : list R := repeat (2 / INR n) n.
(* divisions of [-1, 1] in proportion to the weights *)
Definition weighted (w ds : list R) : Prop := List.length ds = List.length w /\ forall i, (i < List.length w)%nat -> nth i ds 0 = 2 * nth i w 0 / sum w.
(* a mesh obtained from a block whose nodes are far enough apart for the search *)
Definition subdivided (zdet : R) (sh : container -> container) (shc : list (nat * nat) -> list (nat * nat))
  (b : block) (target : geokind) (msh : mesh R) : Prop :=
  0 <= zdet /\ (forall c, Permutation (sh c) c) /\ (forall l, Permutation (shc l) l) /\
  made zdet b /\ fits b target /\ spaced b target /\ subdivide sh shc b target = Ok msh.
