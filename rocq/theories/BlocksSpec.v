(* Vocabulary of the properties of meshes made of collections of blocks. *)
From Coq Require Import Reals List Arith ZArith Bool Permutation.
From Verif Require Import Base Kind MeshModel MeshQuerySpec TopoModel ShapesModel ShapesSpec GeomSpec GridSpec TopoSpec BlockModel BlockSpec JoinSpec StructModel StructSpec RingSpec PosSpec.
Import ListNotations.
Local Open Scope list_scope.
Local Open Scope R_scope.

(* moved to the circle (cylinder) along the ray from the centre (axis) *)
Definition on_2d (c : constraint2d) (x y : list R) : Prop := projects_2d c x y /\ meets_2d c y.
Definition on_3d (c : constraint3d) (x y : list R) : Prop := projects_3d c x y /\ meets_3d c y.
Inductive condition := In2d (c : constraint2d) | In3d (c : constraint3d).
Definition moved (c : condition) (x y : list R) : Prop := match c with In2d c => on_2d c x y | In3d c => on_3d c x y end.
(* too close to the centre (axis) *)
Definition too_near (c : condition) (x : list R) : Prop := match c with In2d c => near_2d c x | In3d c => near_3d c x end.

(* a block of the collection: marker, numbers (if any) and coordinates of its corners or of its corners and the middles of
   its edges, weights of the divisions in each direction, the sides whose points are moved *)
Record region := mkRegion {
  g_marker : Z;
  g_ids : list nat;
  g_nodes : list (list R);
  g_weights : list (list R);
  g_sides : list (nat * condition) }.

(* what the data means; two equal divisions if weights are missing in some direction *)
Definition region_2d (bl : blocks2d) (i : nat) : region :=
  let '(mk, p0, p1, p2, p3) := nth i (k2_regions bl) (0%Z, 0, 0, 0, 0)%nat in
  let ids := [p0; p1; p2; p3] in
  mkRegion mk ids (map (fun p => let c := nth p (k2_points bl) (0, 0) in [fst c; snd c]) ids)
    (match nth i (k2_weights bl) ([], []) with ((_ :: _) as wx, (_ :: _) as wy) => [wx; wy] | _ => repeat [1; 1] 2 end)
    (match nth i (k2_constraints bl) None with Some (e, c) => [(e, In2d c)] | None => [] end).
Definition regions_2d (bl : blocks2d) : list region := map (region_2d bl) (seq 0 (List.length (k2_regions bl))).
Definition region_3d (bl : blocks3d) (i : nat) : region :=
  let '(mk, (p0, p1, p2, p3), (p4, p5, p6, p7)) := nth i (k3_regions bl) (0%Z, (0, 0, 0, 0), (0, 0, 0, 0))%nat in
  let ids := [p0; p1; p2; p3; p4; p5; p6; p7] in
  mkRegion mk ids (map (fun p => let c := nth p (k3_points bl) (0, 0, 0) in [fst (fst c); snd (fst c); snd c]) ids)
    (match nth i (k3_weights bl) ([], [], []) with ((_ :: _) as wx, (_ :: _) as wy, (_ :: _) as wz) => [wx; wy; wz] | _ => repeat [1; 1] 3 end)
    (match nth i (k3_constraints bl) None with Some (e, c) => [(e, In3d c)] | None => [] end).
Definition regions_3d (bl : blocks3d) : list region := map (region_3d bl) (seq 0 (List.length (k3_regions bl))).

(* collections without dangling numbers *)
Definition well_2d (bl : blocks2d) : Prop :=
  (List.length (k2_regions bl) <= List.length (k2_weights bl))%nat /\ (List.length (k2_regions bl) <= List.length (k2_constraints bl))%nat /\
  (forall g, In g (regions_2d bl) -> (forall p, In p (g_ids g) -> (p < List.length (k2_points bl))%nat) /\
     (forall w, In w (g_weights g) -> 1 <= sum w) /\ forall e c, In (e, c) (g_sides g) -> (e < 4)%nat).
Definition well_3d (bl : blocks3d) : Prop :=
  (List.length (k3_regions bl) <= List.length (k3_weights bl))%nat /\ (List.length (k3_regions bl) <= List.length (k3_constraints bl))%nat /\
  (forall g, In g (regions_3d bl) -> (forall p, In p (g_ids g) -> (p < List.length (k3_points bl))%nat) /\
     (forall w, In w (g_weights g) -> 1 <= sum w) /\ forall f c, In (f, c) (g_sides g) -> (f < 6)%nat).

(* bilinear or trilinear map of the reference cell to the block: coordinate i *)
Definition linear_kind (nd : nat) : geokind := if (nd =? 2)%nat then Qua4 else Hex8.
Definition blend (nd : nat) (xs : list (list R)) (ksi : list R) (i : nat) : R :=
  sum (map (fun m => fold_right Rmult 1 (map (fun a => (1 + nth a (ref_coords (linear_kind nd) m) 0 * nth a ksi 0) / 2) (seq 0 nd)) * nth i (nth m xs []) 0)
    (seq 0 (List.length xs))).
(* the map of a block given by its corners, or by its corners and the middles of its edges *)
Definition spread (nd : nat) (xs : list (list R)) (ksi : list R) (i : nat) : R :=
  if (List.length xs =? corners nd)%nat then blend nd xs ksi i
  else sum (map (fun m => nth m (calc_interp (bkind nd) ksi) 0 * nth i (nth m xs []) 0) (seq 0 (List.length xs))).

(* the cells of a region: one for each index; the number of the cell with an index *)
Definition divs (g : region) : list nat := map (@List.length R) (g_weights g).
Definition in_region (g : region) (idx : list nat) : Prop := Forall2 lt idx (divs g).
Definition ncells (g : region) : nat := fold_right Nat.mul 1%nat (divs g).
Definition cell_number (gs : list region) (i : nat) (g : region) (idx : list nat) : nat :=
  (fold_right plus 0 (map ncells (firstn i gs)) + rank (divs g) idx)%nat.
(* reference coordinates, in the block, of node m of the cell *)
Definition region_ksi (g : region) (target : geokind) (idx : list nat) (m : nat) : list R :=
  map (fun a => let w := nth a (g_weights g) [] in let j := nth a idx 0%nat in
         stretch (cut (-1) 1 w j) (cut (-1) 1 w (S j)) (nth a (ref_coords target m) 0))
    (seq 0 (List.length (g_weights g))).
Definition region_map (nd : nat) (g : region) (ksi : list R) : list R := map (spread nd (g_nodes g) ksi) (seq 0 nd).
Definition region_node (nd : nat) (g : region) (target : geokind) (idx : list nat) (m : nat) : list R :=
  region_map nd g (region_ksi g target idx m).
(* the coordinates of this node: where the map of the block puts it if no side has a condition; otherwise see PosSpec *)
Definition region_at (nd : nat) (g : region) (target : geokind) (idx : list nat) (m : nat) (y : list R) : Prop :=
  match g_sides g with
  | [] => y = region_node nd g target idx m
  | l => node_at nd (region_map nd g) (fun s => exists c, In (s, c) l) (fun s x y => exists c, In (s, c) l /\ moved c x y)
      target (region_ksi g target idx) m y
  end.

(* the mesh is made of the cells of the regions; every node is (within the distance e, exactly for the first region) where
   it belongs *)
Definition built (nd : nat) (e : R) (target : geokind) (gs : list region) (m : mesh R) : Prop :=
  ndim m = nd /\ List.length (cells m) = fold_right plus 0%nat (map ncells gs) /\
  forall i g idx, nth_error gs i = Some g -> in_region g idx ->
    exists c, nth_error (cells m) (cell_number gs i g idx) = Some c /\ c_kind c = target /\ c_marker c = g_marker g /\
      List.length (c_points c) = kind_nnode target /\
      forall k p, nth_error (c_points c) k = Some p -> exists x y, coords_of m p x /\ List.length x = nd /\ List.length y = nd /\
        euclid x y <= (if (i =? 0)%nat then 0 else e) /\ region_at nd g target idx k y.

(* marks: the last entry of a list decides *)
Definition last_entry {A} (P : A -> Prop) (l : list A) (q : A) : Prop := P q /\ exists u v, l = u ++ q :: v /\ forall q', In q' v -> ~ P q'.
Definition marks_edge (nd : nat) (l : list (Z * nat * nat)) (g : region) (e : nat) (mk : Z) : Prop :=
  (e < kind_nedge (linear_kind nd))%nat /\ exists p q,
    nth_error (g_ids g) (edge_node_id (linear_kind nd) e 0) = Some p /\ nth_error (g_ids g) (edge_node_id (linear_kind nd) e 1) = Some q /\
    exists x, last_entry (edge_at p q) l x /\ fst (fst x) = mk.
Definition marks_face (l : list (Z * nat * nat * nat * nat)) (g : region) (f : nat) (mk : Z) : Prop :=
  (f < 6)%nat /\ exists ps, Forall2 (fun i p => nth_error (g_ids g) (face_node_id Hex8 f i) = Some p) (seq 0 4) ps /\
    exists x, last_entry (fun x : Z * nat * nat * nat * nat => let '(_, a, b, c, d) := x in Permutation ps [a; b; c; d]) l x /\ fst (fst (fst (fst x))) = mk.

(* p and q are the end points of an edge of a cell of region i, on edge e of the block *)
Definition edge_on (nd : nat) (target : geokind) (gs : list region) (m : mesh R) (i e p q : nat) : Prop :=
  exists g idx c e', nth_error gs i = Some g /\ in_region g idx /\ nth_error (cells m) (cell_number gs i g idx) = Some c /\ (e' < kind_nedge target)%nat /\
    nth_error (c_points c) (edge_node_id target e' 0) = Some p /\ nth_error (c_points c) (edge_node_id target e' 1) = Some q /\
    on_block_edge nd e (region_ksi g target idx (edge_node_id target e' 0)) /\ on_block_edge nd e (region_ksi g target idx (edge_node_id target e' 1)).
Definition face_on (target : geokind) (gs : list region) (m : mesh R) (i f : nat) (ps : list nat) : Prop :=
  exists g idx c f', nth_error gs i = Some g /\ in_region g idx /\ nth_error (cells m) (cell_number gs i g idx) = Some c /\ (f' < 6)%nat /\
    Forall2 (fun j p => nth_error (c_points c) (face_node_id target f' j) = Some p) (seq 0 4) ps /\
    forall j, (j < 4)%nat -> on_block_face f (region_ksi g target idx (face_node_id target f' j)).
(* an edge (face) of a cell of region i is on an edge (face) of the block that has a marker *)
Definition edge_marked (nd : nat) (target : geokind) (l : list (Z * nat * nat)) (gs : list region) (m : mesh R) (i : nat) (mk : Z) (x y : nat) : Prop :=
  exists g e p q, nth_error gs i = Some g /\ marks_edge nd l g e mk /\ edge_on nd target gs m i e p q /\ same_pair x y p q.
Definition face_marked (target : geokind) (l : list (Z * nat * nat * nat * nat)) (gs : list region) (m : mesh R) (i : nat) (mk : Z) (ps : list nat) : Prop :=
  exists g f qs, nth_error gs i = Some g /\ marks_face l g f mk /\ face_on target gs m i f qs /\ Permutation ps qs.

(* no division is too fine *)
Definition regions_fine (e : R) (target : geokind) (gs : list region) : Prop := forall g w, In g gs -> In w (g_weights g) -> not_fine e target w.
(* no node of a side with a condition is mapped too close to the centre (axis) *)
Definition off_center (nd : nat) (target : geokind) (g : region) : Prop := forall idx k s c, in_region g idx -> (k < kind_nnode target)%nat -> In (s, c) (g_sides g) ->
  at_side nd s (region_ksi g target idx k) -> ~ too_near c (region_node nd g target idx k).
