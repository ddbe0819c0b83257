(* Conversion of a mesh of triangles or quadrilaterals into another kind of the same class.  Models
   Mesh::convert_2d (src/mesh/convert_2d.rs:18-201).  f64 is modelled by R.  The value UNSET
   (usize::MAX) of a connectivity entry is None; [shuffle] is the order in which the hash map of edges
   is visited by Features::new.  The assertion that ncell * target_nnode is less than usize::MAX
   (line 88) is not modelled. *)
From Coq Require Import String Reals List Arith Bool ZArith.
From Verif Require Import Base Kind MeshModel TopoModel ShapesModel PadModel.
Import ListNotations.
Local Open Scope string_scope.
Local Open Scope list_scope.
Local Open Scope nat_scope.

(* == on GeoKind and GeoClass (derived) *)
Definition kind_eqb (a b : geokind) : bool :=
  match a, b with
  | Lin2, Lin2 | Lin3, Lin3 | Lin4, Lin4 | Lin5, Lin5 | Tri3, Tri3 | Tri6, Tri6 | Tri10, Tri10 | Tri15, Tri15
  | Qua4, Qua4 | Qua8, Qua8 | Qua9, Qua9 | Qua12, Qua12 | Qua16, Qua16 | Qua17, Qua17
  | Tet4, Tet4 | Tet10, Tet10 | Tet20, Tet20 | Hex8, Hex8 | Hex20, Hex20 | Hex32, Hex32 => true
  | _, _ => false
  end.
Definition class_eqb (a b : geoclass) : bool :=
  match a, b with
  | CLin, CLin | CTri, CTri | CQua, CQua | CTet, CTet | CHex, CHex => true
  | _, _ => false
  end.

(* convert_2d.rs:74-82: local node of the target -> edge number (None = INTERIOR_OR_CORNER) *)
Definition node_to_edge (target : geokind) : res (list (option nat)) :=
  foldM (fun (v : list (option nat)) e =>
      foldM (fun (v : list (option nat)) i => set v (edge_node_id target e i) (Some e))
        (seq 2 (kind_edge_nnode target - 2)) v)
    (seq 0 (kind_nedge target)) (repeat None (kind_nnode target)).

(* convert_2d.rs:127-132: set the coordinates matrix *)
Definition load_cell (m : mesh R) (c : cell) (nnode : nat) (p : pad) : res pad :=
  foldM (fun (p : pad) a =>
      foldM (fun (p : pad) j =>
          let! id := get (c_points c) a in
          let! pt := get (points m) id in
          let! v := get (pt_coords pt) j in
          set_xx p a j v)
        (seq 0 (ndim m)) p)
    (seq 0 nnode) p.

(* convert_2d.rs:135-143: the last marker on each edge *)
Definition edge_markers (m : mesh R) (c : cell) (source : geokind) (nedge : nat) (marks : list Z) : res (list Z) :=
  if 2 <? kind_edge_nnode source then
    foldM (fun (marks : list Z) e =>
        foldM (fun (marks : list Z) i =>
            let! id := get (c_points c) (edge_node_id source e i) in
            let! pt := get (points m) id in
            set marks e (pt_marker pt))
          (seq 2 (kind_edge_nnode source - 2)) marks)
      (seq 0 nedge) marks
  else Ok marks.

(* convert_2d.rs:150-164: a corner node; the state has the new points, the map from old to new corners
   and the connectivity of the new cell *)
Definition corner_step (m : mesh R) (c : cell) (st : list (point R) * list (nat * nat) * list (option nat)) (a : nat)
  : res (list (point R) * list (nat * nat) * list (option nat)) :=
  let '(pts, corners, con) := st in
  let! old := get (c_points c) a in
  match mget Nat.eqb corners old with
  | Some new =>
      let! con' := set con a (Some new) in
      Ok (pts, corners, con')
  | None =>
      let new := List.length pts in
      let! pt := get (points m) old in
      let! con' := set con a (Some new) in
      Ok (pts ++ [mkPoint new (pt_marker pt) (pt_coords pt)], mput Nat.eqb corners old new, con')
  end.

(* convert_2d.rs:168-178: copy the nodes of the edges from a neighbour.  [rows] is the connectivity of
   all new cells; the neighbour is never the cell itself (see get_neighbors_2d), hence [con], the new
   connectivity of the cell, is kept apart.  The tables are indexed by neigh_e, which is out of range
   if the neighbour has more edges. *)
Definition neighbor_step (target : geokind) (rows : list (list (option nat))) (con : list (option nat))
    (nb : nat * nat * nat) : res (list (option nat)) :=
  let '(e, neigh, neigh_e) := nb in
  foldM (fun (con : list (option nat)) i =>
      if kind_nedge target <=? neigh_e then Panic else
      let! con_n := get rows neigh in
      let! p := get con_n (edge_node_id target neigh_e i) in
      match p with
      | Some _ => set con (edge_node_id_inward target e i) p
      | None => Ok con
      end)
    (seq 2 (kind_edge_nnode target - 2)) con.

(* convert_2d.rs:182-198: a node that is not a corner; Err of calc_coords is unwrapped *)
Definition node_step (target : geokind) (n2e : list (option nat)) (marks : list Z)
    (st : list (point R) * list (option nat) * pad) (a : nat) : res (list (point R) * list (option nat) * pad) :=
  let '(pts, con, p) := st in
  let! entry := get con a in
  match entry with
  | Some _ => Ok st
  | None =>
      let! e := get n2e a in
      let! marker := match e with None => Ok 0%Z | Some e => get marks e end in
      let new := List.length pts in
      match pad_coords p 2 (ref_coords target a) with
      | Ok (x, p') =>
          let! con' := set con a (Some new) in
          Ok (pts ++ [mkPoint new marker x], con', p')
      | _ => Panic
      end
  end.

Record conv := mkConv {
  v_points : list (point R);             (* dest.points *)
  v_rows : list (list (option nat));     (* points of dest.cells *)
  v_corners : list (nat * nat);          (* corners *)
  v_marks : list Z;                      (* edge_point_markers *)
  v_pad : pad
}.

(* convert_2d.rs:120-199: one pass of the loop over the cells *)
Definition convert_cell (m : mesh R) (ft : features) (source target : geokind) (n2e : list (option nat)) (ncorner : nat)
    (st : conv) (id : nat) : res conv :=
  let! c := get (cells m) id in
  if negb (kind_eqb (c_kind c) source) then Err "all cells must have the same GeoKind" else
  let! p := load_cell m c (kind_nnode source) (v_pad st) in
  let! marks := edge_markers m c source (kind_nedge target) (v_marks st) in
  let! con := get (v_rows st) id in
  let! s1 := foldM (corner_step m c) (seq 0 ncorner) (v_points st, v_corners st, con) in
  let '(pts, corners, con) := (s1 : list (point R) * list (nat * nat) * list (option nat)) in
  let! con :=
    (if 2 <? kind_edge_nnode target then
       let! nbs := get_neighbors_2d m ft id in
       foldM (neighbor_step target (v_rows st)) nbs con
     else Ok con) in
  let! s2 := foldM (node_step target n2e marks) (seq ncorner (kind_nnode target - ncorner)) (pts, con, p) in
  let '(pts, con, p) := (s2 : list (point R) * list (option nat) * pad) in
  let! rows := set (v_rows st) id con in
  Ok (mkConv pts rows corners marks p).

(* the new cells; the conversion of None into usize::MAX is not modelled (Panic) *)
Definition finish_cells (m : mesh R) (target : geokind) (rows : list (list (option nat))) : res (list cell) :=
  mapM (fun ic : nat * (cell * list (option nat)) =>
      let! ps := mapM unwrap (snd (snd ic)) in
      Ok (mkCell (fst ic) (c_marker (fst (snd ic))) target ps))
    (combine (seq 0 (List.length (cells m))) (combine (cells m) rows)).

Section Convert.
Variable leb : R -> R -> bool.
Variable shuffle : emap -> emap.

(* convert_2d.rs:18-201 *)
Definition convert_2d (m : mesh R) (target : geokind) : res (mesh R) :=
  if negb (ndim m =? 2) then Err "ndim must be equal to 2" else
  match cells m with
  | [] => Err "the conversion requires at least one cell"
  | c0 :: _ =>
      let source := c_kind c0 in
      if negb (class_eqb (kind_class target) (kind_class source))
      then Err "target class must equal the GeoClass of current cells" else
      if negb (class_eqb (kind_class target) CTri) && negb (class_eqb (kind_class target) CQua)
      then Err "target GeoClass must be Tri or Qua" else
      let ncorner := if class_eqb (kind_class source) CTri then 3 else 4 in
      let! n2e := node_to_edge target in
      let! ft := features_new leb shuffle m true in
      let ncell := List.length (cells m) in
      match pad_new (ndim m) source with
      | Ok p =>
          let! st := foldM (convert_cell m ft source target n2e ncorner) (seq 0 ncell)
            (mkConv [] (repeat (repeat None (kind_nnode target)) ncell) [] (repeat 0%Z (kind_nedge target)) p) in
          let! cs := finish_cells m target (v_rows st) in
          Ok (mkMesh (ndim m) (v_points st) cs [] [])
      | _ => Panic
      end
  end.
End Convert.
