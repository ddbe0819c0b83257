(* Model of Unstructured (src/mesh/generators_tri_tet.rs).
   The crate tritet (Trigen, Tetgen) is outside.  Its setters are modelled as writing into slots: an index
   or a point number out of range is an Err (the text of the message is not that of tritet).  The mesh
   generators themselves are parameters ([gen2], [gen3]): any function of the slots and the options that
   returns an error or some points, cells and marked segments or faces.  f64 is modelled by R; a marked
   point at the origin (0/0 in apply_constraints) is excluded by the theorems.  The cast of the points of
   a marked face from i32 to usize is not modelled. *)
From Coq Require Import String List Arith Bool ZArith Reals.
From Verif Require Import Base Kind MeshModel TopoModel GeomModel ConvertModel GraphModel.
Import ListNotations.
Local Open Scope string_scope.
Local Open Scope list_scope.
Local Open Scope R_scope.

(* generators_tri_tet.rs:13-22 *)
Definition MARKER_A : Z := (-1)%Z.
Definition MARKER_B : Z := (-2)%Z.
Definition MARKER_C : Z := (-3)%Z.
Definition MARKER_D : Z := (-4)%Z.
Definition MARKER_INNER : Z := (-5)%Z.
Definition MARKER_OUTER : Z := (-6)%Z.
Definition MARKER_SYM_X : Z := (-7)%Z.
Definition MARKER_SYM_Y : Z := (-8)%Z.
Definition MARKER_ZMIN : Z := (-9)%Z.
Definition MARKER_ZMAX : Z := (-10)%Z.

(* ---- tritet: slots ---- *)
Definition put {A} (l : list (option A)) (i : nat) (a : A) : res (list (option A)) :=
  if (i <? List.length l)%nat then set l i (Some a) else Err "index out of range".

(* Trigen: points (marker, x, y), segments (marker, a, b), regions (marker, x, y, max area), holes *)
Record tri_in := mkTriIn {
  ti_points : list (option (Z * R * R));
  ti_segments : list (option (Z * nat * nat));
  ti_regions : list (option (Z * R * R * option R));
  ti_holes : list (option (R * R)) }.
Definition trigen_new (npoint nsegment nregion nhole : nat) : res tri_in :=
  if (npoint <? 3)%nat then Err "npoint must be >= 3" else
  if (nsegment <? 3)%nat then Err "nsegment must be >= 3" else
  Ok (mkTriIn (repeat None npoint) (repeat None nsegment) (repeat None nregion) (repeat None nhole)).
Definition tri_point (t : tri_in) (i : nat) (mk : Z) (x y : R) : res tri_in :=
  let! l := put (ti_points t) i (mk, x, y) in Ok (mkTriIn l (ti_segments t) (ti_regions t) (ti_holes t)).
Definition tri_segment (t : tri_in) (i : nat) (mk : Z) (a b : nat) : res tri_in :=
  if ((a <? List.length (ti_points t)) && (b <? List.length (ti_points t)))%nat then
    let! l := put (ti_segments t) i (mk, a, b) in Ok (mkTriIn (ti_points t) l (ti_regions t) (ti_holes t))
  else Err "point number out of range".
Definition tri_region (t : tri_in) (i : nat) (mk : Z) (x y : R) (max_area : option R) : res tri_in :=
  let! l := put (ti_regions t) i (mk, x, y, max_area) in Ok (mkTriIn (ti_points t) (ti_segments t) l (ti_holes t)).
Definition tri_hole (t : tri_in) (i : nat) (x y : R) : res tri_in :=
  let! l := put (ti_holes t) i (x, y) in Ok (mkTriIn (ti_points t) (ti_segments t) (ti_regions t) l).
(* what Trigen returns: points, nodes per cell, cells (marker, points), segments *)
Record tri_out := mkTriOut {
  to_points : list (Z * R * R);
  to_nnode : nat;
  to_cells : list (Z * list nat);
  to_segments : list (Z * nat * nat) }.

(* Tetgen: points, facets (marker, points), regions, holes *)
Record tet_in := mkTetIn {
  ei_points : list (option (Z * R * R * R));
  ei_facet_markers : list (option Z);
  ei_facets : list (list (option nat));
  ei_regions : list (option (Z * R * R * R * option R));
  ei_holes : list (option (R * R * R)) }.
Definition tetgen_new (npoint : nat) (facet_npoint : list nat) (nregion nhole : nat) : res tet_in :=
  if (npoint <? 4)%nat then Err "npoint must be >= 4" else
  if (List.length facet_npoint <? 4)%nat then Err "nfacet must be >= 4" else
  if existsb (fun n => (n <? 3)%nat) facet_npoint then Err "npoint of a facet must be >= 3" else
  Ok (mkTetIn (repeat None npoint) (repeat None (List.length facet_npoint)) (map (fun n => repeat None n) facet_npoint)
        (repeat None nregion) (repeat None nhole)).
Definition tet_point (t : tet_in) (i : nat) (mk : Z) (x y z : R) : res tet_in :=
  let! l := put (ei_points t) i (mk, x, y, z) in
  Ok (mkTetIn l (ei_facet_markers t) (ei_facets t) (ei_regions t) (ei_holes t)).
Definition tet_facet_marker (t : tet_in) (i : nat) (mk : Z) : res tet_in :=
  let! l := put (ei_facet_markers t) i mk in
  Ok (mkTetIn (ei_points t) l (ei_facets t) (ei_regions t) (ei_holes t)).
Definition tet_facet_point (t : tet_in) (i m p : nat) : res tet_in :=
  if (p <? List.length (ei_points t))%nat then
    match nth_error (ei_facets t) i with
    | Some row => let! row := put row m p in let! l := set (ei_facets t) i row in
                  Ok (mkTetIn (ei_points t) (ei_facet_markers t) l (ei_regions t) (ei_holes t))
    | None => Err "index out of range"
    end
  else Err "point number out of range".
Definition tet_region (t : tet_in) (i : nat) (mk : Z) (x y z : R) (max_volume : option R) : res tet_in :=
  let! l := put (ei_regions t) i (mk, x, y, z, max_volume) in
  Ok (mkTetIn (ei_points t) (ei_facet_markers t) (ei_facets t) l (ei_holes t)).
Definition tet_hole (t : tet_in) (i : nat) (x y z : R) : res tet_in :=
  let! l := put (ei_holes t) i (x, y, z) in
  Ok (mkTetIn (ei_points t) (ei_facet_markers t) (ei_facets t) (ei_regions t) l).
Record tet_out := mkTetOut {
  eo_points : list (Z * R * R * R);
  eo_nnode : nat;
  eo_cells : list (Z * list nat);
  eo_faces : list (Z * list nat) }.     (* marked faces: marker and six point numbers *)

(* mesh.rs:194-238 new_zero_homogeneous over R (MeshQueryModel.new_zero_homogeneous over Q) *)
Definition zero_mesh (space_ndim npoint ncell : nat) (kind : geokind) : res (mesh R) :=
  if ((space_ndim <? 2) || (3 <? space_ndim))%nat then Err "space_ndim must be 2 or 3" else
  if (npoint <? 2)%nat then Err "npoint must be ≥ 2" else
  if (ncell <? 1)%nat then Err "ncell must be ≥ 1" else
  if (space_ndim <? kind_ndim kind)%nat then Err "geo_ndim cannot be greater than space_ndim" else
  Ok (mkMesh space_ndim
        (map (fun i => mkPoint i 0%Z (repeat 0 space_ndim)) (seq 0 npoint))
        (map (fun i => mkCell i 1%Z kind (repeat 0%nat (kind_nnode kind))) (seq 0 ncell))
        [] []).
Definition ok_or_panic {A} (x : res A) : res A := match x with Ok a => Ok a | NoFuel => NoFuel | _ => Panic end.

(* generators_tri_tet.rs:90-96, 139-145 *)
Definition fill_cells (nnode : nat) (out : list (Z * list nat)) (cs : list cell) : res (list cell) :=
  foldM (fun cs i =>
      let! o := get out i in
      let! c := get cs i in
      let! ps := foldM (fun ps m => let! p := get (snd o) m in set ps m p) (seq 0 nnode) (c_points c) in
      set cs i (mkCell i (fst o) (c_kind c) ps)) (seq 0 (List.length out)) cs.

(* generators_tri_tet.rs:73-108 *)
Definition from_trigen (t : tri_out) : res (mesh R) :=
  let npoint := List.length (to_points t) in
  let nnode := to_nnode t in
  let kind := if (nnode =? 6)%nat then Tri6 else Tri3 in
  let! m := ok_or_panic (zero_mesh 2 npoint (List.length (to_cells t)) kind) in
  let! pts := foldM (fun pts i => let! o := get (to_points t) i in
      let '(mk, x, y) := (o : Z * R * R) in set pts i (mkPoint i mk [x; y])) (seq 0 npoint) (points m) in
  let! cs := fill_cells nnode (to_cells t) (cells m) in
  Ok (mkMesh 2 pts cs (filter (fun s => negb (fst (fst s) =? 0)%Z) (to_segments t)) []).

(* generators_tri_tet.rs:117-157 *)
Definition from_tetgen (t : tet_out) : res (mesh R) :=
  let npoint := List.length (eo_points t) in
  let nnode := eo_nnode t in
  let kind := if (nnode =? 10)%nat then Tet10 else Tet4 in
  let! m := ok_or_panic (zero_mesh 3 npoint (List.length (eo_cells t)) kind) in
  let! pts := foldM (fun pts i => let! o := get (eo_points t) i in
      let '(mk, x, y, z) := (o : Z * R * R * R) in
      let marker := if (mk =? 1)%Z then 0%Z else mk in
      set pts i (mkPoint i marker [x; y; z])) (seq 0 npoint) (points m) in
  let! cs := fill_cells nnode (eo_cells t) (cells m) in
  let! fs := foldM (fun fs f =>
      if (fst f =? 0)%Z then Ok fs else
      let! a := get (snd f) 0 in
      let! b := get (snd f) 1 in
      let! c := get (snd f) 2 in
      Ok (fs ++ [(fst f, a, b, c, None)])) (eo_faces t) [] in
  Ok (mkMesh 3 pts cs [] fs).

(* generators_tri_tet.rs:24-69 *)
Definition TOL : R := / 10 ^ 15.
Definition snap (r : R) (c : list R) : list R :=
  match c with
  | x :: y :: rest =>
      let d := sqrt (x * x + y * y) in
      let gap := r - d in
      if Rltb TOL (Rabs gap) then (x + gap * x / d) :: (y + gap * y / d) :: rest else c
  | _ => c                  (* an index panic in the code; all points have ndim >= 2 coordinates *)
  end.
Definition constrain (rmin rmax : R) (p : point R) : point R :=
  let p := if (pt_marker p =? MARKER_INNER)%Z then mkPoint (pt_id p) (pt_marker p) (snap rmin (pt_coords p)) else p in
  if (pt_marker p =? MARKER_OUTER)%Z then mkPoint (pt_id p) (pt_marker p) (snap rmax (pt_coords p)) else p.
Definition apply_constraints (m : mesh R) (rmin rmax : R) : mesh R :=
  mkMesh (ndim m) (map (constrain rmin rmax) (points m)) (cells m) (marked_edges m) (marked_faces m).

Section Unstructured.
Variable leb : R -> R -> bool.                        (* order of coordinates, see TopoModel *)
Variable shuffle : emap -> emap.                      (* iteration order of the map of edges *)
(* Trigen::generate_mesh(verbose, quadratic, allow_new_points_on_bry, max_area, min_angle) followed by the getters *)
Variable gen2 : tri_in -> bool -> bool -> option R -> option R -> res tri_out.
(* Tetgen::generate_mesh(verbose, o2, max_volume, min_angle) followed by the getters *)
Variable gen3 : tet_in -> bool -> option R -> option R -> res tet_out.

Definition maybe_renumbered (renumber : bool) (m : mesh R) : res (mesh R) :=
  if renumber then renumber_mesh m false else Ok m.
Definition max_of (o : option (list (Z * R))) (mk : Z) : option R :=
  match o with None => None | Some l => mget Z.eqb l mk end.

(* generators_tri_tet.rs:160-237 *)
Definition call_trigen (pslg : mesh R) (holes : list (R * R)) (o2 : bool) (max_areas : option (list (Z * R)))
    (global_max_area global_min_angle : option R) (renumber : bool) : res (mesh R) :=
  if negb (ndim pslg =? 2)%nat then Err "the PSLG mesh must be 2D" else
  let npoint := List.length (points pslg) in
  let! ft := features_new leb shuffle pslg true in
  let nsegment := List.length (ft_edges ft) in
  let! t := trigen_new npoint nsegment (List.length (cells pslg)) (List.length holes) in
  let! t := foldM (fun t i =>
      let! p := get (points pslg) i in
      let! x := get (pt_coords p) 0 in
      let! y := get (pt_coords p) 1 in
      tri_point t i (pt_marker p) x y) (seq 0 npoint) t in
  let keys := isort ekey_leb (map fst (ft_edges ft)) in
  let! t := foldM (fun t i =>
      let! k := get keys i in
      let! ed := unwrap (mget ekey_eqb (ft_edges ft) k) in
      match e_points ed with
      | [a; b] => tri_segment t i (e_marker ed) a b
      | _ => Err "edges must have 2 points"
      end) (seq 0 (List.length keys)) t in
  let! t := foldM (fun t c =>
      let! cen := foldM (fun (s : R * R) p =>
          let! pt := get (points pslg) p in
          let! x := get (pt_coords pt) 0 in
          let! y := get (pt_coords pt) 1 in
          Ok (fst s + x, snd s + y)) (c_points c) (0, 0) in
      let n := INR (List.length (c_points c)) in
      tri_region t (c_id c) (c_marker c) (fst cen / n) (snd cen / n) (max_of max_areas (c_marker c))) (cells pslg) t in
  let! t := foldM (fun t (ih : nat * (R * R)) => tri_hole t (fst ih) (fst (snd ih)) (snd (snd ih)))
      (combine (seq 0 (List.length holes)) holes) t in
  let! out := gen2 t o2 true global_max_area global_min_angle in
  let! m := from_trigen out in
  maybe_renumbered renumber m.

(* generators_tri_tet.rs:242-332 *)
Definition set_facet (t : tet_in) (i : nat) (mk : Z) (ps : list nat) : res tet_in :=
  let! t := tet_facet_marker t i mk in
  foldM (fun t (mp : nat * nat) => tet_facet_point t i (fst mp) (snd mp)) (combine (seq 0 (List.length ps)) ps) t.
Definition call_tetgen (plc : mesh R) (regions : list (Z * R * R * R)) (holes : list (R * R * R)) (o2 : bool)
    (max_volumes : option (list (Z * R))) (global_max_volume global_min_angle : option R) (renumber : bool) : res (mesh R) :=
  if negb (ndim plc =? 3)%nat then Err "the PLC mesh must be 3D" else
  let npoint := List.length (points plc) in
  let! ft := features_new leb shuffle plc true in
  let! shells := mapM (fun id => get (cells plc) id) (ft_shells ft) in
  let keys := isort fkey_leb (map fst (ft_faces ft)) in
  let! faces := mapM (fun k => unwrap (mget fkey_eqb (ft_faces ft) k)) keys in
  let facet_npoint := map (fun c => List.length (c_points c)) shells ++ map (fun f => List.length (f_points f)) faces in
  let! t := tetgen_new npoint facet_npoint (List.length regions) (List.length holes) in
  let! t := foldM (fun t i =>
      let! p := get (points plc) i in
      let! x := get (pt_coords p) 0 in
      let! y := get (pt_coords p) 1 in
      let! z := get (pt_coords p) 2 in
      tet_point t i (pt_marker p) x y z) (seq 0 npoint) t in
  let! t := foldM (fun t (ic : nat * cell) => set_facet t (fst ic) (c_marker (snd ic)) (c_points (snd ic)))
      (combine (seq 0 (List.length shells)) shells) t in
  let start := List.length (ft_shells ft) in
  let! t := foldM (fun t (jf : nat * face) => set_facet t (start + fst jf) (f_marker (snd jf)) (f_points (snd jf)))
      (combine (seq 0 (List.length faces)) faces) t in
  let! t := foldM (fun t (ir : nat * (Z * R * R * R)) =>
      let '(mk, x, y, z) := snd ir in tet_region t (fst ir) mk x y z (max_of max_volumes mk))
      (combine (seq 0 (List.length regions)) regions) t in
  let! t := foldM (fun t (ih : nat * (R * R * R)) => let '(x, y, z) := snd ih in tet_hole t (fst ih) x y z)
      (combine (seq 0 (List.length holes)) holes) t in
  let! out := gen3 t o2 global_max_volume global_min_angle in
  let! m := from_tetgen out in
  maybe_renumbered renumber m.

(* ---- quarter ring in 2D: generators_tri_tet.rs:386-503 ---- *)
(* one point and the segment from the point before; the state is (trigen, p) *)
Definition next_point (mk seg : Z) (x y : R) (st : tri_in * nat) : res (tri_in * nat) :=
  let! t := tri_point (fst st) (snd st) mk x y in
  let! t := tri_segment t (snd st - 1) seg (snd st - 1) (snd st) in
  Ok (t, S (snd st)).
Definition ring_input (rmin rmax : R) (nr na : nat) : res tri_in :=
  let npoint := (2 * (nr + 1) + 2 * (na - 1))%nat in
  let! t := trigen_new npoint npoint 1 0 in
  let amax := PI / 2 in
  let dr := (rmax - rmin) / INR nr in
  let da := (amax - 0) / INR na in
  let! t := tri_point t 0 MARKER_A rmin 0 in
  let! st := foldM (fun st i =>
      let marker := if (i =? nr)%nat then MARKER_C else 0%Z in
      next_point marker MARKER_SYM_X (rmin + INR i * dr) 0 st) (seq 1 nr) (t, 1%nat) in
  let! st := foldM (fun st i =>
      let marker := if (i =? na)%nat then MARKER_D else 0%Z in
      let a := 0 + INR i * da in
      let '(x, y) := if (i =? na)%nat then (0, rmax) else (rmax * cos a, rmax * sin a) in
      next_point marker MARKER_OUTER x y st) (seq 1 na) st in
  let! st := foldM (fun st i =>
      let marker := if (i =? nr)%nat then MARKER_B else 0%Z in
      next_point marker MARKER_SYM_Y 0 (rmin + INR (nr - i) * dr) st) (seq 1 nr) st in
  let! st := foldM (fun st i =>
      let a := 0 + INR (na - i) * da in
      next_point 0%Z MARKER_INNER (rmin * cos a) (rmin * sin a) st) (seq 1 (na - 1)) st in
  let! t := tri_segment (fst st) (snd st - 1) MARKER_INNER (snd st - 1) 0 in
  tri_region t 0 1%Z (rmin + / 10 ^ 4) (/ 10 ^ 4) None.

Definition quarter_ring_2d (rmin rmax : R) (nr na : nat) (target : geokind) (global_max_area : option R) (renumber : bool) : res (mesh R) :=
  if (nr <? 1)%nat then Err "number of divisions along the radius must be ≥ 1" else
  if (na <? 1)%nat then Err "number of divisions along alpha must be ≥ 1" else
  if negb (class_eqb (kind_class target) CTri) then Err "the GeoClass of target must be Tri" else
  let o2 := (3 <? kind_nnode target)%nat in
  let! t := ring_input rmin rmax nr na in
  let! out := gen2 t o2 true global_max_area None in
  let! m := from_trigen out in
  let m := apply_constraints m rmin rmax in
  if (6 <? kind_nnode target)%nat then
    let! new_mesh := convert_2d leb shuffle m target in
    Ok (apply_constraints new_mesh rmin rmax)
  else maybe_renumbered renumber m.

(* ---- quarter ring in 3D: generators_tri_tet.rs:553-767 ---- *)
Definition next_point_3d (mk : Z) (x y z : R) (st : tet_in * nat) : res (tet_in * nat) :=
  let! t := tet_point (fst st) (snd st) mk x y z in Ok (t, S (snd st)).
(* generators_tri_tet.rs:608-651: the points of one level *)
Definition ring_level (rmin rmax z : R) (nr na : nat) (st : tet_in * nat) : res (tet_in * nat) :=
  let amax := PI / 2 in
  let dr := (rmax - rmin) / INR nr in
  let da := (amax - 0) / INR na in
  let! st := next_point_3d MARKER_A rmin 0 z st in
  let! st := foldM (fun st i =>
      let marker := if (i =? nr)%nat then MARKER_C else 0%Z in
      next_point_3d marker (rmin + INR i * dr) 0 z st) (seq 1 nr) st in
  let! st := foldM (fun st i =>
      let marker := if (i =? na)%nat then MARKER_D else 0%Z in
      let a := 0 + INR i * da in
      let '(x, y) := if (i =? na)%nat then (0, rmax) else (rmax * cos a, rmax * sin a) in
      next_point_3d marker x y z st) (seq 1 na) st in
  let! st := foldM (fun st i =>
      let marker := if (i =? nr)%nat then MARKER_B else 0%Z in
      next_point_3d marker 0 (rmin + INR (nr - i) * dr) z st) (seq 1 nr) st in
  foldM (fun st i =>
      let a := 0 + INR (na - i) * da in
      next_point_3d 0%Z (rmin * cos a) (rmin * sin a) z st) (seq 1 (na - 1)) st.

Definition ring_input_3d (rmin rmax thickness : R) (nr na : nat) : res tet_in :=
  let nz := 1%nat in
  let cap := (2 * (nr + 1) + 2 * (na - 1))%nat in
  let sym := (2 * (nr + 1))%nat in
  let npoint := (2 * cap)%nat in
  let facets_npoint := [cap; cap; sym; sym] ++ repeat 4%nat (na + na) in
  let! t := tetgen_new npoint facets_npoint 1 0 in
  let dz := thickness / INR nz in
  let! st := foldM (fun st k => ring_level rmin rmax (INR k * dz) nr na st) (seq 0 (nz + 1)) (t, 0%nat) in
  let t := fst st in
  let a := 0%nat in
  let b := (a + nr + na + nr)%nat in
  let c := (a + nr)%nat in
  let d := (b - nr)%nat in
  let aa := (a + cap)%nat in let bb := (b + cap)%nat in let cc := (c + cap)%nat in let dd := (d + cap)%nat in
  let! t := tet_facet_marker t 0 MARKER_ZMIN in
  let! t := foldM (fun t i => tet_facet_point t 0 i (a + i)) (seq 0 cap) t in
  let! t := tet_facet_marker t 1 MARKER_ZMAX in
  let! t := foldM (fun t i => tet_facet_point t 1 i (aa + i)) (seq 0 cap) t in
  let! t := tet_facet_marker t 2 MARKER_SYM_X in
  let! t := foldM (fun t i =>
      let! t := tet_facet_point t 2 i (a + i) in
      tet_facet_point t 2 (nr + 1 + nr - i) (aa + i)) (seq 0 (nr + 1)) t in
  let! t := tet_facet_marker t 3 MARKER_SYM_Y in
  let! t := foldM (fun t i =>
      let! t := tet_facet_point t 3 i (b - i) in
      tet_facet_point t 3 (nr + 1 + nr - i) (bb - i)) (seq 0 (nr + 1)) t in
  let! t := foldM (fun t i =>
      let! t := tet_facet_marker t (4 + i) MARKER_INNER in
      foldM (fun t (mp : nat * nat) => tet_facet_point t (4 + i) (fst mp) (snd mp + i))
        [(0, b); (1, b + 1); (2, bb + 1); (3, bb)]%nat t) (seq 0 (na - 1)) t in
  let last := (4 + na - 1)%nat in
  let! t := tet_facet_marker t last MARKER_INNER in
  let! t := tet_facet_point t last 0 (b + na - 1) in
  let! t := tet_facet_point t last 1 a in
  let! t := tet_facet_point t last 2 aa in
  let! t := tet_facet_point t last 3 (bb + na - 1) in
  let! t := foldM (fun t i =>
      let! t := tet_facet_marker t (4 + na + i) MARKER_OUTER in
      foldM (fun t (mp : nat * nat) => tet_facet_point t (4 + na + i) (fst mp) (snd mp + i))
        [(0, c); (1, c + 1); (2, cc + 1); (3, cc)]%nat t) (seq 0 (na - 1)) t in
  let last := (4 + na + na - 1)%nat in
  let! t := tet_facet_marker t last MARKER_OUTER in
  let! t := tet_facet_point t last 0 (c + na - 1) in
  let! t := tet_facet_point t last 1 d in
  let! t := tet_facet_point t last 2 dd in
  let! t := tet_facet_point t last 3 (cc + na - 1) in
  tet_region t 0 1%Z (rmin + / 10 ^ 4) (/ 10 ^ 4) (/ 10 ^ 4) None.

(* generators_tri_tet.rs:744-757: markers of points on marked faces *)
Definition mark_points (n_face_point : nat) (faces : list (Z * list nat)) (pts : list (point R)) : res (list (point R)) :=
  foldM (fun pts (f : Z * list nat) =>
      foldM (fun pts m =>
          let! p := get (snd f) m in
          let! pt := get pts p in
          if ((pt_marker pt =? 0) || (pt_marker pt <? fst f))%Z
          then set pts p (mkPoint (pt_id pt) (fst f) (pt_coords pt))
          else Ok pts) (seq 0 n_face_point) pts) faces pts.

(* generators_tri_tet.rs:548-769 quarter_ring_3d *)
Definition quarter_ring_3d (rmin rmax thickness : R) (nr na : nat) (target : geokind) (global_max_volume : option R) (renumber : bool)
    : res (mesh R) :=
  if (nr <? 1)%nat then Err "number of divisions along the radius must be ≥ 1" else
  if (na <? 1)%nat then Err "number of divisions along alpha must be ≥ 1" else
  if Rleb thickness 0 then Err "thickness must be > 0.0" else
  if negb (class_eqb (kind_class target) CTet) then Err "the GeoClass of target must be Tet" else
  if negb (kind_eqb target Tet4) && negb (kind_eqb target Tet10) then Err "only Tet4 and Tet10 are available currently" else
  let o2 := (4 <? kind_nnode target)%nat in
  let! t := ring_input_3d rmin rmax thickness nr na in
  let! out := gen3 t o2 global_max_volume None in
  let! m := from_tetgen out in
  let! pts := mark_points (if o2 then 6 else 3)%nat (eo_faces out) (points m) in
  let m := apply_constraints (mkMesh (ndim m) pts (cells m) (marked_edges m) (marked_faces m)) rmin rmax in
  maybe_renumbered renumber m.
End Unstructured.
