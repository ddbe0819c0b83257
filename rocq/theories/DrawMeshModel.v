(* The picture of a whole mesh: what the functions of Draw send to the canvases of plotpy.
   Modelled (src/mesh/draw.rs):
   - point_dots, point_ids, cells, cell_ids     (687-813)
   - edge_markers, face_markers, normal_vectors (816-980)
   - boundary_edges_3d, boundary_faces          (983-1010)
   - all, up to the configuration of the figure  (1076-1115)
   Each canvas is the list of what it received.  Callbacks, zoom, camera, glyphs, colours are not modelled; the canvases of a
   new Draw are empty.  f64 is modelled by R. *)
From Coq Require Import String Reals QArith List Arith Bool ZArith.
From Verif Require Import Base Kind MeshModel GraphModel TopoModel ShapesModel GeomModel PadModel TriSurfModel DrawModel.
Import ListNotations.
Local Open Scope string_scope.
Local Open Scope list_scope.
Local Open Scope R_scope.

(* a text: position, angle in degrees, the number shown and the number in parentheses *)
Record label := mkLabel { lb_pos : list R; lb_angle : R; lb_number : Z; lb_paren : option Z }.
(* an arrow or a line with two points *)
Definition arrow := (list R * list R)%type.

(* the coordinates sent to draw / draw_3d / points_add / ... : the first two or three entries *)
Definition shown (n : nat) (x : list R) : res (list R) :=
  if (n =? 2)%nat then let! a := get x 0 in let! b := get x 1 in Ok [a; b]
  else let! a := get x 0 in let! b := get x 1 in let! c := get x 2 in Ok [a; b; c].

(* draw.rs:687-703 *)
Definition point_dots (m : mesh R) : res (list (list R)) := mapM (fun p : point R => shown (ndim m) (pt_coords p)) (points m).
(* draw.rs:708-731 *)
Definition point_ids (show_marker : bool) (m : mesh R) : res (list label) :=
  mapM (fun p : point R =>
      let! x := shown (ndim m) (pt_coords p) in
      Ok (mkLabel x 0 (Z.of_nat (pt_id p)) (if negb (Z.eqb (pt_marker p) 0) && show_marker then Some (pt_marker p) else None)))
    (points m).

(* draw.rs:734-764: the wireframe of the cells, that of lines, and the triangulation of the shells *)
Definition draw_cells (m : mesh R) : res (canvas * canvas * option triang) :=
  let! st := foldM (fun (st : canvas * canvas) c =>
      let! cl := get (cells m) c in
      if (kind_ndim (c_kind cl) =? 1)%nat
      then let! cv := draw_cell m (snd st) c in Ok (fst st, cv)
      else let! cv := draw_cell m (fst st) c in Ok (cv, snd st))
    (seq 0 (List.length (cells m))) ([], []) in
  let shells := filter (fun cl => (ndim m =? 3)%nat && (match kind_class (c_kind cl) with CTri | CQua => true | _ => false end)) (cells m) in
  match shells with
  | [] => Ok (fst st, snd st, None)
  | _ => let! tr := from_surface m (map (fun cl => (c_kind cl, c_points cl)) shells) in Ok (fst st, snd st, Some tr)
  end.

(* mesh.points[id].coords[i] *)
Definition coord (m : mesh R) (id i : nat) : res R := let! p := get (points m) id in get (pt_coords p) i.
(* draw.rs:780-799: the position of the label *)
Definition label_pos (m : mesh R) (cl : cell) : res (list R) :=
  match c_kind cl with
  | Qua9 | Qua17 =>
      mapM (fun i => let! p0 := get (c_points cl) 0 in let! a := coord m p0 i in
                     let! p2 := get (c_points cl) 2 in let! b := coord m p2 i in
                     Ok ((3 * a + b) / 4)) (seq 0 (ndim m))
  | Tri10 =>
      mapM (fun i => let! p0 := get (c_points cl) 0 in let! a := coord m p0 i in
                     let! p9 := get (c_points cl) 9 in let! b := coord m p9 i in
                     Ok ((a + b) / 2)) (seq 0 (ndim m))
  | _ =>
      let! x := foldM (fun (x : list R) p =>
          foldM (fun (x : list R) i => let! a := get x i in let! b := coord m p i in set x i (a + b)) (seq 0 (ndim m)) x)
        (c_points cl) (repeat 0 (ndim m)) in
      mapM (fun i => let! a := get x i in Ok (a / INR (List.length (c_points cl)))) (seq 0 (ndim m))
  end.
(* draw.rs:771-813 *)
Definition cell_ids (show_marker : bool) (m : mesh R) : res (list label) :=
  mapM (fun cl => let! x := label_pos m cl in
                  let! y := shown (ndim m) x in
                  Ok (mkLabel y 0 (Z.of_nat (c_id cl)) (if show_marker then Some (c_marker cl) else None))) (cells m).

(* draw.rs:823-827 (and 877-881, 916-920): the length of arrows; [big] stands for f64::MIN - f64::MAX, the value of max - min
   when there are no points *)
Definition extent (big : R) (lim : list (option R) * list (option R)) (i : nat) : R :=
  match nth i (fst lim) None, nth i (snd lim) None with Some a, Some b => b - a | _, _ => big end.
Definition arrow_length (big mult : R) (n : nat) (lim : list (option R) * list (option R)) : R :=
  sqrt (fold_left (fun s i => s + Rabs (extent big lim i) * Rabs (extent big lim i)) (seq 0 n) 0) * mult.

(* Scratchpad::new; set_pad; calc_normal_vector; calc_coords at ksi: the position and the normal vector *)
Definition normal_at (m : mesh R) (kd : geokind) (ps : list nat) (ksi : list R) : res (list R * list R) :=
  let! pad := pad_new (ndim m) kd in
  let! pad := mesh_set_pad m pad ps in
  let! r := calc_normal_vector pad (ndim m) ksi in
  let! x := pad_coords (snd r) (ndim m) ksi in
  Ok (fst x, snd (fst r)).
(* x + s un *)
Definition tip (n : nat) (s : R) (x un : list R) : res (list R) :=
  let! y := mapM (fun i => let! a := get x i in let! b := get un i in Ok (a + s * b)) (seq 0 n) in shown n y.
Definition draw_arrow (m : mesh R) (kd : geokind) (ps : list nat) (ksi : list R) (s : R) : res arrow :=
  let! r := normal_at m kd ps ksi in
  let! a := shown (ndim m) (fst r) in
  let! b := tip (ndim m) s (fst r) (snd r) in
  Ok (a, b).
(* draw.rs:873-874, 922-923: ksi3 and ksi4 *)
Definition face_middle (kd : geokind) : list R := match kind_class kd with CTri => [1/3; 1/3; 1/3] | _ => [0; 0; 0] end.

(* draw.rs:914-980; 2D: canvas_normals_2d, 3D: canvas_normals_3d.  The maps are iterated in any order [sh2], [sh3] *)
Definition normal_vectors (sh2 : list (ekey * edge) -> list (ekey * edge)) (sh3 : list (fkey * face) -> list (fkey * face))
    (big mult : R) (m : mesh R) (ft : @features R) : res (list arrow) :=
  let s := arrow_length big mult (ndim m) (ft_limits ft) in
  if (ndim m =? 2)%nat then
    foldM (fun (l : list arrow) (ke : ekey * edge) =>
        let! cs := unwrap (mget ekey_eqb (ft_all_2d_edges ft) (fst ke)) in
        if (List.length cs =? 1)%nat
        then let! a := draw_arrow m (e_kind (snd ke)) (e_points (snd ke)) [0; 0; 0] s in Ok (l ++ [a])
        else Ok l) (sh2 (ft_edges ft)) []
  else
    let! l := foldM (fun (l : list arrow) (kf : fkey * face) =>
        let! cs := unwrap (mget fkey_eqb (ft_all_faces ft) (fst kf)) in
        if (List.length cs =? 1)%nat
        then let! a := draw_arrow m (f_kind (snd kf)) (f_points (snd kf)) (face_middle (f_kind (snd kf))) s in Ok (l ++ [a])
        else Ok l) (sh3 (ft_faces ft)) [] in
    foldM (fun (l : list arrow) c =>
        let! cl := get (cells m) c in
        let! a := draw_arrow m (c_kind cl) (c_points cl) (face_middle (c_kind cl)) s in Ok (l ++ [a])) (ft_shells ft) l.

(* draw.rs:836-842: the angle of the text *)
Definition text_angle (tol u0 u1 : R) : R :=
  if Rltb (Rabs u1) tol then 0 else if Rltb (Rabs u0) tol then 90 else atan (u1 / u0) * 180 / PI.

(* draw.rs:818-862: labels and lines *)
Definition edge_markers (big mult tol : R) (m : mesh R) (ft : @features R) : res (list label * list arrow) :=
  let s := arrow_length big mult (ndim m) (ft_limits ft) in
  foldM (fun (st : list label * list arrow) (me : Z * nat * nat) =>
      let '(marker, p1, p2) := me in
      if (ndim m =? 2)%nat then
        match mget ekey_eqb (ft_edges ft) (sort2 (p1, p2)) with
        | None => Ok st
        | Some ed =>
            let! r := normal_at m (e_kind ed) (e_points ed) [0; 0] in
            let! u0 := get (snd r) 0 in
            let! u1 := get (snd r) 1 in
            let! pos := tip 2 (1 / 2 * s) (fst r) (snd r) in
            let! a := shown 2 (fst r) in
            let! b := tip 2 s (fst r) (snd r) in
            Ok (fst st ++ [mkLabel pos (text_angle tol u0 u1) marker None], snd st ++ [(a, b)])
        end
      else
        let! x := mapM (fun i => let! a := coord m p1 i in let! b := coord m p2 i in Ok (1 / 2 * (a + b))) (seq 0 (ndim m)) in
        let! y := shown (ndim m) x in
        Ok (fst st ++ [mkLabel y 0 marker None], snd st)) (marked_edges m) ([], []).

(* draw.rs:867-909 *)
Definition face_markers (big mult : R) (m : mesh R) (ft : @features R) : res (list label * list arrow) :=
  if (ndim m =? 2)%nat then Ok ([], []) else
  let s := arrow_length big mult (ndim m) (ft_limits ft) in
  foldM (fun (st : list label * list arrow) (mf : Z * nat * nat * nat * option nat) =>
      let '(marker, p1, p2, p3, p4) := mf in
      match mget fkey_eqb (ft_faces ft) (sort4 ([p1; p2; p3] ++ match p4 with Some p => [p] | None => [] end)) with
      | None => Ok st
      | Some fc =>
          let! r := normal_at m (f_kind fc) (f_points fc) (face_middle (f_kind fc)) in
          let! pos := tip 3 (1 / 2 * s) (fst r) (snd r) in
          let! a := shown 3 (fst r) in
          let! b := tip 3 s (fst r) (snd r) in
          Ok (fst st ++ [mkLabel pos 0 marker None], snd st ++ [(a, b)])
      end) (marked_faces m) ([], []).

(* draw.rs:983-998 *)
Definition boundary_edges_3d (m : mesh R) (ft : @features R) : res (list arrow) :=
  if negb (ndim m =? 3)%nat then Ok [] else
  let! ks := get_boundary_edges m ft in
  mapM (fun k : ekey =>
      let! a := get (points m) (fst k) in let! b := get (points m) (snd k) in
      let! x := shown 3 (pt_coords a) in let! y := shown 3 (pt_coords b) in Ok (x, y)) ks.
(* draw.rs:1001-1010 *)
Definition draw_boundary_faces (sh3 : list (fkey * face) -> list (fkey * face)) (m : mesh R) (ft : @features R) : res (option triang) :=
  if negb (ndim m =? 3)%nat then Ok None else
  let! tr := triangulate_3d_boundary sh3 m ft in
  Ok (match t_tris tr with [] => None | _ => Some tr end).

(* the flags of Draw and what is drawn; a canvas that is not used is None *)
Record flags := mkFlags { sh_cells : bool; sh_cell_ids : bool; sh_cell_marker : bool; sh_points : bool; sh_point_ids : bool; sh_point_marker : bool;
  sh_edge_markers : bool; sh_face_markers : bool; sh_normals : bool; sh_boundary_edges : bool; sh_boundary_faces : bool }.
Record picture := mkPicture { pc_cells : option (canvas * canvas * option triang); pc_cell_ids : option (list label);
  pc_points : option (list (list R)); pc_point_ids : option (list label);
  pc_edge_markers : option (list label * list arrow); pc_face_markers : option (list label * list arrow);
  pc_normals : option (list arrow); pc_faces : option (option triang); pc_edges : option (list arrow) }.
Definition when {A} (b : bool) (r : res A) : res (option A) := if b then let! x := r in Ok (Some x) else Ok None.

(* draw.rs:1076-1115; Features::new(mesh, false) *)
Definition draw_all (shuffle : emap -> emap) (sh2 : list (ekey * edge) -> list (ekey * edge)) (sh3 sh3' : list (fkey * face) -> list (fkey * face))
    (big m_normal m_marker tol : R) (fl : flags) (m : mesh R) : res picture :=
  let! a := when (sh_cells fl) (draw_cells m) in
  let! b := when (sh_cell_ids fl) (cell_ids (sh_cell_marker fl) m) in
  let! c := when (sh_points fl) (point_dots m) in
  let! d := when (sh_point_ids fl) (point_ids (sh_point_marker fl) m) in
  if sh_edge_markers fl || sh_face_markers fl || sh_normals fl || sh_boundary_edges fl || sh_boundary_faces fl then
    let! ft := features_new Rleb shuffle m false in
    let! e := when (sh_edge_markers fl) (edge_markers big m_marker tol m ft) in
    let! f := when (sh_face_markers fl) (face_markers big m_marker m ft) in
    let! g := when (sh_normals fl) (normal_vectors sh2 sh3 big m_normal m ft) in
    let! h := when (sh_boundary_faces fl) (draw_boundary_faces sh3' m ft) in
    let! i := when (sh_boundary_edges fl) (boundary_edges_3d m ft) in
    Ok (mkPicture a b c d e f g h i)
  else Ok (mkPicture a b c d None None None None None).
