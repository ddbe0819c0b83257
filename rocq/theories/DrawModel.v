(* The wireframe of the cells of a mesh: what is sent to the canvas of plotpy.
   Modelled:
   - Mesh::draw_cell and Mesh::add_curve  (src/mesh/draw_cell.rs:17-300)
   - Scratchpad::draw_shape (the edges) and draw_edge (src/shapes/scratchpad_draw_shape.rs:16-190)
   A Canvas is the list of the drawing commands that it received; colours and line widths are not modelled.
   f64 is modelled by R; ONE_BY_3 (russell_lab) is 1/3. *)
From Coq Require Import String Reals List Arith Bool.
From Verif Require Import Base Kind MeshModel ShapesModel PadModel.
Import ListNotations.
Local Open Scope string_scope.
Local Open Scope list_scope.
Local Open Scope R_scope.

(* plotpy::PolyCode *)
Inductive polycode := MoveTo | LineTo | Curve3 | Curve4.
(* the methods of plotpy::Canvas: polycurve_begin, polycurve_add, polycurve_end, polyline_3d_begin, polyline_3d_add, polyline_3d_end *)
Inductive dcmd :=
| PcBegin | PcAdd (x y : R) (c : polycode) | PcEnd (closed : bool)
| PlBegin | PlAdd (x y z : R) | PlEnd.
Definition canvas := list dcmd.

(* pp[ii[i]].coords[j] *)
Definition pcoord (m : mesh R) (ii : list nat) (i j : nat) : res R :=
  let! id := get ii i in
  let! p := get (points m) id in
  get (pt_coords p) j.
Definition point_2d (m : mesh R) (ii : list nat) (i : nat) : res (R * R) :=
  let! x := pcoord m ii i 0 in let! y := pcoord m ii i 1 in Ok (x, y).
Definition point_3d (m : mesh R) (ii : list nat) (i : nat) : res (R * R * R) :=
  let! x := pcoord m ii i 0 in let! y := pcoord m ii i 1 in let! z := pcoord m ii i 2 in Ok (x, y, z).

Definition pc_add (p : R * R) (c : polycode) : dcmd := PcAdd (fst p) (snd p) c.
Definition pl_add (p : R * R * R) : dcmd := PlAdd (fst (fst p)) (snd (fst p)) (snd p).
(* the parts of add_curve that depend on the flags begin and end *)
Definition pc_first (begin : bool) (a : R * R) : list dcmd := if begin then [PcBegin; pc_add a MoveTo] else [].
Definition pc_last (fin : bool) : list dcmd := if fin then [PcEnd false] else [].
Definition pl_last (fin : bool) : list dcmd := if fin then [PlEnd] else [].

(* draw_cell.rs:194-195 control point of the quadratic Bezier curve, one coordinate *)
Definition quad_control (a b c : R) : R := (- a - b + 4 * c) / 2.
(* draw_cell.rs:227-230 and 266-269 control points of the cubic Bezier curve, one coordinate *)
Definition cubic_control_c (a b c d : R) : R := (-5 * a + 2 * b + 18 * c - 9 * d) / 6.
Definition cubic_control_d (a b c d : R) : R := (2 * a - 5 * b - 9 * c + 18 * d) / 6.

Definition cubic (a b c d : R * R) : list dcmd :=
  [pc_add (cubic_control_c (fst a) (fst b) (fst c) (fst d), cubic_control_c (snd a) (snd b) (snd c) (snd d)) Curve4;
   pc_add (cubic_control_d (fst a) (fst b) (fst c) (fst d), cubic_control_d (snd a) (snd b) (snd c) (snd d)) Curve4;
   pc_add b Curve4].

(* draw_cell.rs:254-259: the Scratchpad of the Lin5 *)
Definition lin5_pad (m : mesh R) (ii : list nat) : res pad :=
  let! p0 := match pad_new (ndim m) Lin5 with Ok p => Ok p | _ => Panic end in
  foldM (fun (p : pad) i =>
      foldM (fun (p : pad) j => let! v := pcoord m ii i j in set_xx p i j v) (seq 0 (ndim m)) p)
    (seq 0 (List.length ii)) p0.
Definition lin5_point (n : nat) (p : pad) (z : R) : res (R * R) :=
  match pad_coords p n [z; 0] with
  | Ok r => let! x := get (fst r) 0 in let! y := get (fst r) 1 in Ok (x, y)
  | _ => Panic  (* unwrap *)
  end.

(* draw_cell.rs:158-299; the lines of a polyline in 3D start with the first node only when [begin] *)
Definition add_curve (m : mesh R) (cv : canvas) (lk : geokind) (ii : list nat) (begin fin : bool) : res canvas :=
  match lk with
  | Lin2 | Lin3 | Lin4 | Lin5 =>
    if (ndim m =? 2)%nat then
      match lk with
      | Lin2 =>
          let! a := (if begin then point_2d m ii 0 else Ok (0, 0)) in
          let! b := point_2d m ii 1 in
          Ok (cv ++ pc_first begin a ++ [pc_add b LineTo] ++ pc_last fin)
      | Lin3 =>
          let! a := point_2d m ii 0 in
          let! b := point_2d m ii 1 in
          let! c := point_2d m ii 2 in
          Ok (cv ++ pc_first begin a ++
              [pc_add (quad_control (fst a) (fst b) (fst c), quad_control (snd a) (snd b) (snd c)) Curve3; pc_add b Curve3] ++ pc_last fin)
      | Lin4 =>
          let! a := point_2d m ii 0 in
          let! b := point_2d m ii 1 in
          let! c := point_2d m ii 2 in
          let! d := point_2d m ii 3 in
          Ok (cv ++ pc_first begin a ++ cubic a b c d ++ pc_last fin)
      | _ =>
          let! p := lin5_pad m ii in
          let! a := point_2d m ii 0 in
          let! b := point_2d m ii 1 in
          let! c := lin5_point (ndim m) p (- (1 / 3)) in
          let! d := lin5_point (ndim m) p (1 / 3) in
          Ok (cv ++ pc_first begin a ++ cubic a b c d ++ pc_last fin)
      end
    else
      (* draw_cell.rs:177-186, 208-220, 238-251, 281-296: the nodes along the line *)
      let! head := (if begin then let! a := point_3d m ii 0 in Ok [PlBegin; pl_add a] else Ok []) in
      let! tail := foldM (fun (l : list dcmd) i => let! p := point_3d m ii i in Ok (l ++ [pl_add p]))
                     (match lk with Lin2 => [1] | Lin3 => [2; 1] | Lin4 => [2; 3; 1] | _ => [3; 2; 4; 1] end)%nat [] in
      Ok (cv ++ head ++ tail ++ pl_last fin)
  | _ => Panic
  end.

(* draw_cell.rs:24-155: the calls of add_curve for each kind: the kind of the line, the local nodes, begin, end *)
Definition edge_row (k : geokind) (n e : nat) : list nat * (bool * bool) := (map (edge_node_id k e) (seq 0 n), (true, true)).
Definition edge_rows (k : geokind) (n : nat) : list (list nat * (bool * bool)) := map (edge_row k n) (seq 0 (kind_nedge k)).
Definition draw_rows (k : geokind) : geokind * list (list nat * (bool * bool)) :=
  match k with
  | Lin2 | Lin3 | Lin4 | Lin5 => (k, [])  (* see draw_cell *)
  | Tri3 => (Lin2, [([0; 1], (true, false)); ([1; 2], (false, false)); ([2; 0], (false, true))])
  | Tri6 => (Lin3, [([0; 1; 3], (true, false)); ([1; 2; 4], (false, false)); ([2; 0; 5], (false, true))])
  | Tri10 => (Lin4, [([0; 1; 3; 6], (true, false)); ([1; 2; 4; 7], (false, false)); ([2; 0; 5; 8], (false, true))])
  | Tri15 => (Lin5, [([0; 1; 3; 6; 7], (true, false)); ([1; 2; 4; 8; 9], (false, false)); ([2; 0; 5; 10; 11], (false, true))])
  | Qua4 => (Lin2, [([0; 1], (true, false)); ([1; 2], (false, false)); ([2; 3], (false, false)); ([3; 0], (false, true))])
  | Qua8 | Qua9 =>
      (Lin3, [([0; 1; 4], (true, false)); ([1; 2; 5], (false, false)); ([2; 3; 6], (false, false)); ([3; 0; 7], (false, true))])
  | Qua12 | Qua16 =>
      (Lin4, [([0; 1; 4; 8], (true, false)); ([1; 2; 5; 9], (false, false)); ([2; 3; 6; 10], (false, false)); ([3; 0; 7; 11], (false, true))])
  | Qua17 =>
      (Lin5, [([0; 1; 4; 9; 10], (true, false)); ([1; 2; 5; 11; 12], (false, false)); ([2; 3; 6; 13; 14], (false, false)); ([3; 0; 7; 15; 16], (false, true))])
  | Tet4 | Hex8 => (Lin2, edge_rows k 2)
  | Tet10 | Hex20 => (Lin3, edge_rows k 3)
  | Tet20 | Hex32 => (Lin4, edge_rows k 4)
  end%nat.

(* &[ii[a], ii[b], ...] *)
Definition pick (ii ns : list nat) : res (list nat) :=
  foldM (fun (l : list nat) n => let! i := get ii n in Ok (l ++ [i])) ns [].

(* draw_cell.rs:17-157 *)
Definition draw_cell (m : mesh R) (cv : canvas) (cell_id : nat) : res canvas :=
  if (List.length (cells m) <=? cell_id)%nat then Err "cell_id is out-of-range" else
  let! cl := get (cells m) cell_id in
  let ii := c_points cl in
  match c_kind cl with
  | Lin2 | Lin3 | Lin4 | Lin5 => add_curve m cv (c_kind cl) ii true true
  | k =>
      foldM (fun (cv : canvas) (r : list nat * (bool * bool)) =>
          let! ps := pick ii (fst r) in
          add_curve m cv (fst (draw_rows k)) ps (fst (snd r)) (snd (snd r)))
        (snd (draw_rows k)) cv
  end.

(* scratchpad_draw_shape.rs:155-189: N = 11 points along the edge; the pad is not returned (only its
   scratch fields change) *)
Definition draw_edge (cv : canvas) (p : pad) : res canvas :=
  let n := p_space p in
  let pt (i : nat) : res (list R) :=
    let! r := pad_coords p n [-1 + 2 * INR i / INR 10] in Ok (fst r) in
  if (n =? 2)%nat then
    let! l := foldM (fun (l : list dcmd) i =>
        let! x := pt i in
        let! a := get x 0 in let! b := get x 1 in
        Ok (l ++ [PcAdd a b (if (i =? 0)%nat then MoveTo else LineTo)])) (seq 0 11) [] in
    Ok (cv ++ [PcBegin] ++ l ++ [PcEnd false])
  else
    let! l := foldM (fun (l : list dcmd) i =>
        let! x := pt i in
        let! a := get x 0 in let! b := get x 1 in let! c := get x 2 in
        Ok (l ++ [PlAdd a b c])) (seq 0 11) [] in
    Ok (cv ++ [PlBegin] ++ l ++ [PlEnd]).

(* scratchpad_draw_shape.rs:23-43: the canvas with the edges *)
Definition draw_shape_edges (p : pad) : res canvas :=
  if negb (p_ok p) then Err "all components of the coordinates matrix must be set first" else
  if (p_geo p =? 1)%nat then draw_edge [] p
  else
    let! ek := match kind_edge_kind (p_kind p) with Some k => Ok k | None => Panic end in
    let! edge_pad := pad_new (p_space p) ek in
    let! st := foldM (fun (st : canvas * pad) e =>
        let! ep := foldM (fun (ep : pad) i =>
            foldM (fun (ep : pad) j =>
                let! row := get (p_xxt p) j in
                let! v := get row (edge_node_id (p_kind p) e i) in
                set_xx ep i j v) (seq 0 (p_space p)) ep)
          (seq 0 (kind_edge_nnode (p_kind p))) (snd st) in
        let! cv := draw_edge (fst st) ep in
        Ok (cv, ep)) (seq 0 (kind_nedge (p_kind p))) ([], edge_pad) in
    Ok (fst st).
