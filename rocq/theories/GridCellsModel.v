(* Model of /repo/src/mesh/grid_cells.rs (construction and search).
   Real numbers stand for f64.  f64::MAX / f64::MIN as initial values of running minima and maxima are
   None here; f64::MIN as a value that is used afterwards is [f64_MIN].  Inner loops over the
   coordinates (`for i in 0..ndim`) are maps.  Display and the statistics are in GridReportModel; drawing is not modelled. *)
From Coq Require Import String List Arith Bool Reals ZArith.
From Verif Require Import Base Kind MeshModel TopoModel GeomModel GridModel.
Import ListNotations.
Open Scope R_scope.

Definition f64_MIN : R := - (2 ^ 1024 - 2 ^ 971).
(* grid_cells.rs:12-38 *)
Definition GRID_CELLS_TOLERANCE : R := / 10000.
Definition GRID_CELLS_BORDER_TOL : R := / 100.
Definition GRID_CELLS_LARGE_CUTOFF : R := 3 / 4.
Definition GRID_CELLS_LARGE_PCT : R := / 5.

(* f64::ceil(r) as usize *)
Definition ceil_usize (r : R) : nat := Z.to_nat (- Int_part (- r)).

Definition omin (o : option R) (x : R) : option R := Some (match o with Some v => Rmin v x | None => x end).
Definition omax (o : option R) (x : R) : option R := Some (match o with Some v => Rmax v x | None => x end).
Definition zip_with {A B C} (f : A -> B -> C) (l : list A) (l' : list B) : list C := map (fun p => f (fst p) (snd p)) (combine l l').
Definition or_default (o : option R) (d : R) : R := match o with Some v => v | None => d end.

Notation bbox := (list (R * R)).        (* [ndim] (min, max) *)
Definition box_len (b : R * R) : R := snd b - fst b.

(* grid_cells.rs:63-72 *)
Record gcells := mkGCells {
  gc_mesh : mesh R;
  gc_ndiv : list nat;
  gc_xmin : list R;
  gc_xmax : list R;
  gc_side : R;
  gc_boxes : list bbox;
  gc_containers : list (nat * list nat);
  gc_large : list nat }.

(* grid_cells.rs:145-164: state = (xmin, xmax, bounding box of the current cell); m = local number of the point *)
Definition scan_point (m : mesh R) (c : cell) (st : list (option R) * list (option R) * bbox) (k : nat)
    : res (list (option R) * list (option R) * bbox) :=
  let '(lo, hi, box) := st in
  let! p := get (c_points c) k in
  let! pt := get (points m) p in
  let! x := mapM (get (pt_coords pt)) (seq 0 (ndim m)) in
  Ok (zip_with omin lo x, zip_with omax hi x,
      if (k =? 0)%nat then map (fun v => (v, v)) x
      else zip_with (fun b v => (Rmin (fst b) v, Rmax (snd b) v)) box x).
(* grid_cells.rs:144-171: state = (xmin, xmax, box, largest, boxes) *)
Definition scan_cell (m : mesh R) (st : list (option R) * list (option R) * bbox * list (option R) * list bbox) (c : cell)
    : res (list (option R) * list (option R) * bbox * list (option R) * list bbox) :=
  let '(lo, hi, box, largest, boxes) := st in
  let! s := foldM (scan_point m c) (seq 0 (List.length (c_points c))) (lo, hi, box) in
  let '(lo, hi, box) := s in
  Ok (lo, hi, box, zip_with omax largest (map box_len box), boxes ++ [box]).

Definition max_list (l : list R) : res R := let! x := get l 0 in Ok (fold_left Rmax (tl l) x).

(* grid_cells.rs:180-197: state = (large cells, largest length below the cutoff) *)
Definition scan_large (cutoff largest : R) (st : list nat * option R) (ib : nat * bbox) : res (list nat * option R) :=
  let ls := map box_len (snd ib) in
  let! l := max_list ls in
  if Rleb (cutoff * largest) l then Ok (fst st ++ [fst ib], snd st)
  else Ok (fst st, fold_left omax ls (snd st)).

Definition pick (b : R * R) (r : nat) : R := match r with O => fst b | _ => snd b end.
(* grid_cells.rs:234-241 *)
Definition corner (nd : nat) (box : bbox) (r s t : nat) : res (list R) :=
  let! b0 := get box 0 in let! b1 := get box 1 in
  if (nd =? 3)%nat then let! b2 := get box 2 in Ok [pick b0 r; pick b1 s; pick b2 t]
  else Ok [pick b0 r; pick b1 s].
Definition corners (nd : nat) : list (nat * nat * nat) :=
  flat_map (fun r => flat_map (fun s => map (fun t => (r, s, t)) (seq 0 (nd - 1))) (seq 0 2)) (seq 0 2).
(* grid_cells.rs:227-248 *)
Definition insert_cell (nd : nat) (side : R) (ndiv : list nat) (xmin : list R) (large : list nat)
    (cs : list (nat * list nat)) (ib : nat * bbox) : res (list (nat * list nat)) :=
  if existsb (Nat.eqb (fst ib)) large then Ok cs
  else foldM (fun (cs : list (nat * list nat)) rst =>
    let '(r, s, t) := (rst : nat * nat * nat) in
    let! x := corner nd (snd ib) r s t in
    let! key := calc_container_key nd side ndiv xmin x in
    let c := match mget Nat.eqb cs key with Some c => c | None => [] end in
    Ok (mput Nat.eqb cs key (sadd Nat.eqb c (fst ib)))) (corners nd) cs.

(* grid_cells.rs:90-261.  With no cells the assertion in line 216 fails (limits never set). *)
Definition gc_new (m : mesh R) (tolerance border_tol large_cutoff large_pct : option R) : res gcells :=
  let nd := ndim m in
  let tolerance := or_default tolerance GRID_CELLS_TOLERANCE in
  if Rleb tolerance 0 then Err "tolerance must be > 0.0"%string else
  let border_tol := or_default border_tol GRID_CELLS_BORDER_TOL in
  if Rltb border_tol 0 then Err "border_tol must be >= 0.0"%string else
  let cutoff := or_default large_cutoff GRID_CELLS_LARGE_CUTOFF in
  if Rltb cutoff 0 || Rltb 1 cutoff then Err "large_cutoff must be in [0.0, 1.0]"%string else
  let lpct := or_default large_pct GRID_CELLS_LARGE_PCT in
  if Rltb lpct 0 || Rltb 1 lpct then Err "large_pct must be in [0.0, 1.0]"%string else
  let none := repeat (@None R) nd in
  let! st := foldM (scan_cell m) (cells m) (none, none, repeat (0, 0) nd, none, []) in
  let '(lo, hi, _, largest, boxes) := (st : list (option R) * list (option R) * bbox * list (option R) * list bbox) in
  let! xmin := mapM unwrap lo in
  let! xmax := mapM unwrap hi in
  let! largest := mapM unwrap largest in
  let! bbox_largest_length := max_list largest in
  let ids := combine (seq 0 (List.length boxes)) boxes in
  let! lg := foldM (scan_large cutoff bbox_largest_length) ids ([], None) in
  let '(large, bbox_large_length) := (lg : list nat * option R) in
  let pct := INR (List.length large) / INR (List.length (cells m)) in
  let use_large := Rleb pct lpct in
  let side_length := if use_large then or_default bbox_large_length f64_MIN else bbox_largest_length in
  let large := if use_large then large else [] in
  let side_length := side_length + 2 * tolerance in
  let xmin := if Rltb 0 border_tol then map (fun x => x - border_tol) xmin else xmin in
  let xmax := if Rltb 0 border_tol then map (fun x => x + border_tol) xmax else xmax in
  let! ndiv := mapM (fun ab => if Rltb (fst ab) (snd ab) then Ok (ceil_usize ((snd ab - fst ab) / side_length)) else Panic) (combine xmin xmax) in
  let xmax := zip_with (fun a n => a + side_length * INR n) xmin ndiv in
  let! containers := foldM (insert_cell nd side_length ndiv xmin large) ids [] in
  Ok (mkGCells m ndiv xmin xmax side_length boxes containers large).

Section Search.
Variable sh : list nat -> list nat.           (* iteration order of the sets of cells *)

(* grid_cells.rs:266-270 *)
Definition in_bbox (nd : nat) (box : bbox) (x : list R) : res bool :=
  foldM (fun (ok : bool) i => if ok then
    let! xi := get x i in let! b := get box i in Ok (negb (Rltb xi (fst b) || Rltb (snd b) xi)) else Ok false) (seq 0 nd) true.
(* coordinates of the points of a cell (grid_cells.rs:273-275, 280-283) *)
Definition vertex (m : mesh R) (c : cell) (k : nat) : res (list R) :=
  let! p := get (c_points c) k in let! pt := get (points m) p in Ok (pt_coords pt).
(* grid_cells.rs:264-290; the buffer ksi_or_zeta is returned *)
Definition in_cell (g : gcells) (zeta x : list R) (id : nat) : res (list R * bool) :=
  let m := gc_mesh g in
  let! box := get (gc_boxes g) id in
  let! inside := in_bbox (ndim m) box x in
  if negb inside then Ok (zeta, false) else
  let! c := get (cells m) id in
  match c_kind c with
  | Tri3 =>
      let! xa := vertex m c 0 in let! xb := vertex m c 1 in let! xc := vertex m c 2 in
      let! zeta := triangle_coords zeta xa xb xc x in
      let! b := in_triangle zeta in Ok (zeta, b)
  | Tet4 =>
      let! xa := vertex m c 0 in let! xb := vertex m c 1 in let! xc := vertex m c 2 in let! xd := vertex m c 3 in
      let! zeta := tetrahedron_coords zeta xa xb xc xd x in
      let! b := in_tetrahedron zeta in Ok (zeta, b)
  | _ => Panic
  end.

Fixpoint first_in (g : gcells) (zeta x : list R) (ids : list nat) : res (list R * option nat) :=
  match ids with
  | [] => Ok (zeta, None)
  | id :: rest =>
      let! r := in_cell g zeta x id in
      let '(zeta, b) := (r : list R * bool) in
      if b then Ok (zeta, Some id) else first_in g zeta x rest
  end.

(* grid_cells.rs:303-343; returns the buffer and the answer *)
Definition gc_search (g : gcells) (zeta x : list R) : res (list R * option nat) :=
  let nd := ndim (gc_mesh g) in
  if negb (List.length zeta =? 4)%nat then Err "length of ksi_or_zeta must be equal to 4"%string
  else if negb (List.length x =? nd)%nat then Err "length of x must be equal to ndim"%string
  else
    let! ok := foldM (fun (ok : bool) i => if ok then
      let! xi := get x i in let! lo := get (gc_xmin g) i in
      if Rltb xi lo then Ok false else
      let! hi := get (gc_xmax g) i in Ok (negb (Rltb hi xi)) else Ok false) (seq 0 nd) true in
    if negb (ok : bool) then Err "given point coordinates are outside the grid"%string
    else
      let! r := first_in g zeta x (sh (gc_large g)) in
      let '(zeta, found) := (r : list R * option nat) in
      match found with
      | Some id => Ok (zeta, Some id)
      | None =>
          let! key := calc_container_key nd (gc_side g) (gc_ndiv g) (gc_xmin g) x in
          match mget Nat.eqb (gc_containers g) key with
          | Some c => first_in g zeta x (sh c)
          | None => Ok (zeta, None)
          end
      end.
End Search.
