(* Consistency check and simple queries of a mesh: /repo/src/mesh/check.rs and /repo/src/mesh/mesh.rs.
   Coordinates are exact rationals.  f64::MAX and f64::MIN, the starting values of the min/max
   computations, are [None].  The filter closures (FnMut) are pure functions. *)
From Coq Require Import String List Arith Bool ZArith QArith.
From Verif Require Import Base Kind MeshModel.
Import ListNotations.
Open Scope nat_scope.

Section Generic.
Context {T : Type}.

(* check.rs:19-41 check_ids_and_kind *)
Definition check_ids_and_kind (m : mesh T) : res unit :=
  let npoint := List.length (points m) in
  let! _ := foldM (fun (_ : unit) (ip : nat * point T) =>
      if negb (pt_id (snd ip) =? fst ip) then Err "incorrect point id found; ids must be sequential" else Ok tt)
    (combine (seq 0 npoint) (points m)) tt in
  foldM (fun (_ : unit) (ic : nat * cell) =>
      let '(i, c) := ic in
      if negb (c_id c =? i) then Err "incorrect cell id found; ids must be sequential" else
      if negb (List.length (c_points c) =? kind_nnode (c_kind c)) then
        Err "number of cell points does not correspond to kind.nnode()" else
      foldM (fun (_ : unit) p =>
        if npoint <=? p then Err "the id of a point specified in the points list of a cell is out of bounds" else Ok tt)
        (c_points c) tt)
    (combine (seq 0 (List.length (cells m))) (cells m)) tt.

(* mesh.rs:340-360 search_marked_points *)
Definition search_marked_points (m : mesh T) (marker : Z) (filter : list T -> bool) : res (list nat) :=
  let ids := flat_map (fun p => if (Z.eqb (pt_marker p) marker) && filter (pt_coords p) then [pt_id p] else []) (points m) in
  if List.length ids =? 0 then Err "cannot find at least one point with the given mark (and filter)"
  else Ok (isort Nat.leb ids).

(* mesh.rs:429-439 search_first_marked_point *)
Fixpoint first_marked (l : list (point T)) (marker : Z) (filter : list T -> bool) : res nat :=
  match l with
  | [] => Err "cannot find at least one point with the given mark (and filter)"
  | p :: t => if (Z.eqb (pt_marker p) marker) && filter (pt_coords p) then Ok (pt_id p) else first_marked t marker filter
  end.
Definition search_first_marked_point (m : mesh T) (marker : Z) (filter : list T -> bool) : res nat :=
  first_marked (points m) marker filter.

(* mesh.rs:448-456 set_pad: the matrix of coordinates, one row per node.
   The assertion compares the number of nodes of the pad with the number of points given. *)
Definition set_pad (m : mesh T) (kind : geokind) (pts : list nat) : res (list (list T)) :=
  if negb (kind_nnode kind =? List.length pts) then Panic else
  foldM (fun (rows : list (list T)) p =>
      let! pt := get (points m) p in
      let! row := foldM (fun (acc : list T) j => let! x := get (pt_coords pt) j in Ok (acc ++ [x])) (seq 0 (ndim m)) [] in
      Ok (rows ++ [row])) pts [].

(* mesh.rs:548-578 get_sorted_points; [argsort3 zz yy xx] and [argsort2 yy xx] are the functions of
   russell_lab (outside the repository) *)
Section Sorted.
Variable zero : T.
Variable argsort3 : list T -> list T -> list T -> list nat.
Variable argsort2 : list T -> list T -> list nat.
Definition get_sorted_points (m : mesh T) (point_ids : list nat) (filter : T -> T -> T -> bool) : res (list nat) :=
  let d3 := ndim m =? 3 in
  let! s := foldM (fun (s : list nat * list T * list T * list T) nid =>
      let '(k2id, xx, yy, zz) := s in
      let! p := get (points m) nid in
      let! x := get (pt_coords p) 0 in
      let! y := get (pt_coords p) 1 in
      let! z := (if d3 then get (pt_coords p) 2 else Ok zero) in
      if filter x y z
      then Ok (k2id ++ [nid], xx ++ [x], yy ++ [y], if d3 then zz ++ [z] else zz)
      else Ok s) point_ids ([], [], [], []) in
  let '(k2id, xx, yy, zz) := (s : list nat * list T * list T * list T) in
  let sorted := if d3 then argsort3 zz yy xx else argsort2 yy xx in
  foldM (fun (acc : list nat) i => let! id := get k2id i in Ok (acc ++ [id])) sorted [].
End Sorted.
End Generic.

(* f64::min / f64::max with the start values f64::MAX / f64::MIN *)
Definition omin (a : option Q) (x : Q) : option Q :=
  match a with None => Some x | Some y => Some (if Qle_bool y x then y else x) end.
Definition omax (a : option Q) (x : Q) : option Q :=
  match a with None => Some x | Some y => Some (if Qle_bool x y then y else x) end.
Definition grow_limits (nd : nat) (lim : list (option Q) * list (option Q)) (coords : list Q)
  : res (list (option Q) * list (option Q)) :=
  foldM (fun (lim : list (option Q) * list (option Q)) i =>
      let! x := get coords i in
      let! a := get (fst lim) i in
      let! b := get (snd lim) i in
      let! mn := set (fst lim) i (omin a x) in
      let! mx := set (snd lim) i (omax b x) in
      Ok (mn, mx)) (seq 0 nd) lim.
(* mesh.rs:474-484 get_limits *)
Definition get_limits (m : mesh Q) : res (list (option Q) * list (option Q)) :=
  foldM (fun lim p => grow_limits (ndim m) lim (pt_coords p)) (points m)
    (repeat None (ndim m), repeat None (ndim m)).
(* mesh.rs:489-501 get_cell_bounding_box *)
Definition get_cell_bounding_box (m : mesh Q) (cell_id : nat) : res (list (option Q) * list (option Q)) :=
  let! c := get (cells m) cell_id in
  foldM (fun lim p => let! pt := get (points m) p in grow_limits (ndim m) lim (pt_coords pt)) (c_points c)
    (repeat None (ndim m), repeat None (ndim m)).

(* mesh.rs:194-238 new_zero_homogeneous *)
Definition new_zero_homogeneous (space_ndim npoint ncell : nat) (kind : geokind) : res (mesh Q) :=
  if (space_ndim <? 2) || (3 <? space_ndim) then Err "space_ndim must be 2 or 3" else
  if npoint <? 2 then Err "npoint must be ≥ 2" else
  if ncell <? 1 then Err "ncell must be ≥ 1" else
  if space_ndim <? kind_ndim kind then Err "geo_ndim cannot be greater than space_ndim" else
  Ok (mkMesh space_ndim
        (map (fun i => mkPoint i 0%Z (repeat 0%Q space_ndim)) (seq 0 npoint))
        (map (fun i => mkCell i 1%Z kind (repeat 0 (kind_nnode kind))) (seq 0 ncell))
        [] []).
