(* Model of the searches of /repo/src/mesh/features.rs (700-1127) and of the search grid that
   Features::new (263-267) makes.  Coordinates are real numbers.  Filters are pure functions.
   HashSet results are sorted before they are returned; the model inserts in list order. *)
From Coq Require Import String List Arith Bool Reals.
From Verif Require Import Base Kind MeshModel TopoModel GeomModel GridModel.
Import ListNotations.
Open Scope nat_scope.

(* mesh/enums.rs:3-34 *)
Inductive at_ :=
| AtX (x : R) | AtY (y : R) | AtZ (z : R)
| AtXY (x y : R) | AtYZ (y z : R) | AtXZ (x z : R) | AtXYZ (x y z : R)
| AtCircle (x y r : R)
| AtCylinder (ax ay az bx by_ bz r : R).

Definition or_panic {A} (r : res A) : res A := match r with Err _ => Panic | _ => r end.

Section Search.
Variable shp : list nat -> list nat.          (* iteration order of the set of points *)
Variable shk : list nat -> list nat.          (* iteration order of the containers of the grid *)
Variable sh : container -> container.         (* iteration order of the items of a container *)

(* features.rs:263-267; limits that were never set are f64::MAX / f64::MIN, and GridSearch::new fails *)
Definition features_grid (m : mesh R) (ft : @features R) : res grid :=
  let! min := mapM unwrap (fst (ft_limits ft)) in
  let! max := mapM unwrap (snd (ft_limits ft)) in
  let! g := or_panic (grid_new min max None None None) in
  foldM (fun (g : grid) p =>
    let! pt := get (points m) p in or_panic (grid_insert g p (pt_coords pt))) (shp (ft_points ft)) g.

Definition one (o : option nat) : list nat := match o with Some id => [id] | None => [] end.

(* features.rs:700-798 *)
Definition search_point_ids (m : mesh R) (g : grid) (a : at_) (filter : list R -> bool) : res (list nat) :=
  let two := ndim m =? 2 in
  let! ids := (match a with
    | AtX x => if two then search_on_line shk sh g [x; 0%R] [x; 1%R] filter else search_on_plane_yz shk sh g x filter
    | AtY y => if two then search_on_line shk sh g [0%R; y] [1%R; y] filter else search_on_plane_xz shk sh g y filter
    | AtZ z => if two then Err "At::Z works in 3D only"%string else search_on_plane_xy shk sh g z filter
    | AtXY x y => if two then let! o := grid_search sh g [x; y] in Ok (one o)
                  else search_on_line shk sh g [x; y; 0%R] [x; y; 1%R] filter
    | AtYZ y z => if two then Err "At::YZ works in 3D only"%string else search_on_line shk sh g [0%R; y; z] [1%R; y; z] filter
    | AtXZ x z => if two then Err "At::XZ works in 3D only"%string else search_on_line shk sh g [x; 0%R; z] [x; 1%R; z] filter
    | AtXYZ x y z => if two then Err "At::XYZ works in 3D only"%string else let! o := grid_search sh g [x; y; z] in Ok (one o)
    | AtCircle x y r => if two then search_on_circle shk sh g [x; y] r filter else Err "At::Circle works in 2D only"%string
    | AtCylinder ax ay az bx by_ bz r => if two then Err "At::Cylinder works in 3D only"%string
                                         else search_on_cylinder shk sh g [ax; ay; az] [bx; by_; bz] r filter
    end) in
  if List.length ids =? 0 then Err "cannot find any point with given constraints/filter"%string
  else Ok (isort Nat.leb ids).

Definition has (ids : list nat) (p : nat) : bool := existsb (Nat.eqb p) ids.

(* features.rs:816-842 *)
Definition search_edge_keys (m : mesh R) (ft : @features R) (g : grid) (a : at_) (filter : list R -> bool) : res (list ekey) :=
  let! ids := search_point_ids m g a filter in
  let keys := fold_left (fun ks p =>
    match mget Nat.eqb (ft_point_to_edges ft) p with
    | Some es => fold_left (fun ks (k : ekey) => if has ids (fst k) && has ids (snd k) then sadd ekey_eqb ks k else ks) es ks
    | None => ks
    end) ids [] in
  if List.length keys =? 0 then Err "cannot find any edge with given constraints/filter"%string
  else Ok (isort ekey_leb keys).

(* features.rs:857-895; a triangular key has three entries here *)
Definition search_face_keys (m : mesh R) (ft : @features R) (g : grid) (a : at_) (filter : list R -> bool) : res (list fkey) :=
  if negb (ndim m =? 3) then Err "cannot find face keys in 2D"%string
  else
    let! ids := search_point_ids m g a filter in
    let keys := fold_left (fun ks p =>
      match mget Nat.eqb (ft_point_to_faces ft) p with
      | Some fs => fold_left (fun ks (k : fkey) => if forallb (has ids) k then sadd fkey_eqb ks k else ks) fs ks
      | None => ks
      end) ids [] in
    if List.length keys =? 0 then Err "cannot find any face with given constraints/filter"%string
    else Ok (isort fkey_leb keys).

Definition edges_of_keys (ft : @features R) (keys : list ekey) : res (list edge) :=
  mapM (fun k => match mget ekey_eqb (ft_edges ft) k with Some e => Ok e
                 | None => Err "INTERNAL ERROR: features.edges data is inconsistent"%string end) keys.
Definition faces_of_keys (ft : @features R) (keys : list fkey) : res (list face) :=
  mapM (fun k => match mget fkey_eqb (ft_faces ft) k with Some e => Ok e
                 | None => Err "INTERNAL ERROR: features.faces data is inconsistent"%string end) keys.

(* features.rs:910-927, 943-960 *)
Definition search_edges (m : mesh R) (ft : @features R) (g : grid) (a : at_) (filter : list R -> bool) : res (list edge) :=
  let! keys := search_edge_keys m ft g a filter in edges_of_keys ft keys.
Definition search_faces (m : mesh R) (ft : @features R) (g : grid) (a : at_) (filter : list R -> bool) : res (list face) :=
  let! keys := search_face_keys m ft g a filter in faces_of_keys ft keys.

(* features.rs:977-1002, 1019-1044 *)
Definition search_many_edges (m : mesh R) (ft : @features R) (g : grid) (ats : list at_) (filter : list R -> bool) : res (list edge) :=
  let! keys := foldM (fun (ks : list ekey) a => let! found := search_edge_keys m ft g a filter in
                       Ok (fold_left (sadd ekey_eqb) found ks)) ats [] in
  edges_of_keys ft (isort ekey_leb keys).
Definition search_many_faces (m : mesh R) (ft : @features R) (g : grid) (ats : list at_) (filter : list R -> bool) : res (list face) :=
  let! keys := foldM (fun (ks : list fkey) a => let! found := search_face_keys m ft g a filter in
                       Ok (fold_left (sadd fkey_eqb) found ks)) ats [] in
  faces_of_keys ft (isort fkey_leb keys).

(* features.rs:1060-1127 *)
Definition search_features_2d (m : mesh R) (ft : @features R) (g : grid) (cells_by_points : bool) (a : at_) (filter : list R -> bool)
    : res (list nat * list nat * list edge) :=
  if negb (ndim m =? 2) then Err "search_features_2d works in 2D only"%string
  else
    let! ids := search_point_ids m g a filter in
    let '(keys, cells) := fold_left (fun st p =>
      match mget Nat.eqb (ft_point_to_edges ft) p with
      | Some es => fold_left (fun (st : list ekey * list nat) (k : ekey) =>
          let accept := has ids (fst k) && has ids (snd k) in
          let ks := if accept then sadd ekey_eqb (fst st) k else fst st in
          let cs := if cells_by_points || accept then
                      match mget ekey_eqb (ft_all_2d_edges ft) k with
                      | Some l => fold_left (fun cs (ce : nat * nat) => sadd Nat.eqb cs (fst ce)) l (snd st)
                      | None => snd st
                      end
                    else snd st in
          (ks, cs)) es st
      | None => st
      end) ids (([], []) : list ekey * list nat) in
    let! edges := edges_of_keys ft (isort ekey_leb keys) in
    Ok (ids, isort Nat.leb cells, edges).
End Search.
