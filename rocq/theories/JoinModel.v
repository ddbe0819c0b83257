(* Model of /repo/src/mesh/join_meshes.rs.  Coordinates are real numbers. *)
From Coq Require Import String List Arith Bool ZArith Reals.
From Verif Require Import Base Kind MeshModel TopoModel GeomModel GridModel SearchModel.
Import ListNotations.
Open Scope nat_scope.

Section Join.
Variable shp : list nat -> list nat.          (* iteration order of the set of points *)
Variable shuffle : emap -> emap.              (* iteration order of the map of edges *)
Variable sh : container -> container.         (* iteration order of the items of a container *)

(* join_meshes.rs:24-30: the grid with all points of mesh A; Features::new makes a grid of its own *)
Definition join_grid (a : mesh R) : res grid :=
  let! ft := features_new Rleb shuffle a false in
  let! _ := features_grid shp a ft in
  let! min := mapM unwrap (fst (ft_limits ft)) in
  let! max := mapM unwrap (snd (ft_limits ft)) in
  let! g := grid_new min max None None None in
  foldM (fun (g : grid) (p : point R) => grid_insert g (pt_id p) (pt_coords p)) (points a) g.

(* join_meshes.rs:36-53: state = (points of the new mesh, map from old to new ids) *)
Definition join_point (g : grid) (st : list (point R) * list nat) (p : point R) : res (list (point R) * list nat) :=
  let! out := is_outside g (pt_coords p) in
  let! found := (if (out : bool) then Ok None else grid_search sh g (pt_coords p)) in
  match found with
  | Some id => Ok (fst st, snd st ++ [id])
  | None => let id := List.length (fst st) in
            Ok (fst st ++ [mkPoint id (pt_marker p) (pt_coords p)], snd st ++ [id])
  end.

(* join_meshes.rs:57-65 *)
Definition join_cell (ids : list nat) (cs : list cell) (c : cell) : res (list cell) :=
  let! ps := mapM (get ids) (c_points c) in
  Ok (cs ++ [mkCell (List.length cs) (c_marker c) (c_kind c) ps]).

(* join_meshes.rs:80-102: markers of mesh B, unless there is one already *)
Definition put_new {K} (eqb : K -> K -> bool) (mm : list (K * Z)) (k : K) (mk : Z) : list (K * Z) :=
  match mget eqb mm k with Some _ => mm | None => mput eqb mm k mk end.
Definition join_medge (ids : list nat) (mm : list (ekey * Z)) (q : Z * nat * nat) : res (list (ekey * Z)) :=
  let '(mk, p1, p2) := q in
  let! q1 := get ids p1 in let! q2 := get ids p2 in
  Ok (put_new ekey_eqb mm (sort2 (q1, q2)) mk).
(* the fourth point of a triangular face is usize::MAX: the lookup panics *)
Definition join_mface (ids : list nat) (mm : list (fkey * Z)) (q : Z * nat * nat * nat * option nat) : res (list (fkey * Z)) :=
  let '(mk, p1, p2, p3, p4) := q in
  let! q1 := get ids p1 in let! q2 := get ids p2 in let! q3 := get ids p3 in
  let! p4 := unwrap p4 in
  let! q4 := get ids p4 in
  Ok (put_new fkey_eqb mm (sort4 [q1; q2; q3; q4]) mk).

(* join_meshes.rs:105-123 *)
Definition out_edge (kv : ekey * Z) : Z * nat * nat := (snd kv, fst (fst kv), snd (fst kv)).
Definition out_face (kv : fkey * Z) : Z * nat * nat * nat * option nat :=
  let k := fst kv in (snd kv, nth 0 k 0, nth 1 k 0, nth 2 k 0, nth_error k 3).

(* join_meshes.rs:17-126 *)
Definition join_two_meshes (a b : mesh R) : res (mesh R) :=
  if negb (ndim a =? ndim b) then Err "meshes must have the same ndim"%string
  else
    let! g := join_grid a in
    let! st := foldM (join_point g) (points b) (points a, []) in
    let '(pts, ids) := (st : list (point R) * list nat) in
    let! cs := foldM (join_cell ids) (cells b) (cells a) in
    let! me := foldM (join_medge ids) (marked_edges b) (marked_edges_map a) in
    let! mf := foldM (join_mface ids) (marked_faces b) (marked_faces_map a) in
    Ok (mkMesh (ndim a) pts cs
          (map out_edge (isort (fun x y => ekey_leb (fst x) (fst y)) me))
          (map out_face (isort (fun x y => fkey_leb (fst x) (fst y)) mf))).

(* join_meshes.rs:138-149 *)
Definition join_meshes (ms : list (mesh R)) : res (mesh R) :=
  match ms with
  | a :: b :: rest => let! m := join_two_meshes a b in foldM join_two_meshes rest m
  | _ => Err "meshes.len() must be at least 2"%string
  end.
End Join.
