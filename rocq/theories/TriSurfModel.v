(* The triangulation of a surface.  Models
   - Scratchpad::triangulate              (src/shapes/scratchpad_triangulate.rs:27-60)
   - Triangulation::from_surface          (src/mesh/triangulate_surface.rs:27-109)
   - Features::triangulate_3d_boundary    (src/mesh/features.rs:645-666)
   f64 is modelled by R (no rounding); the hash maps by association lists.  A cell or face of the
   surface (trait AsCell, src/mesh/as_cell.rs) is its kind with the list of its points. *)
From Coq Require Import String Reals QArith Qreals List Arith Bool.
From Verif Require Import Base Kind MeshModel ShapesModel PadModel ConvertModel TopoModel.
Import ListNotations.
Local Open Scope string_scope.
Local Open Scope list_scope.
Local Open Scope nat_scope.

(* scratchpad_triangulate.rs:38-56: the callback f(t, i, m, x) changes the state s of its closure;
   [n] is the dimension of the vector x_work given by the caller.  An entry usize::MAX
   (UNAVAILABLE) of the tables or an index beyond them is a panic here. *)
Definition tri_or_qua (k : geokind) : bool := match kind_class k with CTri | CQua => true | _ => false end.

Definition tri_corner (p : pad) (n m : nat) : res (list R * pad) :=
  let nnode := kind_nnode (p_kind p) in
  if nnode <=? m then
    if triangulate_extra_nnode (p_kind p) <=? m - nnode then Panic else
    pad_coords p n (map Q2R (triangulate_extra_coords (p_kind p) (m - nnode)))
  else
    let! x := mapM (fun j => let! row := get (p_xxt p) j in get row m) (seq 0 (p_space p)) in
    Ok (x, p).

Definition pad_triangulate {St} (p : pad) (n : nat) (f : St -> nat -> nat -> nat -> list R -> res St) (s : St)
  : res (pad * St) :=
  if negb (tri_or_qua (p_kind p)) then Err "triangulate works with Tri and Qua classes only" else
  if negb (n =? p_space p) then Err "x_work.dim() must equal space_ndim" else
  foldM (fun (st : pad * St) t =>
      foldM (fun (st : pad * St) i =>
          let! m := unwrap (triangulate_triangle_nodes (p_kind p) t i) in
          let! xp := tri_corner (fst st) n m in
          let! s := f (snd st) t i m (fst xp) in
          Ok (snd xp, s))
        (seq 0 3) st)
    (seq 0 (triangulate_ntriangle (p_kind p))) (p, s).

(* triangulate_surface.rs:8-20 *)
Record triang := mkTriang { t_xx : list R; t_yy : list R; t_zz : list R; t_tris : list (list nat) }.

(* triangulate_surface.rs:71-78, 86-91: the number of the new point *)
Definition push_point (nd : nat) (tr : triang) (x : list R) : res (nat * triang) :=
  let! a := get x 0 in
  let! b := get x 1 in
  let! zz := (if nd =? 3 then let! c := get x 2 in Ok (t_zz tr ++ [c]) else Ok (t_zz tr)) in
  Ok (List.length (t_xx tr), mkTriang (t_xx tr ++ [a]) (t_yy tr ++ [b]) zz (t_tris tr)).

(* the variables changed by the closure of triangulate_surface.rs:64-103; None in [w_extra] is
   usize::MAX *)
Record work := mkWork { w_tr : triang; w_map : list (nat * nat); w_extra : list (option nat); w_conn : list nat }.

(* triangulate_surface.rs:65-96: the number of the point in the triangulation *)
Definition corner_point (nd nnode : nat) (pts : list nat) (w : work) (m : nat) (x : list R) : res (nat * work) :=
  if m <? nnode then
    let! p_old := get pts m in
    match mget Nat.eqb (w_map w) p_old with
    | Some p => Ok (p, w)
    | None =>
        let! q := push_point nd (w_tr w) x in
        Ok (fst q, mkWork (snd q) (mput Nat.eqb (w_map w) p_old (fst q)) (w_extra w) (w_conn w))
    end
  else
    let! e := get (w_extra w) (m - nnode) in
    match e with
    | Some p => Ok (p, w)
    | None =>
        let! q := push_point nd (w_tr w) x in
        let! ex := set (w_extra w) (m - nnode) (Some (fst q)) in
        Ok (fst q, mkWork (snd q) (w_map w) ex (w_conn w))
    end.

(* triangulate_surface.rs:64-103 *)
Definition on_corner (nd nnode : nat) (pts : list nat) (w : work) (t i m : nat) (x : list R) : res work :=
  let! pw := corner_point nd nnode pts w m x in
  let w := snd pw in
  let! conn := set (w_conn w) i (fst pw) in
  let tr := w_tr w in
  let tris := if i =? 2 then t_tris tr ++ [conn] else t_tris tr in
  Ok (mkWork (mkTriang (t_xx tr) (t_yy tr) (t_zz tr) tris) (w_map w) (w_extra w) conn).

(* triangulate_surface.rs:45-105: one cell of the surface; the state is (the scratchpads, the
   variables of the closure) *)
Definition add_cell (m : mesh R) (st : list (geokind * pad) * work) (c : geokind * list nat)
  : res (list (geokind * pad) * work) :=
  let (pads, w) := st in
  let (k, pts) := c in
  if negb (tri_or_qua k) then Ok st else
  let! pd := (match mget kind_eqb pads k with
              | Some p => Ok p
              | None => match pad_new (ndim m) k with Ok p => Ok p | _ => Panic end
              end) in
  let! pd := mesh_set_pad m pd pts in
  let w0 := mkWork (w_tr w) (w_map w) (repeat None (triangulate_extra_nnode k)) (w_conn w) in
  match pad_triangulate pd (ndim m) (on_corner (ndim m) (kind_nnode k) pts) w0 with
  | Ok (pd, w) => Ok (mput kind_eqb pads k pd, w)
  | Err _ => Panic
  | Panic => Panic
  | NoFuel => NoFuel
  end.

(* triangulate_surface.rs:27-109 *)
Definition from_surface (m : mesh R) (surface : list (geokind * list nat)) : res triang :=
  let! st := foldM (add_cell m) surface ([], mkWork (mkTriang [] [] [] []) [] [] (repeat 0 3)) in
  Ok (w_tr (snd st)).

(* features.rs:645-666; [shuffle] gives the iteration order of the HashMap of faces *)
Definition boundary_faces {T} (shuffle : list (fkey * face) -> list (fkey * face)) (ft : @features T) : res (list face) :=
  foldM (fun (acc : list face) (kf : fkey * face) =>
      let! owners := unwrap (mget fkey_eqb (ft_all_faces ft) (fst kf)) in
      Ok (if List.length owners =? 1 then acc ++ [snd kf] else acc))
    (shuffle (ft_faces ft)) [].
Definition triangulate_3d_boundary (shuffle : list (fkey * face) -> list (fkey * face)) (m : mesh R) (ft : @features R) : res triang :=
  if negb (ndim m =? 3) then Panic else
  let! fs := boundary_faces shuffle ft in
  from_surface m (map (fun f => (f_kind f, f_points f)) fs).
