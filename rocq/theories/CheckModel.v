(* Model: the check of overlapping points of a mesh, mesh/check.rs. *)
From Coq Require Import String List Arith Bool Reals.
From Verif Require Import Base Kind MeshModel TopoModel GeomModel GridModel.
Import ListNotations.
Open Scope R_scope.

(* mesh/mesh.rs:474-484; limits that were never set, f64::MAX and f64::MIN, are None *)
Definition mesh_limits (m : mesh R) : res (@limits R) :=
  foldM (fun (lim : limits) p => grow Rleb (ndim m) lim (pt_coords p)) (points m) (no_limits (ndim m)).
(* f64::MAX > f64::MIN: GridSearch::new finds a negative extent *)
Definition set_limit (o : option R) : res R := match o with Some x => Ok x | None => Err "xmax must be greater than xmin"%string end.

Section Check.
(* iteration order of the items of the container of each key *)
Variable sh : option nat -> container -> container.

(* util/grid_search.rs search, in the order of the container that is visited *)
Definition visit (g : grid) (x : list R) : res (option nat) :=
  grid_search (match grid_key g x with Ok k => sh k | _ => fun c => c end) g x.

(* mesh/check.rs:121-139; the message printed before the error is left out *)
Definition check_overlapping_points (m : mesh R) (tol : R) : res unit :=
  let! lim := mesh_limits m in
  let! xmin := mapM set_limit (fst lim) in
  let! xmax := mapM set_limit (snd lim) in
  let! g := grid_new xmin xmax None (Some tol) None in
  let! g := foldM (fun (g : grid) p => grid_insert g (pt_id p) (pt_coords p)) (points m) g in
  foldM (fun (_ : unit) p =>
    let! o := visit g (pt_coords p) in
    match o with
    | Some id => if negb (id =? pt_id p)%nat then Err "found overlapping points"%string else Ok tt
    | None => Ok tt
    end) (points m) tt.
End Check.
