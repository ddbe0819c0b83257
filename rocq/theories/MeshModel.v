(* The mesh data structure.  Models src/mesh/mesh.rs.  The coordinate type [T] (f64 in the code) is
   a parameter; functions that compute with coordinates get the operations they need. *)
From Coq Require Import String List Arith Bool ZArith.
From Verif Require Import Base Kind.
Import ListNotations.
Open Scope nat_scope.

(* src/mesh/mesh.rs:27-37 *)
Record point (T : Type) := mkPoint { pt_id : nat; pt_marker : Z; pt_coords : list T }.
Arguments mkPoint {T}. Arguments pt_id {T}. Arguments pt_marker {T}. Arguments pt_coords {T}.

(* src/mesh/mesh.rs:40-55 *)
Record cell := mkCell { c_id : nat; c_marker : Z; c_kind : geokind; c_points : list nat }.

(* src/mesh/mesh.rs:110-135.  The fourth point of a marked face is usize::MAX for triangular
   faces; it is an option here (None = usize::MAX). *)
Record mesh (T : Type) := mkMesh {
  ndim : nat;
  points : list (point T);
  cells : list cell;
  marked_edges : list (Z * nat * nat);
  marked_faces : list (Z * nat * nat * nat * option nat) }.
Arguments mkMesh {T}. Arguments ndim {T}. Arguments points {T}. Arguments cells {T}.
Arguments marked_edges {T}. Arguments marked_faces {T}.

Section Renumber.
Context {T : Type}.

(* coords[k] = src[k] for k in 0..n (mesh.rs:602-604) *)
Definition copy_coords (n : nat) (src dst : list T) : res (list T) :=
  foldM (fun d k => let! x := get src k in set d k x) (seq 0 n) dst.

(* mesh.rs:595-607: one pass of the loop over the old points; [pts] is the clone of the points,
   the state is (self.points, updated) *)
Definition renumber_step (nd npoint : nat) (pts : list (point T)) (old_to_new : list nat)
    (st : list (point T) * list bool) (old : nat) : res (list (point T) * list bool) :=
  let! new := get old_to_new old in
  if npoint <=? new then Err "new point id is out of range" else
  let! p_new := get (fst st) new in
  let! p_old := get pts old in
  let! xs := copy_coords nd (pt_coords p_old) (pt_coords p_new) in
  let! pts' := set (fst st) new (mkPoint new (pt_marker p_old) xs) in
  let! upd' := set (snd st) new true in
  Ok (pts', upd').

(* mesh.rs:613-618 *)
Definition renumber_cell (old_to_new : list nat) (c : cell) : res cell :=
  let! ps := foldM (fun acc old => let! new := get old_to_new old in Ok (acc ++ [new])) (c_points c) [] in
  Ok (mkCell (c_id c) (c_marker c) (c_kind c) ps).

(* src/mesh/mesh.rs:589-620.  The value is the mesh after a successful call. *)
Definition renumber_points (m : mesh T) (old_to_new : list nat) : res (mesh T) :=
  let npoint := List.length (points m) in
  if negb (List.length old_to_new =? npoint) then
    Err "old_to_new.len() must be equal to the number of points" else
  let! st := foldM (renumber_step (ndim m) npoint (points m) old_to_new)
                   (seq 0 npoint) (points m, repeat false npoint) in
  if negb (forallb (fun b => b) (snd st)) then Err "not all points have been updated" else
  let! cs := foldM (fun acc c => let! c' := renumber_cell old_to_new c in Ok (acc ++ [c'])) (cells m) [] in
  Ok (mkMesh (ndim m) (fst st) cs (marked_edges m) (marked_faces m)).
End Renumber.
