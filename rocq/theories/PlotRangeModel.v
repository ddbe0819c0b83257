(* Model of the ranges of a plot, /repo/src/mesh/draw.rs:1013-1023 (config_plot_range) and 1120-1132 (choice in `all`).
   Rational numbers stand for f64.  Without points the limits stay at f64::MAX and f64::MIN: dx is not positive. *)
From Coq Require Import String List Arith Bool QArith.
From Verif Require Import Base Kind MeshModel MeshQueryModel.
Import ListNotations.
Open Scope Q_scope.

(* the call made: none, set_range(xmin, xmax, ymin, ymax) or set_range_3d(xmin, xmax, ymin, ymax, zmin, zmax) *)
Inductive range := Auto | Range2 (xmin xmax ymin ymax : Q) | Range3 (xmin xmax ymin ymax zmin zmax : Q).

Definition Qpos (x : Q) : bool := negb (Qle_bool x 0).
(* draw.rs:1013-1023 *)
Definition config_plot_range (m_range : Q) (m : mesh Q) : res range :=
  let! lim := get_limits m in
  let! x0 := get (fst lim) 0 in let! x1 := get (snd lim) 0 in
  let! y0 := get (fst lim) 1 in let! y1 := get (snd lim) 1 in
  match x0, x1, y0, y1 with
  | Some x0, Some x1, Some y0, Some y1 =>
      let dx := x1 - x0 in
      let dy := y1 - y0 in
      if Qpos dx && Qpos dy then
        let gx := m_range * dx in
        let gy := m_range * dy in
        Ok (Range2 (x0 - gx) (x1 + gx) (y0 - gy) (y1 + gy))
      else Ok Auto
  | _, _, _, _ => Ok Auto
  end.
(* draw.rs:1120-1132; range_2d and range_3d are the fields set by set_range_2d (560-563) and set_range_3d (568-571) *)
Definition plot_range (range_2d : option (Q * Q * Q * Q)) (range_3d : option (Q * Q * Q * Q * Q * Q)) (m_range : Q) (m : mesh Q) : res range :=
  if (ndim m =? 2)%nat then
    match range_2d with Some (a, b, c, d) => Ok (Range2 a b c d) | None => config_plot_range m_range m end
  else
    match range_3d with Some (a, b, c, d, e, f) => Ok (Range3 a b c d e f) | None => config_plot_range m_range m end.
