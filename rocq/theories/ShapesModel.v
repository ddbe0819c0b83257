(* Interpolation over a cell.  Models, for all 20 kinds,
   - GeoKind::functions (src/shapes/enums.rs:1124-1153) and the functions calc_interp / calc_deriv
     of src/shapes/{lin2..hex32}.rs (expression trees in ShapesData.v);
   - Scratchpad::calc_interp / calc_deriv (src/shapes/scratchpad.rs:297-318);
   - Scratchpad::calc_coords (src/shapes/scratchpad_calc_coords.rs:62-73).
   f64 is modelled by R (no rounding). *)
From Coq Require Import Reals QArith Qreals List.
From Verif Require Import Expr ShapesData Kind.
Import ListNotations.
Local Open Scope R_scope.

(* indexing of the slice ksi: &[f64]; the code panics when the index is out of range, so every
   theorem assumes length ksi = geo_ndim *)
Definition env (ksi : list R) : nat -> R := fun i => nth i ksi 0.

(* src/shapes/*.rs calc_interp, selected by enums.rs:1124 *)
Definition calc_interp (k : geokind) (ksi : list R) : list R :=
  map (eval (env ksi)) (kind_interp k).

(* src/shapes/*.rs calc_deriv, selected by enums.rs:1124; row m, column j *)
Definition calc_deriv (k : geokind) (ksi : list R) : list (list R) :=
  map (map (eval (env ksi))) (kind_deriv k).

(* sum_m a_m b_m : the inner products of mat_vec_mul in calc_coords *)
Fixpoint dot (a b : list R) : R :=
  match a, b with
  | x :: a', y :: b' => x * y + dot a' b'
  | _, _ => 0
  end.

(* src/shapes/scratchpad_calc_coords.rs:62-73: x = X^T N.  [xxt] has one row per space dimension
   (the field xxt of the scratchpad); the result has one entry per row. *)
Definition calc_coords (k : geokind) (xxt : list (list R)) (ksi : list R) : list R :=
  map (fun row => dot (calc_interp k ksi) row) xxt.

(* src/shapes/enums.rs:1049-1077 as real numbers *)
Definition ref_coords (k : geokind) (m : nat) : list R := map Q2R (reference_coords k m).

(* src/shapes/scratchpad_triangulate.rs:27-60 (pad with nodal coordinates [xxt]).  The callback
   f(t,i,m,x) is replaced by the list, over t, of the three pairs (m,x).  None is the Err for other
   classes; the dimension check on the workspace x_work is not modelled.  The inner None stands for
   an out-of-range table entry (the code would panic). *)
Definition tri_vertex (k : geokind) (xxt : list (list R)) (t i : nat) : option (nat * list R) :=
  match triangulate_triangle_nodes k t i with
  | None => None
  | Some m =>
      Some (m, if Nat.leb (kind_nnode k) m
               then calc_coords k xxt (map Q2R (triangulate_extra_coords k (m - kind_nnode k)))
               else map (fun row => nth m row 0) xxt)
  end.

Definition triangulate (k : geokind) (xxt : list (list R))
  : option (list (list (option (nat * list R)))) :=
  match kind_class k with
  | CTri | CQua =>
      Some (map (fun t => map (tri_vertex k xxt t) (seq 0 3)) (seq 0 (triangulate_ntriangle k)))
  | _ => None
  end.
