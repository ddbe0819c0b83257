(* Vocabulary of the properties of the integration points: integrals over the reference cells
   (iterated Riemann integrals), polynomials, and the degree of each rule. *)
From Coquelicot Require Import Coquelicot.
From Coq Require Import Reals List Arith Bool.
From Verif Require Import Base Kind ShapesModel ShapesSpec GaussModel.
Import ListNotations.
Local Open Scope R_scope.

(* v is the integral of f over the reference cell: [-1,1], [-1,1]^2, [-1,1]^3, the triangle
   0 <= y <= 1-x, 0 <= x <= 1 and the tetrahedron 0 <= z <= 1-x-y, 0 <= y <= 1-x, 0 <= x <= 1 *)
Definition int1 (a b : R) (f : R -> R) (v : R) : Prop := is_RInt f a b v.
Definition int2 (a b : R) (lo hi : R -> R) (f : R -> R -> R) (v : R) : Prop :=
  exists g, (forall x, a <= x <= b -> int1 (lo x) (hi x) (f x) (g x)) /\ int1 a b g v.
Definition int3 (a b : R) (lo hi : R -> R) (lo2 hi2 : R -> R -> R) (f : R -> R -> R -> R) (v : R) : Prop :=
  exists g, (forall x, a <= x <= b -> int2 (lo x) (hi x) (lo2 x) (hi2 x) (f x) (g x)) /\ int1 a b g v.
Definition ref_integral (c : geoclass) (f : R -> R -> R -> R) (v : R) : Prop :=
  match c with
  | CLin => int1 (-1) 1 (fun x => f x 0 0) v
  | CQua => int2 (-1) 1 (fun _ => -1) (fun _ => 1) (fun x y => f x y 0) v
  | CHex => int3 (-1) 1 (fun _ => -1) (fun _ => 1) (fun _ _ => -1) (fun _ _ => 1) f v
  | CTri => int2 0 1 (fun _ => 0) (fun x => 1 - x) (fun x y => f x y 0) v
  | CTet => int3 0 1 (fun _ => 0) (fun x => 1 - x) (fun _ _ => 0) (fun x y => 1 - x - y) f v
  end.

(* the point lies in the reference cell; the coordinates beyond its dimension are zero *)
Definition in_ref_cell (c : geoclass) (x y z : R) : Prop :=
  match c with
  | CLin => -1 <= x <= 1 /\ y = 0 /\ z = 0
  | CQua => -1 <= x <= 1 /\ -1 <= y <= 1 /\ z = 0
  | CHex => -1 <= x <= 1 /\ -1 <= y <= 1 /\ -1 <= z <= 1
  | CTri => 0 <= x /\ 0 <= y /\ x + y <= 1 /\ z = 0
  | CTet => 0 <= x /\ 0 <= y /\ 0 <= z /\ x + y + z <= 1
  end.

(* the weighted sum over the points *)
Definition pt (g : gauss) (p i : nat) : R :=
  match g_coords g p with Ok l => nth i l 0 | _ => 0 end.
Definition wt (g : gauss) (p : nat) : R :=
  match g_weight g p with Ok w => w | _ => 0 end.
Definition quadrature (g : gauss) (f : R -> R -> R -> R) : R :=
  sum_n (npoint g) (fun p => wt g p * f (pt g p 0) (pt g p 1) (pt g p 2)).

(* polynomials: terms coefficient * x^a y^b z^c *)
Notation exponents := (nat * nat * nat)%type.
Definition monomial (e : exponents) (x y z : R) : R := let '(a, b, c) := e in x ^ a * y ^ b * z ^ c.
Definition polynomial (P : list (R * exponents)) (x y z : R) : R :=
  sum (map (fun t => fst t * monomial (snd t) x y z) P).
Definition abs_coefs (P : list (R * exponents)) : R := sum (map (fun t => Rabs (fst t)) P).

(* the degree of the rule with n points; products of Legendre rules are exact up to that degree in
   every direction, the others up to that total degree *)
Definition rule_degree (c : geoclass) (n : nat) : nat :=
  match c, n with
  | CLin, _ => 2 * n - 1
  | CQua, 1%nat => 1 | CQua, 4%nat => 3 | CQua, 9%nat => 5 | CQua, 16%nat => 7
  | CHex, 6%nat => 3 | CHex, 8%nat => 3 | CHex, 14%nat => 5 | CHex, 27%nat => 5 | CHex, 64%nat => 7
  | CTri, 1%nat => 1 | CTri, 3%nat => 2 | CTri, 4%nat => 3 | CTri, 6%nat => 4 | CTri, 7%nat => 5
  | CTri, 12%nat => 6 | CTri, 16%nat => 8
  | CTet, 1%nat => 1 | CTet, 4%nat => 2 | CTet, 5%nat => 3 | CTet, 8%nat => 3 | CTet, 14%nat => 5
  | CTet, 15%nat => 5 | CTet, 24%nat => 6
  | _, _ => 0
  end%nat.
Definition product_rule (c : geoclass) (n : nat) : bool :=
  match c with
  | CLin | CQua => true
  | CHex => negb ((n =? 6) || (n =? 14))%nat
  | _ => false
  end.
Definition class_ndim (c : geoclass) : nat :=
  match c with CLin => 1 | CTri | CQua => 2 | CTet | CHex => 3 end.
Definition within_degree (c : geoclass) (n : nat) (e : exponents) : Prop :=
  let '(x, y, z) := e in
  let d := rule_degree c n in
  (if product_rule c n then x <= d /\ y <= d /\ z <= d else x + y + z <= d)%nat /\
  (class_ndim c < 2 -> y = 0)%nat /\ (class_ndim c < 3 -> z = 0)%nat.

(* the numbers of points on offer *)
Definition rule_sizes (c : geoclass) : list nat :=
  match c with
  | CLin => [1; 2; 3; 4; 5]
  | CTri => [1; 3; 4; 6; 7; 12; 16]
  | CQua => [1; 4; 9; 16]
  | CTet => [1; 4; 5; 8; 14; 15; 24]
  | CHex => [6; 8; 14; 27; 64]
  end%nat.
(* and the default of each kind *)
Definition default_size (k : geokind) : nat :=
  match k with
  | Lin2 => 2 | Lin3 => 3 | Lin4 => 4 | Lin5 => 5
  | Tri3 => 3 | Tri6 => 7 | Tri10 => 12 | Tri15 => 16
  | Qua4 => 4 | Qua8 | Qua9 => 9 | Qua12 | Qua16 | Qua17 => 16
  | Tet4 => 4 | Tet10 => 14 | Tet20 => 24
  | Hex8 => 8 | Hex20 => 27 | Hex32 => 64
  end%nat.

(* length, area or volume of the reference cell *)
Definition ref_measure (c : geoclass) : R :=
  match c with CLin => 2 | CTri => 1 / 2 | CQua => 4 | CTet => 1 / 6 | CHex => 8 end.

(* the two rules with a negative weight *)
Definition negative_rule (c : geoclass) (n : nat) : bool :=
  match c, n with CTri, 4%nat => true | CTet, 5%nat => true | _, _ => false end.

(* interpolation function of node m *)
Definition N_at (k : geokind) (m : nat) (x y z : R) : R := nth m (calc_interp k [x; y; z]) 0.

(* relative error of the table entries *)
Definition table_eps : R := 2 / 10 ^ 14.
