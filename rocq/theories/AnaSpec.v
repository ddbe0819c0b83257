(* Vocabulary of the properties of the closed forms: integrals over an element. *)
From Coquelicot Require Import Coquelicot.
From Coq Require Import Reals List Arith Bool.
From Verif Require Import Base Kind ShapesModel ShapesSpec PadModel PadSpec GaussModel GaussSpec IntegModel IntegSpec.
Import ListNotations.
Local Open Scope R_scope.

(* the reference coordinates of an element of kind k as a list *)
Definition ref_point (k : geokind) (x y z : R) : list R := firstn (kind_ndim k) [x; y; z].
(* interpolation function of node m *)
Definition shape (k : geokind) (m : nat) (ksi : list R) : R := nth m (calc_interp k ksi) 0.

(* v is the integral of f(ksi) over the reference cell (f contains the ratio of the volumes) *)
Definition cell_integral (k : geokind) (f : list R -> R) (v : R) : Prop :=
  ref_integral (kind_class k) (fun x y z => f (ref_point k x y z)) v.

(* at every point, d is the ratio of the volumes (with the sign of the orientation) and B the gradient of
   the interpolation functions with respect to x *)
Definition solid_element (p : pad) (d : list R -> R) (B : list R -> mat) : Prop :=
  forall ksi, List.length ksi = kind_ndim (p_kind p) -> gradient_at p ksi (d ksi) (B ksi).
(* d is the ratio of the lengths or volumes *)
Definition measured (p : pad) (d : list R -> R) : Prop :=
  forall ksi, List.length ksi = kind_ndim (p_kind p) -> measure_at p ksi (d ksi).

(* the radius in axisymmetric problems, else 1 *)
Definition axi_weight (axi : bool) (p : pad) (ksi : list R) : R := if axi then pos p ksi 0 else 1.

(* the vector a has the blocks (m,i), m < M, i < ni, with the integrals of V m i *)
Definition vec_integral (k : geokind) (M ni : nat) (V : nat -> nat -> list R -> R) (a : list R) : Prop :=
  List.length a = (M * ni)%nat /\
  forall m i, (m < M)%nat -> (i < ni)%nat -> cell_integral k (V m i) (nth (i + m * ni) a 0).
(* the matrix K has the blocks (m,i) (n,j) with the integrals of V m i n j *)
Definition mat_integral (k : geokind) (M ni N nj : nat) (V : nat -> nat -> nat -> nat -> list R -> R) (K : mat) : Prop :=
  is_matrix (M * ni) (N * nj) K /\
  forall m i n j, (m < M)%nat -> (i < ni)%nat -> (n < N)%nat -> (j < nj)%nat ->
    cell_integral k (V m i n j) (ent K (i + m * ni) (j + n * nj)).

(* the element is a rectangle with sides 2 a and 2 b along the axes, centre c *)
Definition rectangle (p : pad) (a b : R) (c : nat -> R) : Prop :=
  affine_pad p (fun i j => if Nat.eqb i j then (if Nat.eqb i 0 then a else b) else 0) c.

(* q is side e of the triangle p *)
Definition side_of (p q : pad) (e : nat) : Prop :=
  kind_edge_kind (p_kind p) = Some (p_kind q) /\ p_space q = p_space p /\
  forall i a, (i < p_space p)%nat -> (a < kind_nnode (p_kind q))%nat ->
    node_x q i a = node_x p i (edge_node_id (p_kind p) e a).

(* symmetric part of the gradient of the displacement N_m e_i *)
Definition sym_grad (nd : nat) (B : mat) (m i k l : nat) : R :=
  let grad a b := if (a =? i)%nat && (b <? nd)%nat then ent B m b else 0 in (grad k l + grad l k) / 2.
