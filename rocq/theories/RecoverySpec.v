(* Vocabulary of the properties of the recovery functions. *)
From Coq Require Import Reals List Arith.
From Verif Require Import Base Kind ShapesModel ShapesSpec PadModel PadSpec GaussModel GaussSpec IntegSpec.
Import ListNotations.
Local Open Scope R_scope.

(* reference coordinates of integration point p *)
Definition ksi_of (k : geokind) (g : gauss) (p : nat) : list R := map (pt g p) (seq 0 (kind_ndim k)).

(* the product of the matrix a (nc columns) with u *)
Definition times (nc : nat) (a : mat) (u : nat -> R) (i : nat) : R := sum_n nc (fun j => ent a i j * u j).

(* b is the inverse of the n x n matrix a *)
Definition is_inverse (n : nat) (a b : mat) : Prop := is_matrix n n b /\ inverse_of n (ent a) (ent b).

(* b is the Moore-Penrose inverse of the nr x nc matrix a (Penrose's four equations) *)
Definition prod (n : nat) (a b : nat -> nat -> R) (i j : nat) : R := sum_n n (fun l => a i l * b l j).
Definition is_pinv (nr nc : nat) (a b : mat) : Prop :=
  is_matrix nc nr b /\
  (forall i j, (i < nr)%nat -> (j < nc)%nat -> prod nr (prod nc (ent a) (ent b)) (ent a) i j = ent a i j) /\
  (forall i j, (i < nc)%nat -> (j < nr)%nat -> prod nc (prod nr (ent b) (ent a)) (ent b) i j = ent b i j) /\
  (forall i j, (i < nr)%nat -> (j < nr)%nat -> prod nc (ent a) (ent b) i j = prod nc (ent a) (ent b) j i) /\
  (forall i j, (i < nc)%nat -> (j < nc)%nat -> prod nr (ent b) (ent a) i j = prod nr (ent b) (ent a) j i).

(* the library functions return what they promise *)
Definition lib_inverse (f : mat -> res mat) : Prop :=
  forall n a b, is_matrix n n a -> f a = Ok b -> is_inverse n a b.
Definition lib_pinv (f : mat -> res mat) : Prop :=
  forall nr nc a b, is_matrix nr nc a -> f a = Ok b -> is_pinv nr nc a b.

(* an affine function of the reference coordinates *)
Definition affine_at (n : nat) (a0 : R) (a : nat -> R) (ksi : list R) : R := a0 + sum_n n (fun i => a i * nth i ksi 0).

(* the rules for which the values at the points cannot be prescribed *)
Definition dependent_rule (k : geokind) (n : nat) : bool :=
  match k, n with
  | Qua12, 9%nat | Qua17, 16%nat | Tet20, 15%nat | Hex8, 6%nat | Hex32, 27%nat => true
  | _, _ => false
  end.

(* they return something whenever there is something to return *)
Definition lib_inverse_total (f : mat -> res mat) : Prop :=
  forall n a, is_matrix n n a ->
    (forall u, (forall i, (i < n)%nat -> times n a u i = 0) -> forall i, (i < n)%nat -> u i = 0) -> exists b, f a = Ok b.
Definition lib_pinv_total (f : mat -> res mat) : Prop := forall nr nc a, is_matrix nr nc a -> exists b, f a = Ok b.

(* error of the tables *)
Definition hxi_eps : R := 3 / 10 ^ 15.
