(* Vocabulary of the uniqueness of solutions: assembled matrices times nodal values, and cells linked by shared points *)
From Coq Require Import Reals List Arith Relations.
From Verif Require Import Base Kind MeshModel ShapesModel ShapesSpec PadModel PadSpec IntegModel IntegSpec BalanceSpec PatchSpec.
Import ListNotations.
Local Open Scope R_scope.

(* triangles in the plane, tetrahedra in space, with positive area or volume *)
Definition simplex_kind (nd : nat) (k : geokind) : Prop := match nd with 2%nat => k = Tri3 | _ => k = Tet4 end.
Definition triple (u v w : nat -> R) : R := sum_n 3 (fun i => vector_product i u v * w i).
Definition simplex_measure (m : mesh R) (ps : list nat) : R :=
  match ps with
  | [p; q; r] => (from_to m p q 0 * from_to m p r 1 - from_to m p r 0 * from_to m p q 1) / 2
  | [p; q; r; s] => triple (from_to m p q) (from_to m p r) (from_to m p s) / 6
  | _ => 0
  end.
Definition simplex_mesh (m : mesh R) : Prop :=
  forall c, In c (of_dim (MeshModel.ndim m) m) -> simplex_kind (MeshModel.ndim m) (c_kind c) /\ 0 < simplex_measure m (c_points c).

(* positive definite: strains (symmetric, in the plane or in space) have positive energy; gradients have positive dissipation *)
Definition firm (nd : nat) (D : mat) : Prop :=
  forall e, (forall i j, e i j = e j i) -> (exists i j, (i < nd)%nat /\ (j < nd)%nat /\ e i j <> 0) ->
  0 < sum_n nd (fun i => sum_n nd (fun j => sum_n nd (fun k => sum_n nd (fun l => tensor4 D i j k l * e k l)) * e i j)).
Definition dissipative (nd : nat) (tt : list R) : Prop :=
  forall g, (exists i, (i < nd)%nat /\ g i <> 0) -> 0 < sum_n nd (fun i => sum_n nd (fun j => tensor2 tt i j * g j) * g i).

(* row (P, i) of the sum over the cells of the stiffness matrices, times the displacements u; row P of the sum of the
   conductivity matrices, times the temperatures phi; k: id of the cell *)
Definition nodal_force (m : mesh R) (A : nat -> args) (kk kk' : nat -> mat) (u : nat -> nat -> R) (P i : nat) : R :=
  sum_over (fun c => let k := c_id c in at_point (c_points c) P (fun a => stiffness_times (A k) (kk k) (kk' k) (c_points c) u a i)) (of_dim (MeshModel.ndim m) m).
Definition nodal_heat (m : mesh R) (A : nat -> args) (kk kk' : nat -> mat) (phi : nat -> R) (P : nat) : R :=
  sum_over (fun c => let k := c_id c in at_point (c_points c) P (fun a => conductivity_times (A k) (kk k) (kk' k) (c_points c) phi a)) (of_dim (MeshModel.ndim m) m).

(* two cells have n distinct points in common; chains of such cells *)
Definition sharing (n : nat) (c c' : cell) : Prop :=
  exists l, NoDup l /\ List.length l = n /\ incl l (c_points c) /\ incl l (c_points c').
Definition linked (m : mesh R) (n : nat) : cell -> cell -> Prop :=
  clos_refl_trans _ (fun c c' => In c (of_dim (MeshModel.ndim m) m) /\ In c' (of_dim (MeshModel.ndim m) m) /\ sharing n c c').

(* an infinitesimal rigid motion is a skew-symmetric linear function plus a translation *)
Definition skew (nd : nat) (w : nat -> nat -> R) : Prop := forall i j, (i < nd)%nat -> (j < nd)%nat -> w i j = - w j i.
