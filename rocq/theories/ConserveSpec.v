(* Vocabulary of balances over a whole mesh: internal forces, loads and reactions, heat content *)
From Coq Require Import Reals List Arith.
From Verif Require Import Base Kind MeshModel ShapesModel ShapesSpec PadModel PadSpec GaussModel GaussSpec IntegModel IntegSpec BalanceSpec PatchSpec UniqueSpec.
Import ListNotations.
Local Open Scope R_scope.

(* the internal forces of a cell under any stress: vec_04_bt with the scratchpad of the cell, any rule, any place in the vector *)
Definition strained (zdet : R) (m : mesh R) (c : cell) (A : args) (t t' : list R) : Prop :=
  exists fn q, get_pad m (c_id c) = Ok (a_pad A) /\ a_axi A = false /\ vec_04_bt zdet A t fn = Ok (t', q).
Definition internal_force (m : mesh R) (A : nat -> args) (t t' : nat -> list R) (P i : nat) : R :=
  sum_over (fun c => let k := c_id c in at_point (c_points c) P (fun a => vec_added (A k) (t k) (t' k) (i + a * MeshModel.ndim m))) (of_dim (MeshModel.ndim m) m).
(* a stiffness matrix of any symmetric D (also different ones at the points) *)
Definition springy (zdet : R) (m : mesh R) (c : cell) (A : args) (kk kk' : mat) : Prop :=
  exists nr nc fn q, get_pad m (c_id c) = Ok (a_pad A) /\ a_axi A = false /\ is_matrix nr nc kk /\
    (forall p nn bb D, fn p nn bb = Ok D -> symmetric 6 (ent D)) /\ mat_10_bdb zdet A kk fn = Ok (kk', q).

(* the resultant, and the moment in the plane of the directions i and j about the origin *)
Definition resultant (m : mesh R) (f : nat -> nat -> R) (i : nat) : R := sum_n (List.length (points m)) (fun P => f P i).
Definition moment (m : mesh R) (f : nat -> nat -> R) (i j : nat) : R :=
  sum_n (List.length (points m)) (fun P => xcoord m P i * f P j - xcoord m P j * f P i).
Definition balanced (m : mesh R) (f : nat -> nat -> R) : Prop :=
  forall i j, (i < MeshModel.ndim m)%nat -> (j < MeshModel.ndim m)%nat -> resultant m f i = 0 /\ moment m f i j = 0.

(* matrices of heat capacity and conductivity, any rules, closures and geometries *)
Definition capacity (zdet : R) (c : cell) (A : args) (fn : nat -> list R -> mat -> res R) (mm mm' : mat) : Prop :=
  exists nr nc q, pad_wf (a_pad A) /\ p_kind (a_pad A) = c_kind c /\ is_matrix nr nc mm /\ mat_01_nsn zdet A mm fn = Ok (mm', q).
Definition conductance (zdet : R) (c : cell) (A : args) (fn : nat -> list R -> mat -> res (list R)) (kk kk' : mat) : Prop :=
  exists nr nc q, pad_wf (a_pad A) /\ p_kind (a_pad A) = c_kind c /\ is_matrix nr nc kk /\ mat_03_btb zdet A kk fn = Ok (kk', q).
(* the integral over the cell of heat capacity times (interpolated) temperature *)
Definition cell_content (A : args) (fn : nat -> list R -> mat -> res R) (ps : list nat) (u : nat -> R) (v : R) : Prop :=
  exists d B s, (forall p, (p < npoint (a_gauss A))%nat -> gradient_at (a_pad A) (ksi_at A p) (d p) (B p) /\ fn p (N_p A p) (B p) = Ok (s p)) /\
    v = integral A (fun p => dvol A d p * s p * sum_n (a_nnode A) (fun l => N_of A p l * u (nth l ps 0%nat))).
(* over all points: the sum of the products of the matrix with the temperatures; the same weighted by the temperatures *)
Definition total_heat (m : mesh R) (A : nat -> args) (mm mm' : nat -> mat) (u : nat -> R) : R :=
  sum_n (List.length (points m)) (fun P => nodal_heat m A mm mm' u P).
Definition square_norm (m : mesh R) (A : nat -> args) (mm mm' : nat -> mat) (u : nat -> R) : R :=
  sum_n (List.length (points m)) (fun P => u P * nodal_heat m A mm mm' u P).
