(* Vocabulary of mass matrices: positive definite, singular, time steps *)
From Coq Require Import Reals List Arith.
From Verif Require Import Base Kind MeshModel ShapesModel ShapesSpec PadModel PadSpec GaussModel GaussSpec IntegModel IntegSpec BalanceSpec.
Import ListNotations.
Local Open Scope R_scope.

(* no part of the volume is zero or negative *)
Definition sound_volumes (A : args) : Prop :=
  0 < a_alpha A /\ (forall p, (p < npoint (a_gauss A))%nat -> 0 < wt (a_gauss A) p) /\
  (a_axi A = true -> forall p, (p < npoint (a_gauss A))%nat -> 0 < r_of A p) /\ positive_jacobian A.
Definition positive_definite (n : nat) (K : nat -> nat -> R) : Prop := forall u, (exists k, (k < n)%nat /\ u k <> 0) -> 0 < quad_form n K u.
Definition singular (n : nat) (K : nat -> nat -> R) : Prop :=
  exists u, (exists k, (k < n)%nat /\ u k <> 0) /\ forall k, (k < n)%nat -> sum_n n (fun l => K k l * u l) = 0.

(* the mass (heat capacity) matrix of a cell, integrated with at least as many points as nodes; the conductivity matrix *)
Definition storing (zdet : R) (c : cell) (A : args) (kk kk' : mat) : Prop :=
  exists n nr nc fn q, pad_wf (a_pad A) /\ p_kind (a_pad A) = c_kind c /\ is_matrix nr nc kk /\ gauss_new_sized (kind_class (c_kind c)) n = Ok (a_gauss A) /\
    (kind_nnode (c_kind c) <= n)%nat /\ sound_volumes A /\ (forall p nn bb s, fn p nn bb = Ok s -> 0 < s) /\ mat_01_nsn zdet A kk fn = Ok (kk', q).
Definition spreading (zdet : R) (c : cell) (A : args) (kk kk' : mat) : Prop :=
  exists nr nc fn q, pad_wf (a_pad A) /\ p_kind (a_pad A) = c_kind c /\ is_matrix nr nc kk /\ good_volumes A /\ positive_jacobian A /\
    (forall p nn bb T, fn p nn bb = Ok T -> psd (p_space (a_pad A)) (tensor2 T)) /\ mat_03_btb zdet A kk fn = Ok (kk', q).
