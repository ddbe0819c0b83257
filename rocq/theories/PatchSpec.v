(* Vocabulary of the patch test: forces of a uniform stress, added up over the cells that share a point *)
From Coq Require Import Reals List Arith.
From Verif Require Import Base Kind MeshModel TopoModel ShapesModel ShapesSpec PadModel PadSpec GaussModel GaussSpec IntegModel IntegSpec NormalSpec BalanceSpec.
Import ListNotations.
Local Open Scope R_scope.

(* the sum of the weights of the rule divided by the measure of the reference cell; 1 up to the rounding of the tables *)
Definition weight_ratio (k : geokind) (g : gauss) : R := sum_n (npoint g) (wt g) / ref_measure (kind_class k).

(* the internal forces of a cell under a uniform stress: vec_04_bt with the scratchpad of the cell, any rule with n
   points, thickness th, in any vector d at any place; sig: Mandel components of the stress *)
Definition stressed (zdet : R) (m : mesh R) (c : cell) (sig : list R) (th : R) (n : nat) (A : args) (d d' : list R) (q : pad) : Prop :=
  get_pad m (c_id c) = Ok (a_pad A) /\ a_axi A = false /\ a_alpha A = th /\
  gauss_new_sized (kind_class (c_kind c)) n = Ok (a_gauss A) /\ vec_04_bt zdet A d (fun _ _ _ => Ok sig) = Ok (d', q).
(* the loads of the traction of this stress on an edge of the boundary *)
Definition pulled (m : mesh R) (kd : geokind) (ps : list nat) (sig : list R) (th : R) (n : nat) (A : args) (b b' : list R) (q : pad) : Prop :=
  pad_of_side m kd ps (a_pad A) /\ a_axi A = false /\ a_alpha A = th /\ gauss_new_sized (kind_class kd) n = Ok (a_gauss A) /\
  vec_02_nv_bry A b (fun _ un _ => Ok (map (fun i => sum_n 2 (fun j => tensor2 sig i j * nth j un 0)) (seq 0 2))) = Ok (b', q).

(* the sum of v over the places a where the list has the point P *)
Definition at_point (ps : list nat) (P : nat) (v : nat -> R) : R := sum_n (List.length ps) (fun a => if (nth a ps 0 =? P)%nat then v a else 0).
(* component j of half the normal vector (times length) of the edge, for each of its ends that is P *)
Definition half_edge (m : mesh R) (P j : nat) (l : list nat) : R := at_point l P (fun _ => turned m j l / 2).
(* component j of a third of the area vector of the triangle, for each of its corners that is P *)
Definition third_face (m : mesh R) (P j : nat) (l : list nat) : R :=
  match l with [_; _; _] => at_point l P (fun _ => area_vector m j l / 3) | _ => 0 end.

(* the stiffness matrix of a cell with the same matrix D everywhere *)
Definition stiffened (zdet : R) (m : mesh R) (c : cell) (D : mat) (th : R) (n : nat) (A : args) (kk kk' : mat) (q : pad) : Prop :=
  get_pad m (c_id c) = Ok (a_pad A) /\ a_axi A = false /\ a_alpha A = th /\
  gauss_new_sized (kind_class (c_kind c)) n = Ok (a_gauss A) /\ (exists nr nc, is_matrix nr nc kk) /\ mat_10_bdb zdet A kk (fun _ _ _ => Ok D) = Ok (kk', q).
(* displacements that are linear functions of the position; row i at the node a of the product of the stiffness matrix
   of the cell with them *)
Definition linear (m : mesh R) (c0 : nat -> R) (gr : nat -> nat -> R) (p j : nat) : R := c0 j + sum_n (MeshModel.ndim m) (fun l => gr j l * xcoord m p l).
Definition stiffness_times (A : args) (kk kk' : mat) (ps : list nat) (u : nat -> nat -> R) (a i : nat) : R :=
  sum_n (a_nnode A) (fun b => sum_n (p_space (a_pad A)) (fun j => mat_added A kk kk' (i + a * p_space (a_pad A)) (j + b * p_space (a_pad A)) * u (nth b ps 0%nat) j)).
(* the uniform stress D : (sym gr) of these displacements; no strain normal to the plane *)
Definition linear_stress (nd : nat) (D : mat) (gr : nat -> nat -> R) (i j : nat) : R :=
  sum_n nd (fun k => sum_n nd (fun l => tensor4 D i j k l * ((gr k l + gr l k) / 2))).

(* the flow vector of a cell with a uniform flux *)
Definition flowing (zdet : R) (m : mesh R) (c : cell) (w : list R) (th : R) (n : nat) (A : args) (d d' : list R) (q : pad) : Prop :=
  get_pad m (c_id c) = Ok (a_pad A) /\ a_axi A = false /\ a_alpha A = th /\
  gauss_new_sized (kind_class (c_kind c)) n = Ok (a_gauss A) /\ vec_03_bv zdet A d (fun _ _ _ => Ok w) = Ok (d', q).
(* the conductivity matrix of a cell with the same tensor everywhere, and its product with the temperatures *)
Definition conducting (zdet : R) (m : mesh R) (c : cell) (tt : list R) (th : R) (n : nat) (A : args) (kk kk' : mat) (q : pad) : Prop :=
  get_pad m (c_id c) = Ok (a_pad A) /\ a_axi A = false /\ a_alpha A = th /\
  gauss_new_sized (kind_class (c_kind c)) n = Ok (a_gauss A) /\ (exists nr nc, is_matrix nr nc kk) /\ mat_03_btb zdet A kk (fun _ _ _ => Ok tt) = Ok (kk', q).
Definition conductivity_times (A : args) (kk kk' : mat) (ps : list nat) (phi : nat -> R) (a : nat) : R :=
  sum_n (a_nnode A) (fun b => mat_added A kk kk' a b * phi (nth b ps 0%nat)).

(* straight cells; no edge (face) is seen twice with the same direction (orientation) *)
Definition simple_kind (nd : nat) (k : geokind) : Prop := match nd with 2%nat => k = Tri3 \/ k = Qua4 | _ => k = Tet4 end.
Definition simple_cells (m : mesh R) : Prop := forall c, In c (of_dim (MeshModel.ndim m) m) -> simple_kind (MeshModel.ndim m) (c_kind c).
Definition oriented (m : mesh R) : Prop := match MeshModel.ndim m with 2%nat => directed m | _ => directed_faces m end.
(* the sum over the cells of the values V (cell id) (node) at the point P *)
Definition total_at (m : mesh R) (P : nat) (V : nat -> nat -> R) : R :=
  sum_over (fun c => at_point (c_points c) P (V (c_id c))) (of_dim (MeshModel.ndim m) m).
(* component j of the sum of the shares that P has in the normal vectors (times length or area) of the boundary *)
Definition boundary_vector (m : mesh R) (ft : @features R) (P j : nat) : R :=
  match MeshModel.ndim m with
  | 2%nat => sum_over (fun ke => half_edge m P j (corners (e_kind (snd ke)) (e_points (snd ke)))) (ft_edges ft)
  | _ => sum_over (fun kf => third_face m P j (corners (f_kind (snd kf)) (f_points (snd kf)))) (ft_faces ft)
  end.
(* the same for one cell *)
Definition cell_vector (m : mesh R) (P j : nat) (c : cell) : R :=
  match MeshModel.ndim m with 2%nat => round_edges (half_edge m P j) c | _ => round_faces (third_face m P j) c end.
(* no edge (face) of the boundary has the point P *)
Definition inside (m : mesh R) (ft : @features R) (P : nat) : Prop :=
  match MeshModel.ndim m with
  | 2%nat => forall k ed, In (k, ed) (ft_edges ft) -> ~ In P (e_points ed)
  | _ => forall k fc, In (k, fc) (ft_faces ft) -> ~ In P (f_points fc)
  end.
