(* Vocabulary of the properties of the integration of element vectors and matrices: quantities at
   an integration point, tensors in full index form, and the strain of a nodal displacement. *)
From Coq Require Import Reals List Arith Bool.
From Verif Require Import Base Kind ShapesModel ShapesSpec PadModel PadSpec GaussModel GaussSpec IntegModel.
Import ListNotations.
Local Open Scope R_scope.

(* an nr x nc matrix *)
Definition is_matrix (nr nc : nat) (a : mat) : Prop :=
  List.length a = nr /\ Forall (fun row => List.length row = nc) a.

(* reference coordinates of integration point p *)
Definition ksi_at (A : args) (p : nat) : list R :=
  map (pt (a_gauss A) p) (seq 0 (kind_ndim (p_kind (a_pad A)))).
(* values at integration point p: interpolation functions, radius, weight *)
Definition N_p (A : args) (p : nat) : list R := calc_interp (p_kind (a_pad A)) (ksi_at A p).
Definition N_of (A : args) (p m : nat) : R := nth m (N_p A p) 0.
Definition r_of (A : args) (p : nat) : R := pos (a_pad A) (ksi_at A p) 0.
(* weight of the volume: J w alpha, times the radius in axisymmetric problems *)
Definition dvol (A : args) (d : nat -> R) (p : nat) : R :=
  d p * wt (a_gauss A) p * a_alpha A * (if a_axi A then r_of A p else 1).

(* the integral over the element, as the sum over the integration points *)
Definition integral (A : args) (f : nat -> R) : R := sum_n (npoint (a_gauss A)) f.

(* d is the ratio of the volume, area or length to that of the reference cell; for surfaces in 3D the
   function calc_jacobian returns -1 instead *)
Definition measure_at (p : pad) (ksi : list R) (d : R) : Prop :=
  exists J, jacobian_of p ksi J /\
    (kind_ndim (p_kind p) = p_space p -> d = det (p_space p) J) /\
    (kind_ndim (p_kind p) = 1%nat -> d = sqrt (sum_n (p_space p) (fun i => J i 0%nat ^ 2))) /\
    ((1 < kind_ndim (p_kind p) < p_space p)%nat -> d = -1).

(* d is the determinant and B the gradient of the interpolation functions with respect to the
   coordinates: B J = dN/dksi *)
Definition gradient_at (p : pad) (ksi : list R) (d : R) (B : mat) : Prop :=
  kind_ndim (p_kind p) = p_space p /\
  exists J, jacobian_of p ksi J /\ d = det (p_space p) J /\ d <> 0 /\
    forall m j, (m < kind_nnode (p_kind p))%nat -> (j < p_space p)%nat ->
      partial (fun z => nth m (calc_interp (p_kind p) z) 0) ksi j (sum_n (p_space p) (fun i => ent B m i * J i j)).

(* the normal vector of a line in 2D (tangent turned by 90 degrees) and of a surface in 3D (cross product) *)
Definition normal_of (nd : nat) (J : nat -> nat -> R) (i : nat) : R :=
  match nd, i with
  | 2%nat, 0%nat => - J 1%nat 0%nat
  | 2%nat, 1%nat => J 0%nat 0%nat
  | 3%nat, 0%nat => J 1%nat 0%nat * J 2%nat 1%nat - J 2%nat 0%nat * J 1%nat 1%nat
  | 3%nat, 1%nat => J 2%nat 0%nat * J 0%nat 1%nat - J 0%nat 0%nat * J 2%nat 1%nat
  | 3%nat, 2%nat => J 0%nat 0%nat * J 1%nat 1%nat - J 1%nat 0%nat * J 0%nat 1%nat
  | _, _ => 0
  end.
Definition normal_at (p : pad) (ksi : list R) (mag : R) (un : list R) : Prop :=
  p_space p = (kind_ndim (p_kind p) + 1)%nat /\
  exists J, jacobian_of p ksi J /\ List.length un = p_space p /\
    mag = sqrt (sum_n (p_space p) (fun i => normal_of (p_space p) J i ^ 2)) /\
    (forall i, (i < p_space p)%nat -> mag * nth i un 0 = normal_of (p_space p) J i).

(* tensors from their Mandel components: 00 11 22 01 12 02 *)
Definition mandel_index (i j : nat) : nat :=
  match i, j with
  | 0%nat, 0%nat => 0 | 1%nat, 1%nat => 1 | 2%nat, 2%nat => 2
  | 0%nat, 1%nat => 3 | 1%nat, 0%nat => 3
  | 1%nat, 2%nat => 4 | 2%nat, 1%nat => 4
  | _, _ => 5
  end%nat.
Definition mandel_factor (i j : nat) : R := if Nat.eqb i j then 1 else sqrt 2.
Definition tensor2 (t : list R) (i j : nat) : R := nth (mandel_index i j) t 0 / mandel_factor i j.
Definition tensor4 (d : mat) (i j k l : nat) : R :=
  ent d (mandel_index i j) (mandel_index k l) / (mandel_factor i j * mandel_factor k l).

(* what an entry holds before the first integration point *)
Definition vec_base (A : args) (a : list R) (i : nat) : R := if a_clear A then 0 else nth i a 0.
Definition mat_base (A : args) (a : mat) (i j : nat) : R := if a_clear A then 0 else ent a i j.

(* The vector a' holds the blocks V m i (m < M, i < ni) added to a from position ii0 on, and nothing else
   has changed.  Same for the blocks V m i n j of a matrix. *)
Definition vec_result (A : args) (a a' : list R) (M ni : nat) (V : nat -> nat -> R) : Prop :=
  List.length a' = List.length a /\
  (forall m i, (m < M)%nat -> (i < ni)%nat ->
     nth (a_ii0 A + i + m * ni) a' 0 = vec_base A a (a_ii0 A + i + m * ni) + V m i) /\
  (forall k, (k < a_ii0 A)%nat \/ (a_ii0 A + M * ni <= k)%nat -> nth k a' 0 = vec_base A a k).
Definition mat_result (A : args) (a a' : mat) (M ni N nj : nat) (V : nat -> nat -> nat -> nat -> R) : Prop :=
  is_matrix (nrow a) (ncol a) a' /\
  (forall m i n j, (m < M)%nat -> (i < ni)%nat -> (n < N)%nat -> (j < nj)%nat ->
     ent a' (a_ii0 A + i + m * ni) (a_jj0 A + j + n * nj)
     = mat_base A a (a_ii0 A + i + m * ni) (a_jj0 A + j + n * nj) + V m i n j) /\
  (forall k l, (k < a_ii0 A)%nat \/ (a_ii0 A + M * ni <= k)%nat \/ (l < a_jj0 A)%nat \/ (a_jj0 A + N * nj <= l)%nat ->
     ent a' k l = mat_base A a k l).

(* the strain of the displacement N_m e_i: symmetric part of the gradient e_i x B_m; in axisymmetric
   problems the component 22 is N_m / r for the radial direction i = 0 *)
Definition strain (A : args) (B : mat) (p m i k l : nat) : R :=
  let nd := p_space (a_pad A) in
  let grad a b := if (a =? i)%nat && (b <? nd)%nat then ent B m b else 0 in
  (grad k l + grad l k) / 2 +
  (if a_axi A && (i =? 0)%nat && (k =? 2)%nat && (l =? 2)%nat then N_of A p m / r_of A p else 0).
(* e : D : f *)
Definition double_dot (D : nat -> nat -> nat -> nat -> R) (e f : nat -> nat -> R) : R :=
  sum_n 3 (fun i => sum_n 3 (fun j => sum_n 3 (fun k => sum_n 3 (fun l => e i j * D i j k l * f k l)))).

(* the weighted volumes are not negative *)
Definition good_volumes (A : args) : Prop :=
  0 <= a_alpha A /\ (forall p, (p < npoint (a_gauss A))%nat -> 0 <= wt (a_gauss A) p) /\
  (a_axi A = true -> forall p, (p < npoint (a_gauss A))%nat -> 0 <= r_of A p).
(* the determinant of the Jacobian is positive at the integration points *)
Definition positive_jacobian (A : args) : Prop :=
  forall p J, (p < npoint (a_gauss A))%nat -> jacobian_of (a_pad A) (ksi_at A p) J -> 0 < det (p_space (a_pad A)) J.

(* what has been added to the entries of the block *)
Definition vec_added (A : args) (a a' : list R) (k : nat) : R :=
  nth (a_ii0 A + k) a' 0 - vec_base A a (a_ii0 A + k).
Definition mat_added (A : args) (a a' : mat) (k l : nat) : R :=
  ent a' (a_ii0 A + k) (a_jj0 A + l) - mat_base A a (a_ii0 A + k) (a_jj0 A + l).

Definition symmetric (n : nat) (K : nat -> nat -> R) : Prop := forall k l, (k < n)%nat -> (l < n)%nat -> K k l = K l k.
Definition quad_form (n : nat) (K : nat -> nat -> R) (u : nat -> R) : R :=
  sum_n n (fun k => sum_n n (fun l => u k * K k l * u l)).
Definition psd (n : nat) (K : nat -> nat -> R) : Prop := forall u, 0 <= quad_form n K u.

(* gradient of the displacement with nodal values u (node, direction), and its strain *)
Definition grad_u (A : args) (B : mat) (u : nat -> nat -> R) (k l : nat) : R :=
  if (k <? p_space (a_pad A))%nat && (l <? p_space (a_pad A))%nat then sum_n (a_nnode A) (fun n => u n k * ent B n l) else 0.
Definition strain_u (A : args) (B : mat) (p : nat) (u : nat -> nat -> R) (k l : nat) : R :=
  (grad_u A B u k l + grad_u A B u l k) / 2 +
  (if a_axi A && (k =? 2)%nat && (l =? 2)%nat then sum_n (a_nnode A) (fun n => N_of A p n * u n 0%nat) / r_of A p else 0).
(* the stress D : strain *)
Definition stress_u (A : args) (B : mat) (p : nat) (u : nat -> nat -> R) (D : mat) (i j : nat) : R :=
  sum_n 3 (fun k => sum_n 3 (fun l => tensor4 D i j k l * strain_u A B p u k l)).
(* small rigid motion: translation c and antisymmetric w *)
Definition rigid (A : args) (c : nat -> R) (w : nat -> nat -> R) (n j : nat) : R :=
  c j + sum_n (p_space (a_pad A)) (fun l => w j l * node_x (a_pad A) l n).

(* values of the second geometry at integration point p *)
Definition ksi_b (A : args) (pad_b : pad) (p : nat) : list R :=
  map (pt (a_gauss A) p) (seq 0 (kind_ndim (p_kind pad_b))).
Definition N_b (A : args) (pad_b : pad) (p : nat) : list R := calc_interp (p_kind pad_b) (ksi_b A pad_b p).

(* the evaluation of the Jacobian (gradient) at integration point p is possible *)
Definition jac_ok (zdet : R) (A : args) (p : nat) : Prop :=
  p_ok (a_pad A) = true /\
  (kind_ndim (p_kind (a_pad A)) = p_space (a_pad A) ->
   forall J, jacobian_of (a_pad A) (ksi_at A p) J -> zdet < Rabs (det (p_space (a_pad A)) J)).
Definition grad_ok (zdet : R) (A : args) (p : nat) : Prop :=
  p_ok (a_pad A) = true /\ kind_ndim (p_kind (a_pad A)) = p_space (a_pad A) /\
  forall J, jacobian_of (a_pad A) (ksi_at A p) J -> zdet < Rabs (det (p_space (a_pad A)) J).

(* a call returns a value or an error *)
Definition no_panic {T} (r : res T) : Prop := (exists x, r = Ok x) \/ exists msg, r = Err msg.
(* given closures that always return a value (total), the call returns a value if and only if [cond]
   holds; given closures that do not panic (safe), it does not panic *)
Definition total_when {T} (total safe cond : Prop) (r : res T) : Prop :=
  (total -> ((exists v, r = Ok v) <-> cond)) /\ (safe -> no_panic r).

(* length, area and volume of elements with straight sides, from the coordinates of the nodes; the
   area of a quadrilateral is half the cross product of the diagonals *)
Definition line_length (p : pad) : R := sqrt (sum_n (p_space p) (fun i => (node_x p i 1 - node_x p i 0) ^ 2)).
Definition tri_area (p : pad) : R :=
  ((node_x p 0 1 - node_x p 0 0) * (node_x p 1 2 - node_x p 1 0) - (node_x p 0 2 - node_x p 0 0) * (node_x p 1 1 - node_x p 1 0)) / 2.
Definition qua_area (p : pad) : R :=
  ((node_x p 0 2 - node_x p 0 0) * (node_x p 1 3 - node_x p 1 1) - (node_x p 0 3 - node_x p 0 1) * (node_x p 1 2 - node_x p 1 0)) / 2.
Definition tet_volume (p : pad) : R := det 3 (fun i j => node_x p i (S j) - node_x p i 0) / 6.
(* sum of the absolute values of the coefficients of the determinant of the Jacobian of a quadrilateral *)
Definition qua_bound (p : pad) : R :=
  let x := node_x p 0 in let y := node_x p 1 in
  Rabs (((x 2%nat - x 0%nat) * (y 3%nat - y 1%nat) - (x 3%nat - x 1%nat) * (y 2%nat - y 0%nat)) / 8)
  + Rabs (((x 1%nat - x 0%nat) * (y 2%nat - y 3%nat) - (x 2%nat - x 3%nat) * (y 1%nat - y 0%nat)) / 8)
  + Rabs (((x 2%nat - x 1%nat) * (y 3%nat - y 0%nat) - (x 3%nat - x 0%nat) * (y 2%nat - y 1%nat)) / 8).
