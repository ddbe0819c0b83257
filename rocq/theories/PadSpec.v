(* Vocabulary of the properties of the scratchpad; matrices are functions of two indices. *)
From Coq Require Import Reals List Arith.
From Verif Require Import Kind MeshModel ShapesModel ShapesSpec PadModel.
Import ListNotations.
Local Open Scope R_scope.

(* the pad of a kind that fits in the space, with a matrix of coordinates of the right size *)
Definition pad_wf (p : pad) : Prop :=
  (p_space p = 2 \/ p_space p = 3)%nat /\ (kind_ndim (p_kind p) <= p_space p)%nat /\
  List.length (p_xxt p) = p_space p /\
  Forall (fun row => List.length row = kind_nnode (p_kind p)) (p_xxt p).

(* coordinate i of node m *)
Definition node_x (p : pad) (i m : nat) : R := nth m (nth i (p_xxt p) []) 0.

(* the isoparametric map: coordinate i of the image of ksi *)
Definition pos (p : pad) (ksi : list R) (i : nat) : R :=
  sum_n (kind_nnode (p_kind p)) (fun m => nth m (calc_interp (p_kind p) ksi) 0 * node_x p i m).

(* value at ksi of the field with nodal values u *)
Definition field (p : pad) (u : nat -> R) (ksi : list R) : R :=
  sum_n (kind_nnode (p_kind p)) (fun m => nth m (calc_interp (p_kind p) ksi) 0 * u m).

Definition delta (i j : nat) : R := if Nat.eqb i j then 1 else 0.

(* the determinant (Leibniz formula) *)
Definition det (n : nat) (a : nat -> nat -> R) : R :=
  match n with
  | 2%nat => a 0%nat 0%nat * a 1%nat 1%nat - a 1%nat 0%nat * a 0%nat 1%nat
  | 3%nat => a 0%nat 0%nat * a 1%nat 1%nat * a 2%nat 2%nat + a 0%nat 1%nat * a 1%nat 2%nat * a 2%nat 0%nat
           + a 0%nat 2%nat * a 1%nat 0%nat * a 2%nat 1%nat - a 0%nat 2%nat * a 1%nat 1%nat * a 2%nat 0%nat
           - a 0%nat 1%nat * a 1%nat 0%nat * a 2%nat 2%nat - a 0%nat 0%nat * a 1%nat 2%nat * a 2%nat 1%nat
  | _ => 0
  end.

(* a, b are inverse n x n matrices *)
Definition inverse_of (n : nat) (a b : nat -> nat -> R) : Prop :=
  forall i j, (i < n)%nat -> (j < n)%nat ->
    sum_n n (fun l => a i l * b l j) = delta i j /\ sum_n n (fun l => b i l * a l j) = delta i j.

(* the curve gamma in reference space passes ksi at t0 and is differentiable there *)
Definition curve_at (n : nat) (gamma : R -> list R) (t0 : R) (ksi : list R) (g : nat -> R) : Prop :=
  gamma t0 = ksi /\
  forall j, (j < n)%nat -> derivable_pt_lim (fun t => nth j (gamma t) 0) t0 (g j).

(* partial derivative of f with respect to coordinate j *)
Definition partial (f : list R -> R) (ksi : list R) (j : nat) (d : R) : Prop :=
  derivable_pt_lim (fun t => f (set_coord ksi j t)) (nth j ksi 0) d.

(* distance between the point x and the image of ksi *)
Definition residual (p : pad) (ksi x : list R) : R :=
  sqrt (sum_n (p_space p) (fun i => (nth i x 0 - pos p ksi i) ^ 2)).

Definition least (S : R -> Prop) (x : R) : Prop := S x /\ forall y, S y -> x <= y.
Definition greatest (S : R -> Prop) (x : R) : Prop := S x /\ forall y, S y -> y <= x.

(* coordinate i of the nodes *)
Definition node_coord (p : pad) (i : nat) (v : R) : Prop :=
  exists m, (m < kind_nnode (p_kind p))%nat /\ v = node_x p i m.

(* the element is the affine image b + A ksi of the reference element *)
Definition affine_pad (p : pad) (a : nat -> nat -> R) (b : nat -> R) : Prop :=
  forall i m, (i < p_space p)%nat -> (m < kind_nnode (p_kind p))%nat ->
    node_x p i m = b i + sum_n (kind_ndim (p_kind p)) (fun j => a i j * nth j (ref_coords (p_kind p) m) 0).

(* q has the same kind and the same coordinates as p *)
Definition same_element (p q : pad) : Prop :=
  p_kind q = p_kind p /\ p_space q = p_space p /\ p_xxt q = p_xxt p /\ p_ok q = p_ok p.

(* [a] is the matrix of the partial derivatives of the isoparametric map at ksi *)
Definition jacobian_of (p : pad) (ksi : list R) (a : nat -> nat -> R) : Prop :=
  forall i j, (i < p_space p)%nat -> (j < kind_ndim (p_kind p))%nat ->
    partial (fun z => pos p z i) ksi j (a i j).

(* one step of Newton's method for the equation pos(ksi) = x: the linearised equation holds *)
Definition newton_step (p : pad) (x z z' : list R) : Prop :=
  exists a, jacobian_of p z a /\ det (p_space p) a <> 0 /\ List.length z' = p_space p /\
    forall i, (i < p_space p)%nat ->
      sum_n (p_space p) (fun j => a i j * (nth j z' 0 - nth j z 0)) = nth i x 0 - pos p z i.

(* the first approximation: linear interpolation between the limits of the nodal coordinates *)
Definition first_guess (p : pad) (x z : list R) : Prop :=
  List.length z = p_space p /\
  forall j, (j < p_space p)%nat -> exists lo hi, least (node_coord p j) lo /\ greatest (node_coord p j) hi /\ lo < hi /\
    nth j z 0 = (if is_tri_or_tet (p_kind p) then (nth j x 0 - lo) / (hi - lo)
                 else -1 + 2 * ((nth j x 0 - lo) / (hi - lo))).

(* the pad holds the cell c of the mesh: coordinate i of node a is coordinate i of its a-th point *)
Definition element_of (m : mesh R) (c : cell) (p : pad) : Prop :=
  pad_wf p /\ p_kind p = c_kind c /\ p_space p = ndim m /\
  forall a id pt i, nth_error (c_points c) a = Some id -> nth_error (points m) id = Some pt -> (i < ndim m)%nat ->
    node_x p i a = nth i (pt_coords pt) 0.

(* the determinant of the Jacobian of the cell at the point (1/3, 1/3, ..) *)
Definition det_third (m : mesh R) (c : cell) (d : R) : Prop :=
  exists p a, element_of m c p /\ jacobian_of p (repeat (1/3) (ndim m)) a /\ d = det (ndim m) a.
