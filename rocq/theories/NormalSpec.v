(* Vocabulary of the properties of normal vectors: directions into and out of a cell. *)
From Coq Require Import Reals QArith List Arith.
From Verif Require Import Base Kind MeshModel ShapesModel ShapesSpec PadModel PadSpec.
Import ListNotations.
Local Open Scope R_scope.

(* the point is strictly inside the reference cell *)
Definition strictly_inside (c : geoclass) (eta : list R) : Prop :=
  match c, eta with
  | CLin, [x] => -1 < x < 1
  | CTri, [x; y] => 0 < x /\ 0 < y /\ x + y < 1
  | CQua, [x; y] => -1 < x < 1 /\ -1 < y < 1
  | CTet, [x; y; z] => 0 < x /\ 0 < y /\ 0 < z /\ x + y + z < 1
  | CHex, [x; y; z] => -1 < x < 1 /\ -1 < y < 1 /\ -1 < z < 1
  | _, _ => False
  end.

(* the point at the fraction t of the way from xi to eta *)
Definition toward (xi eta : list R) (t : R) : list R :=
  map (fun j => nth j xi 0 + t * (nth j eta 0 - nth j xi 0)) (seq 0 (List.length xi)).

(* the position of the cell at xi, seen from the position at xi0, along the vector u *)
Definition height (p : pad) (u : list R) (xi0 xi : list R) : R :=
  sum_n (p_space p) (fun i => nth i u 0 * (pos p xi i - pos p xi0 i)).

(* whoever enters the cell from the boundary point xi moves against u / along u *)
Definition points_out (p : pad) (xi u : list R) : Prop :=
  forall eta, strictly_inside (kind_class (p_kind p)) eta ->
  exists eps, 0 < eps /\ forall t, 0 < t < eps -> height p u xi (toward xi eta t) < 0.
Definition points_in (p : pad) (xi u : list R) : Prop :=
  forall eta, strictly_inside (kind_class (p_kind p)) eta ->
  exists eps, 0 < eps /\ forall t, 0 < t < eps -> 0 < height p u xi (toward xi eta t).

(* [s] is the pad of the edge or face whose node j is node [f j] of the cell *)
Definition side_pad (p s : pad) (f : nat -> nat) : Prop :=
  pad_wf s /\ p_space s = p_space p /\
  forall i j, (i < p_space p)%nat -> (j < kind_nnode (p_kind s))%nat -> node_x s i j = node_x p i (f j).

(* the pad of an edge or face of the mesh, made as Scratchpad::new followed by set_pad *)
Definition pad_of_side (m : mesh R) (kd : geokind) (ps : list nat) (s : pad) : Prop :=
  exists p0, pad_new (ndim m) kd = Ok p0 /\ mesh_set_pad m p0 ps = Ok s.

(* magnitude and unit normal of a line in 2D at [0], of a surface in 3D at [0; 0]; the tangents are the
   partial derivatives of the position *)
Definition normal_of (m : mesh R) (kd : geokind) (ps : list nat) (mag : R) (un : list R) : Prop :=
  exists p a, element_of m (mkCell 0 0%Z kd ps) p /\
    match ndim m with
    | 2%nat => jacobian_of p [0] a /\ mag = sqrt (a 1%nat 0%nat ^ 2 + a 0%nat 0%nat ^ 2) /\
        (0 < mag -> un = [- a 1%nat 0%nat / mag; a 0%nat 0%nat / mag]) /\ (mag = 0 -> un = [0; 0])
    | _ => jacobian_of p [0; 0] a /\
        let c0 := a 1%nat 0%nat * a 2%nat 1%nat - a 2%nat 0%nat * a 1%nat 1%nat in
        let c1 := a 2%nat 0%nat * a 0%nat 1%nat - a 0%nat 0%nat * a 2%nat 1%nat in
        let c2 := a 0%nat 0%nat * a 1%nat 1%nat - a 1%nat 0%nat * a 0%nat 1%nat in
        mag = sqrt (c0 ^ 2 + c1 ^ 2 + c2 ^ 2) /\
        (0 < mag -> un = [c0 / mag; c1 / mag; c2 / mag]) /\ (mag = 0 -> un = [0; 0; 0])
    end.

(* the entries agree up to the tolerance *)
Definition near (tol x y : R) : Prop := Rabs (x - y) <= tol.
Definition components_near (n : nat) (tol : R) (u v : list R) : Prop :=
  forall i, (i < n)%nat -> near tol (nth i u 0) (nth i v 0).

(* the edge or face of kind kd with the points ps can have a normal: a line in 2D or a surface in 3D on points of the mesh *)
Definition sound_side (m : mesh R) (kd : geokind) (ps : list nat) : Prop :=
  (kind_ndim kd + 1 = ndim m)%nat /\ List.length ps = kind_nnode kd /\ forall q, In q ps -> (q < List.length (points m))%nat.
