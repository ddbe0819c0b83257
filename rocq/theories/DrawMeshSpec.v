(* Vocabulary of the properties of the picture of a mesh. *)
From Coq Require Import Reals List Arith ZArith.
From Verif Require Import Base Kind MeshModel GraphModel TopoSpec ShapesModel ShapesSpec ShapesShared PadModel PadSpec NormalSpec DrawModel DrawSpec DrawMeshModel.
Import ListNotations.
Local Open Scope R_scope.

Definition unit_vector (n : nat) (u : list R) : Prop := sum_n n (fun i => nth i u 0 ^ 2) = 1.
(* the arrow starts at the point xi of the cell and is s u *)
Definition arrow_at (p : pad) (xi : list R) (s : R) (u : list R) (ar : arrow) : Prop :=
  List.length (fst ar) = p_space p /\ List.length (snd ar) = p_space p /\ List.length u = p_space p /\
  forall i, (i < p_space p)%nat -> nth i (fst ar) 0 = pos p xi i /\ nth i (snd ar) 0 = pos p xi i + s * nth i u 0.
(* u is a unit vector that points out of the cell at xi where the cell is not inverted, and into an inverted cell *)
Definition outward (p : pad) (xi u : list R) : Prop :=
  forall j, jacobian_of p xi j ->
    (0 < det (p_space p) j -> unit_vector (p_space p) u /\ points_out p xi u) /\
    (det (p_space p) j < 0 -> unit_vector (p_space p) u /\ points_in p xi u).
(* the middle of a face: its parameters *)
Definition middle (kd : geokind) : R * R := match kind_class kd with CTri => (1/3, 1/3) | _ => (0, 0) end.

(* the arrow of edge e of cell c *)
Definition edge_arrow (m : mesh R) (s : R) (ce : nat * nat) (ar : arrow) : Prop :=
  exists p u, get_pad m (fst ce) = Ok p /\ arrow_at p (edge_point (p_kind p) (snd ce) 0) s u ar /\ outward p (edge_point (p_kind p) (snd ce) 0) u.
(* the arrow of face f of cell c *)
Definition face_arrow (m : mesh R) (s : R) (cf : nat * nat) (ar : arrow) : Prop :=
  exists p kd u, get_pad m (fst cf) = Ok p /\ kind_face_kind (p_kind p) = Some kd /\
    let xi := face_point (p_kind p) (snd cf) (fst (middle kd)) (snd (middle kd)) in
    arrow_at p xi s u ar /\ outward p xi u.
(* the arrow of a shell: a unit vector orthogonal to both tangents and right-handed with them, unless these are parallel *)
Definition shell_arrow (m : mesh R) (s : R) (c : nat) (ar : arrow) : Prop :=
  exists p u, get_pad m c = Ok p /\
    let xi := [fst (middle (p_kind p)); snd (middle (p_kind p))] in
    arrow_at p xi s u ar /\ forall j, jacobian_of p xi j ->
      sum_n 3 (fun i => nth i u 0 * j i 0%nat) = 0 /\ sum_n 3 (fun i => nth i u 0 * j i 1%nat) = 0 /\
      (0 < sum_n 3 (fun i => j i 0%nat ^ 2) * sum_n 3 (fun i => j i 1%nat ^ 2) - sum_n 3 (fun i => j i 0%nat * j i 1%nat) ^ 2 ->
        unit_vector 3 u /\ 0 < det 3 (fun i k => match k with 0%nat => j i 0%nat | 1%nat => j i 1%nat | _ => nth i u 0 end)).

(* the length of the diagonal of the smallest box around the points *)
Definition diagonal (m : mesh R) (P : nat -> Prop) (d : R) : Prop :=
  exists lo hi : nat -> R, (forall j, (j < ndim m)%nat -> let xs x := exists p, P p /\ coord_is m p j x in
      (xs (lo j) /\ forall x, xs x -> lo j <= x) /\ (xs (hi j) /\ forall x, xs x -> x <= hi j)) /\
    d = sqrt (sum_n (ndim m) (fun j => (hi j - lo j) ^ 2)).

(* half way along the line *)
Definition half_way (ar : arrow) (x : list R) : Prop :=
  List.length x = List.length (fst ar) /\ forall i, (i < List.length x)%nat -> nth i x 0 = (nth i (fst ar) 0 + nth i (snd ar) 0) / 2.
(* the line of the plane makes the angle [deg] with the first axis, up to [tol]; the text is never upside down *)
Definition along (tol s deg : R) (ar : arrow) : Prop :=
  let d i := nth i (snd ar) 0 - nth i (fst ar) 0 in
  -90 <= deg <= 90 /\ Rabs (d 1%nat * cos (deg * PI / 180) - d 0%nat * sin (deg * PI / 180)) <= tol * Rabs s.
(* label and line of a marked edge of the plane *)
Definition edge_label (m : mesh R) (s tol : R) (me : Z * nat * nat) (ll : label * arrow) : Prop :=
  exists ce, first_with (has_edge m (snd (fst me)) (snd me)) ce /\ edge_arrow m s ce (snd ll) /\
    lb_number (fst ll) = fst (fst me) /\ lb_paren (fst ll) = None /\ half_way (snd ll) (lb_pos (fst ll)) /\ along tol s (lb_angle (fst ll)) (snd ll).
(* label of a marked edge in space: at the middle of its end points *)
Definition mid_label (m : mesh R) (me : Z * nat * nat) (lb : label) : Prop :=
  lb_number lb = fst (fst me) /\ lb_paren lb = None /\ lb_angle lb = 0 /\ List.length (lb_pos lb) = 3%nat /\
  forall i, (i < 3)%nat -> exists a b, coord_is m (snd (fst me)) i a /\ coord_is m (snd me) i b /\ nth i (lb_pos lb) 0 = (a + b) / 2.
(* label and line of a marked face *)
Definition face_label (m : mesh R) (s : R) (mf : Z * nat * nat * nat * option nat) (ll : label * arrow) : Prop :=
  exists cf, first_with (has_face4 m (marked_face_points mf)) cf /\ face_arrow m s cf (snd ll) /\
    lb_number (fst ll) = fst (fst (fst (fst mf))) /\ lb_paren (fst ll) = None /\ lb_angle (fst ll) = 0 /\ half_way (snd ll) (lb_pos (fst ll)).

(* where the label of a cell is: the mean of the nodes, but for the kinds with a node at the centre of the face *)
Definition label_weight (k : geokind) (a : nat) : R :=
  match k with
  | Qua9 | Qua17 => match a with 0%nat => 3 / 4 | 2%nat => 1 / 4 | _ => 0 end
  | Tri10 => match a with 0%nat | 9%nat => 1 / 2 | _ => 0 end
  | _ => 1 / INR (kind_nnode k)
  end.
(* x is the combination of the nodes with the given weights *)
Definition combined (p : pad) (w : nat -> R) (x : list R) : Prop :=
  List.length x = p_space p /\ forall i, (i < p_space p)%nat -> nth i x 0 = sum_n (kind_nnode (p_kind p)) (fun a => w a * node_x p i a).
Definition convex (n : nat) (w : nat -> R) : Prop := (forall a, 0 <= w a) /\ sum_n n w = 1.
(* the label of a cell *)
Definition cell_label (m : mesh R) (show_marker : bool) (cl : cell) (lb : label) : Prop :=
  lb_number lb = Z.of_nat (c_id cl) /\ lb_paren lb = (if show_marker then Some (c_marker cl) else None) /\ lb_angle lb = 0 /\
  forall p, element_of m cl p -> combined p (label_weight (c_kind cl)) (lb_pos lb).
(* the label of a point *)
Definition point_label (m : mesh R) (show_marker : bool) (pt : point R) (lb : label) : Prop :=
  lb_number lb = Z.of_nat (pt_id pt) /\ lb_angle lb = 0 /\ lb_pos lb = pt_coords pt /\
  forall z, lb_paren lb = Some z <-> show_marker = true /\ z = pt_marker pt /\ z <> 0%Z.

(* the face is not shared *)
Definition lone_face (m : mesh R) (cf : nat * nat) : Prop := exists ps, forall y, has_face4 m ps y <-> y = cf.
(* the line joins two points of the mesh *)
Definition line_of (m : mesh R) (ab : nat * nat) (ar : arrow) : Prop :=
  List.length (fst ar) = ndim m /\ List.length (snd ar) = ndim m /\
  forall i, (i < ndim m)%nat -> coord_is m (fst ab) i (nth i (fst ar) 0) /\ coord_is m (snd ab) i (nth i (snd ar) 0).
(* the linear map is injective *)
Definition injective (n d : nat) (a : nat -> nat -> R) : Prop :=
  forall v : nat -> R, (forall i, (i < n)%nat -> sum_n d (fun j => a i j * v j) = 0) -> forall j, (j < d)%nat -> v j = 0.
