(* Vocabulary of the properties of the triangulation of a surface. *)
From Coq Require Import Reals QArith Qreals List Arith Permutation.
From Verif Require Import Base Kind MeshModel MeshQuerySpec ShapesModel ShapesSpec ShapesTables PadModel PadSpec TopoModel TopoSpec TriSurfModel.
Import ListNotations.
Local Open Scope nat_scope.

(* where a point of the triangulation comes from: a point of the mesh, or the k-th extra node of the
   c-th cell of the surface *)
Inductive origin := Node (id : nat) | Extra (c k : nat).

Definition plane_kind (k : geokind) : Prop := kind_class k = CTri \/ kind_class k = CQua.

(* the cells that will be triangulated have as many points as their kind says, all in the mesh *)
Definition valid_surface (m : mesh R) (s : list (geokind * list nat)) : Prop :=
  (ndim m = 2 \/ ndim m = 3) /\ coords_complete m /\
  forall k pts, In (k, pts) s -> plane_kind k ->
    List.length pts = kind_nnode k /\ forall q, In q pts -> q < List.length (points m).

Definition point_x (m : mesh R) (id i : nat) : R :=
  match nth_error (points m) id with Some pt => nth i (pt_coords pt) 0%R | None => 0%R end.

(* coordinate i of the point: of the mesh, or interpolated between the points of its cell *)
Definition origin_x (m : mesh R) (s : list (geokind * list nat)) (o : origin) (i : nat) : R :=
  match o with
  | Node id => point_x m id i
  | Extra c e =>
      match nth_error s c with
      | Some (k, pts) =>
          sum_n (kind_nnode k) (fun a =>
            nth a (calc_interp k (map Q2R (triangulate_extra_coords k e))) 0 * point_x m (nth a pts 0%nat) i)%R
      | None => 0%R
      end
  end.

(* the corners of the triangles of the c-th cell, from the table of its kind *)
Definition corner_origin (c : nat) (k : geokind) (pts : list nat) (m : nat) : origin :=
  if m <? kind_nnode k then Node (nth m pts 0) else Extra c (m - kind_nnode k).
Definition cell_triangles (c : nat) (k : geokind) (pts : list nat) : list (list origin) :=
  match kind_class k with
  | CTri | CQua =>
      map (fun t => [corner_origin c k pts (tnode k t 0); corner_origin c k pts (tnode k t 1); corner_origin c k pts (tnode k t 2)])
        (seq 0 (triangulate_ntriangle k))
  | _ => []
  end.
Fixpoint triangles_from (c : nat) (s : list (geokind * list nat)) : list (list origin) :=
  match s with
  | [] => []
  | (k, pts) :: s' => cell_triangles c k pts ++ triangles_from (S c) s'
  end.
Definition surface_triangles (s : list (geokind * list nat)) : list (list origin) := triangles_from 0 s.

(* the list [lab] numbers the elements of L in the order of their first appearance *)
Definition numbers {A} (lab L : list A) : Prop :=
  NoDup lab /\ forall L1 L2, L = L1 ++ L2 -> exists n, forall o, In o (firstn n lab) <-> In o L1.

(* the triangulation of the surface s: point number n is lab[n] *)
Definition triangulates (m : mesh R) (s : list (geokind * list nat)) (tr : triang) (lab : list origin) : Prop :=
  numbers lab (concat (surface_triangles s)) /\
  (forall o, In o lab <-> In o (concat (surface_triangles s))) /\
  List.length (t_xx tr) = List.length lab /\ List.length (t_yy tr) = List.length lab /\
  List.length (t_zz tr) = (if ndim m =? 3 then List.length lab else 0) /\
  (forall n o, nth_error lab n = Some o ->
     nth n (t_xx tr) 0%R = origin_x m s o 0 /\ nth n (t_yy tr) 0%R = origin_x m s o 1 /\
     (ndim m = 3 -> nth n (t_zz tr) 0%R = origin_x m s o 2)) /\
  Forall2 (Forall2 (fun p o => nth_error lab p = Some o)) (t_tris tr) (surface_triangles s).

(* the directed edges of a list of triangles *)
Definition tri_edges {A} (tri : list A) : list (A * A) :=
  match tri with [a; b; c] => [(a, b); (b, c); (c, a)] | _ => [] end.
Definition all_edges {A} (tris : list (list A)) : list (A * A) := flat_map tri_edges tris.

(* the directed edges of the boundary of a cell, from node to node *)
Definition cell_boundary (k : geokind) (pts : list nat) : list (nat * nat) :=
  loop_edges (map (fun m => nth m pts 0) (boundary_loop k)).
Definition surface_boundary (s : list (geokind * list nat)) : list (nat * nat) :=
  flat_map (fun c => if tri_or_qua (fst c) then cell_boundary (fst c) (snd c) else []) s.

(* signed area of a triangle of the result projected on the coordinates i, j *)
Definition result_x (tr : triang) (i p : nat) : R :=
  nth p (match i with 0 => t_xx tr | 1 => t_yy tr | _ => t_zz tr end) 0%R.
Definition result_area (tr : triang) (i j : nat) (tri : list nat) : R :=
  match tri with
  | [a; b; c] => (((result_x tr i b - result_x tr i a) * (result_x tr j c - result_x tr j a) -
                   (result_x tr i c - result_x tr i a) * (result_x tr j b - result_x tr j a)) / 2)%R
  | _ => 0%R
  end.
(* signed area of the polygon of the boundary nodes of a cell *)
Definition cell_area (m : mesh R) (i j : nat) (c : geokind * list nat) : R :=
  if tri_or_qua (fst c)
  then shoelace (map (fun n => (point_x m (nth n (snd c) 0) i, point_x m (nth n (snd c) 0) j)) (boundary_loop (fst c)))
  else 0%R.

(* every directed edge of the list has its own opposite in the list *)
Definition swap {A} (e : A * A) : A * A := (snd e, fst e).
Definition balanced {A} (l : list (A * A)) : Prop := Permutation (map swap l) l.

(* every face of the solids belongs to at most two of them, which pass its nodes in opposite directions *)
Definition solids_conform (m : mesh R) : Prop :=
  (forall k a b c, has_face m k a -> has_face m k b -> has_face m k c -> a = b \/ b = c \/ a = c) /\
  (forall k a b kd ps kd' ps', has_face m k a -> has_face m k b -> a <> b ->
     face_nodes m (fst a) (snd a) kd ps -> face_nodes m (fst b) (snd b) kd' ps' ->
     Permutation (map swap (cell_boundary kd ps)) (cell_boundary kd' ps')).

(* coordinate i of the corner number m of the triangles of an element: a node or an extra node *)
Definition corner_x (p : pad) (m i : nat) : R :=
  if m <? kind_nnode (p_kind p) then node_x p i m
  else pos p (map Q2R (triangulate_extra_coords (p_kind p) (m - kind_nnode (p_kind p)))) i.

(* a call of the function given to Scratchpad::triangulate: triangle, corner, number of the corner, coordinates *)
Definition pad_call : Type := nat * nat * nat * list R.
Definition do_call {St} (f : St -> nat -> nat -> nat -> list R -> res St) (s : St) (c : pad_call) : res St :=
  let '(t, i, m, x) := c in f s t i m x.
(* the cells of a list of faces, the points of the triangles and quadrilaterals of a surface *)
Definition as_surface (fs : list face) : list (geokind * list nat) := map (fun f => (f_kind f, f_points f)) fs.
Definition ids_of (s : list (geokind * list nat)) : list nat := flat_map (fun c => if tri_or_qua (fst c) then snd c else []) s.
