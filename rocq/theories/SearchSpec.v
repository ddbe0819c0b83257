(* What the searches on the features of a mesh are about. *)
From Coq Require Import List Arith Reals.
From Verif Require Import Kind MeshModel TopoModel GeomSpec GridSpec SearchModel.
Import ListNotations.
Open Scope R_scope.

(* the points queried, in n dimensions *)
Definition on_at (n : nat) (a : at_) (p : list R) : Prop :=
  List.length p = n /\
  match a with
  | AtX x => nth 0 p 0 = x
  | AtY y => nth 1 p 0 = y
  | AtZ z => nth 2 p 0 = z
  | AtXY x y => nth 0 p 0 = x /\ nth 1 p 0 = y
  | AtYZ y z => nth 1 p 0 = y /\ nth 2 p 0 = z
  | AtXZ x z => nth 0 p 0 = x /\ nth 2 p 0 = z
  | AtXYZ x y z => nth 0 p 0 = x /\ nth 1 p 0 = y /\ nth 2 p 0 = z
  | AtCircle x y r => euclid [x; y] p = r
  | AtCylinder ax ay az bx by_ bz r => distance_to (on_line [ax; ay; az] [bx; by_; bz]) p r
  end.
(* the queries available in n dimensions *)
Definition at_dim (n : nat) (a : at_) : Prop :=
  match a with
  | AtX _ | AtY _ | AtXY _ _ => n = 2%nat \/ n = 3%nat
  | AtCircle _ _ _ => n = 2%nat
  | _ => n = 3%nat
  end.
(* queries of one point *)
Definition single (n : nat) (a : at_) : Prop :=
  match a with AtXY _ _ => n = 2%nat | AtXYZ _ _ _ => n = 3%nat | _ => False end.
(* radii are not negative, the axis is longer than [eps] *)
Definition sound_query (eps : R) (a : at_) : Prop :=
  match a with
  | AtCircle _ _ r => 0 <= r
  | AtCylinder ax ay az bx by_ bz r => 0 <= r /\ eps < sqdist [bx; by_; bz] [ax; ay; az]
  | _ => True
  end.

(* coordinates of point p *)
Definition coords_of (m : mesh R) (p : nat) (c : list R) : Prop :=
  exists pt, nth_error (points m) p = Some pt /\ pt_coords pt = c.
(* point p of the list is near the queried points and passes the filter *)
Definition is_near (m : mesh R) (pts : list nat) (tol : R) (a : at_) (filter : list R -> bool) (p : nat) : Prop :=
  In p pts /\ exists c, coords_of m p c /\ within (on_at (ndim m) a) tol c /\ filter c = true.
