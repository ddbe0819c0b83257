(* Vocabulary of the properties of pressure along the boundary *)
From Coq Require Import Reals List Arith.
From Verif Require Import Base Kind MeshModel TopoModel ShapesModel ShapesSpec PadModel PadSpec GaussModel GaussSpec IntegModel IntegSpec NormalSpec.
Import ListNotations.
Local Open Scope R_scope.

(* the closure given to vec_02_nv_bry: pressure times unit normal vector *)
Definition pressure (pr : R) : nat -> list R -> list R -> res (list R) := fun _ un _ => Ok (map (Rmult pr) un).
(* component i of the sum of the nodal forces; the sum of their moments about the origin (of the plane; about axis i) *)
Definition net_force (A : args) (b b' : list R) (i : nat) : R :=
  sum_n (a_nnode A) (fun m => vec_added A b b' (i + m * p_space (a_pad A))).
Definition net_moment (A : args) (b b' : list R) : R :=
  sum_n (a_nnode A) (fun m => node_x (a_pad A) 0 m * vec_added A b b' (1 + m * 2) - node_x (a_pad A) 1 m * vec_added A b b' (0 + m * 2)).
(* the sum of the absolute values of coordinate i of the nodes *)
Definition extent (p : pad) (i : nat) : R := sum_n (kind_nnode (p_kind p)) (fun m => Rabs (node_x p i m)).
(* the next of the three axes *)
Definition nxt (i : nat) : nat := match i with 0%nat => 1 | 1%nat => 2 | _ => 0 end%nat.
(* the loads of an edge or face of the boundary: vec_02_nv_bry with the scratchpad of the edge or face, any rule with n
   points, thickness th, in any vector b at any place *)
Definition loaded (m : mesh R) (kd : geokind) (ps : list nat) (pr th : R) (n : nat) (A : args) (b b' : list R) (q : pad) : Prop :=
  pad_of_side m kd ps (a_pad A) /\ a_axi A = false /\ a_alpha A = th /\
  gauss_new_sized (kind_class kd) n = Ok (a_gauss A) /\ vec_02_nv_bry A b (pressure pr) = Ok (b', q).
(* the moment about axis i of the nodal forces on a face in space *)
Definition net_moment_3d (A : args) (b b' : list R) (i : nat) : R :=
  sum_n (a_nnode A) (fun m => node_x (a_pad A) (nxt i) m * vec_added A b b' (nxt (nxt i) + m * 3)
    - node_x (a_pad A) (nxt (nxt i)) m * vec_added A b b' (nxt i + m * 3)).
(* minus the integral of |x|^2/2 along the straight line from u to v, component i *)
Definition line_moment (i : nat) (u v : nat -> R) : R :=
  (u i - v i) * (u 0%nat * u 0%nat + u 1%nat * u 1%nat + u 2%nat * u 2%nat + (u 0%nat * v 0%nat + u 1%nat * v 1%nat + u 2%nat * v 2%nat)
    + (v 0%nat * v 0%nat + v 1%nat * v 1%nat + v 2%nat * v 2%nat)) / 6.
(* sum along the circuit of a triangle, quadrilateral *)
Definition round_moment (i : nat) (l : list (nat -> R)) : R :=
  match l with
  | [a; b; c] => line_moment i a b + line_moment i b c + line_moment i c a
  | [a; b; c; d] => line_moment i a b + line_moment i b c + line_moment i c d + line_moment i d a
  | _ => 0
  end.
