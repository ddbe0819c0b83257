(* Specification vocabulary for the interpolation theorems; independent of the model. *)
From Coq Require Import Reals List.
Import ListNotations.
Local Open Scope R_scope.

Fixpoint sum (l : list R) : R := match l with [] => 0 | x :: t => x + sum t end.

(* sum_{i<n} f i *)
Definition sum_n (n : nat) (f : nat -> R) : R := sum (map f (seq 0 n)).

(* replace the j-th coordinate *)
Fixpoint set_coord (ksi : list R) (j : nat) (x : R) : list R :=
  match ksi, j with
  | [], _ => []
  | _ :: t, O => x :: t
  | a :: t, S j' => a :: set_coord t j' x
  end.

(* the affine function a0 + sum_j a_j x_j *)
Fixpoint affine (a : list R) (x : list R) : R :=
  match a, x with c :: a', y :: x' => c * y + affine a' x' | _, _ => 0 end.

(* point of the segment from p (zeta=-1) to q (zeta=+1) *)
Fixpoint seg_point (p q : list R) (z : R) : list R :=
  match p, q with
  | a :: p', b :: q' => ((1 - z) / 2 * a + (1 + z) / 2 * b) :: seg_point p' q' z
  | _, _ => []
  end.

(* point of the triangle p,q,w with reference coordinates r,s >= 0 *)
Fixpoint tri_point (p q w : list R) (r s : R) : list R :=
  match p, q, w with
  | a :: p', b :: q', c :: w' => ((1 - r - s) * a + r * b + s * c) :: tri_point p' q' w' r s
  | _, _, _ => []
  end.

(* point of the quadrilateral p,q,w,v (bilinear), -1 <= r,s <= 1 *)
Fixpoint qua_point (p q w v : list R) (r s : R) : list R :=
  match p, q, w, v with
  | a :: p', b :: q', c :: w', d :: v' =>
      ((1 - r) * (1 - s) / 4 * a + (1 + r) * (1 - s) / 4 * b +
       (1 + r) * (1 + s) / 4 * c + (1 - r) * (1 + s) / 4 * d) :: qua_point p' q' w' v' r s
  | _, _, _, _ => []
  end.

(* signed area of the triangle a b c projected on the coordinates i, j *)
Definition tri_area (i j : nat) (a b c : list R) : R :=
  ((nth i b 0 - nth i a 0) * (nth j c 0 - nth j a 0) -
   (nth i c 0 - nth i a 0) * (nth j b 0 - nth j a 0)) / 2.

(* signed area (shoelace formula) of the closed polygon whose vertices are listed in order *)
Fixpoint shoelace_open (l : list (R * R)) : R :=
  match l with
  | p :: ((q :: _) as t) => (fst p * snd q - fst q * snd p) / 2 + shoelace_open t
  | _ => 0
  end.
Definition shoelace (l : list (R * R)) : R :=
  match l with [] => 0 | p :: _ => shoelace_open (l ++ [p]) end.

(* local order of the nodes of a line cell along the line, without the end node *)
Definition along_line (n : nat) : list nat :=
  match n with
  | 2 => [0] | 3 => [0; 2] | 4 => [0; 2; 3] | 5 => [0; 3; 2; 4] | _ => []
  end%nat.

(* symmetries of the reference triangle / square as permutations of the corners *)
Definition tri_symmetries : list (list nat) :=
  [[0;1;2]; [1;2;0]; [2;0;1]; [0;2;1]; [1;0;2]; [2;1;0]]%nat.
Definition qua_symmetries : list (list nat) :=
  [[0;1;2;3]; [1;2;3;0]; [2;3;0;1]; [3;0;1;2]; [0;3;2;1]; [3;2;1;0]; [2;1;0;3]; [1;0;3;2]]%nat.

(** Rational geometry used by the statements about the reference-coordinate tables *)
From Coq Require Import QArith Qreals.
Definition qc (j : nat) (p : list Q) : Q := nth j p 0%Q.
(* twice the signed area of the triangle a b c in the plane *)
Definition qarea2 (a b c : list Q) : Q :=
  ((qc 0 b - qc 0 a) * (qc 1 c - qc 1 a) - (qc 0 c - qc 0 a) * (qc 1 b - qc 1 a))%Q.
(* six times the signed volume of the tetrahedron a b c d *)
Definition qvolume6 (a b c d : list Q) : Q :=
  let u j := (qc j b - qc j a)%Q in
  let v j := (qc j c - qc j a)%Q in
  let w j := (qc j d - qc j a)%Q in
  (w 0%nat * (u 1%nat * v 2%nat - u 2%nat * v 1%nat) +
   w 1%nat * (u 2%nat * v 0%nat - u 0%nat * v 2%nat) +
   w 2%nat * (u 0%nat * v 1%nat - u 1%nat * v 0%nat))%Q.
