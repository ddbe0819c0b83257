(* Vocabulary of the properties of mesh queries. *)
From Coq Require Import List Arith ZArith QArith Sorted Permutation.
From Verif Require Import Kind MeshModel.
Import ListNotations.
Open Scope nat_scope.

(* ids are positions, the number of points fits the kind, references are valid *)
Definition consistent {T} (m : mesh T) : Prop :=
  (forall i p, nth_error (points m) i = Some p -> pt_id p = i) /\
  (forall i c, nth_error (cells m) i = Some c ->
     c_id c = i /\ List.length (c_points c) = kind_nnode (c_kind c) /\
     forall q, In q (c_points c) -> q < List.length (points m)).

(* every point has exactly ndim coordinates *)
Definition coords_complete {T} (m : mesh T) : Prop :=
  forall p, In p (points m) -> List.length (pt_coords p) = ndim m.

(* the point has the marker and passes the filter *)
Definition marked {T} (m : mesh T) (marker : Z) (filter : list T -> bool) (p : point T) : Prop :=
  In p (points m) /\ pt_marker p = marker /\ filter (pt_coords p) = true.

(* x is the least / greatest element of the set *)
Definition is_min (S : Q -> Prop) (x : Q) : Prop := S x /\ forall y, S y -> (x <= y)%Q.
Definition is_max (S : Q -> Prop) (x : Q) : Prop := S x /\ forall y, S y -> (y <= x)%Q.

(* lexicographic order *)
Definition lex2 (a b : Q * Q) : Prop :=
  (fst a < fst b)%Q \/ ((fst a == fst b)%Q /\ (snd a <= snd b)%Q).
Definition lex3 (a b : Q * Q * Q) : Prop :=
  (fst (fst a) < fst (fst b))%Q \/
  ((fst (fst a) == fst (fst b))%Q /\ lex2 (snd (fst a), snd a) (snd (fst b), snd b)).

(* what russell_lab's argsort3_f64 and argsort2_f64 are assumed to do: return the indices sorted by
   (zz, yy, xx) resp. (yy, xx) *)
Definition argsort3_spec (f : list Q -> list Q -> list Q -> list nat) : Prop :=
  forall zz yy xx n, List.length zz = n -> List.length yy = n -> List.length xx = n ->
    Permutation (f zz yy xx) (seq 0 n) /\
    StronglySorted (fun i j => lex3 (nth i zz 0%Q, nth i yy 0%Q, nth i xx 0%Q) (nth j zz 0%Q, nth j yy 0%Q, nth j xx 0%Q)) (f zz yy xx).
Definition argsort2_spec (f : list Q -> list Q -> list nat) : Prop :=
  forall yy xx n, List.length yy = n -> List.length xx = n ->
    Permutation (f yy xx) (seq 0 n) /\
    StronglySorted (fun i j => lex2 (nth i yy 0%Q, nth i xx 0%Q) (nth j yy 0%Q, nth j xx 0%Q)) (f yy xx).
