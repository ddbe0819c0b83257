(* Vocabulary of the properties of the unstructured generators. *)
From Coq Require Import List Arith Bool ZArith Reals.
From Verif Require Import Base Kind MeshModel.
Import ListNotations.
Local Open Scope R_scope.

(* the boundary of the quarter ring as a polygon with 2 nr + 2 na corners, counterclockwise from (rmin, 0):
   along the x axis, along the outer circle, down the y axis, back along the inner circle *)
Definition polar (r a : R) : R * R := (r * cos a, r * sin a).
Definition ring_corner (rmin rmax : R) (nr na i : nat) : R * R :=
  if (i <=? nr)%nat then (rmin + INR i * ((rmax - rmin) / INR nr), 0)
  else if (i <=? nr + na)%nat then polar rmax (INR (i - nr) * (PI / 2 / INR na))
  else if (i <=? nr + na + nr)%nat then (0, rmax - INR (i - nr - na) * ((rmax - rmin) / INR nr))
  else polar rmin (INR (nr + na + nr + na - i) * (PI / 2 / INR na)).
(* markers of the corners A (-1), B (-2), C (-3), D (-4) *)
Definition ring_corner_marker (nr na i : nat) : Z :=
  if (i =? 0)%nat then (-1)%Z else if (i =? nr)%nat then (-3)%Z
  else if (i =? nr + na)%nat then (-4)%Z else if (i =? nr + na + nr)%nat then (-2)%Z else 0%Z.
(* markers of the sides: SYM_X (-7), OUTER (-6), SYM_Y (-8), INNER (-5); side i starts at corner i *)
Definition ring_side_marker (nr na i : nat) : Z :=
  if (i <? nr)%nat then (-7)%Z else if (i <? nr + na)%nat then (-6)%Z
  else if (i <? nr + na + nr)%nat then (-8)%Z else (-5)%Z.

(* distance from the z axis *)
Definition radius (c : list R) : R := sqrt (nth 0 c 0 ^ 2 + nth 1 c 0 ^ 2).
(* on the circle or cylinder of radius r, up to the tolerance of the code *)
Definition on_circle (r : R) (c : list R) : Prop := Rabs (radius c - r) <= / 10 ^ 15.

(* the facets of the quarter ring in 3D: point numbers; the points of the lower level are the corners of
   the polygon, those of the upper level follow *)
Definition ring_facet (nr na f : nat) : list nat :=
  let n := (2 * nr + 2 * na)%nat in
  let b := (2 * nr + na)%nat in
  match f with
  | 0 => seq 0 n                                                     (* z = 0 *)
  | 1 => seq n n                                                     (* z = thickness *)
  | 2 => seq 0 (S nr) ++ rev (seq n (S nr))                           (* y = 0 *)
  | 3 => rev (seq (nr + na) (S nr)) ++ seq (n + nr + na) (S nr)         (* x = 0 *)
  | S (S (S (S j))) =>
      if (j <? na)%nat
      then let q := ((b + j + 1) mod n)%nat in [b + j; q; n + q; n + b + j]%nat             (* inner *)
      else let k := (nr + (j - na))%nat in [k; k + 1; n + k + 1; n + k]%nat                 (* outer *)
  end%nat.
Definition ring_facets (nr na : nat) : list (list nat) := map (ring_facet nr na) (seq 0 (4 + 2 * na)).
Definition ring_facet_marker (na f : nat) : Z :=
  if (f =? 0)%nat then (-9)%Z else if (f =? 1)%nat then (-10)%Z else if (f =? 2)%nat then (-7)%Z
  else if (f =? 3)%nat then (-8)%Z else if (f <? 4 + na)%nat then (-5)%Z else (-6)%Z.

(* the sides of a polygon, as unordered pairs *)
Definition side_key (p q : nat) : nat * nat := (Nat.min p q, Nat.max p q).
Definition polygon_sides (ps : list nat) : list (nat * nat) :=
  match ps with [] => [] | p :: _ => map (fun s => side_key (fst s) (snd s)) (combine ps (tl ps ++ [p])) end.
(* a closed surface: every side of a facet is the side of exactly one other facet *)
Definition closed_surface (fs : list (list nat)) : Prop :=
  (forall f, In f fs -> NoDup (polygon_sides f)) /\
  forall i s, (i < List.length fs)%nat -> In s (polygon_sides (nth i fs [])) ->
    exists j, j <> i /\ (j < List.length fs)%nat /\ In s (polygon_sides (nth j fs [])) /\
      forall k, (k < List.length fs)%nat -> In s (polygon_sides (nth k fs [])) -> k = i \/ k = j.

(* a mesh holds the numbers of the generator: every point and every cell in order *)
Definition holds_cells (out : list (Z * list nat)) (kind : geokind) (m : mesh R) : Prop :=
  List.length (cells m) = List.length out /\
  forall i mk ps, nth_error out i = Some (mk, ps) -> nth_error (cells m) i = Some (mkCell i mk kind ps).

(* mean value; the entry of a map given as a list of pairs *)
Definition mean (l : list R) : R := fold_right Rplus 0 l / INR (List.length l).
Definition entry {V} (o : option (list (Z * V))) (mk : Z) : option V :=
  match o with None => None | Some l => option_map snd (find (fun e => fst e =? mk)%Z l) end.
(* coordinate j of the points of a cell *)
Definition cell_coord (m : mesh R) (c : cell) (j : nat) : list R :=
  map (fun p => match nth_error (points m) p with Some pt => nth j (pt_coords pt) 0 | None => 0 end) (c_points c).
