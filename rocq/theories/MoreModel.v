(* Functions built from those of the other models: lookups with many edges and faces, the complete check of a mesh,
   the density and the printed pattern of a graph. *)
From Coq Require Import String QArith Reals List Arith Bool.
From Verif Require Import Base Kind MeshModel GraphModel MeshQueryModel TopoModel PadModel.
Import ListNotations.
Local Open Scope nat_scope.

(* features.rs:332-334: the same as get_edge, with the key as a pair *)
Definition get_edge_by_key {T} (ft : @features T) (k : ekey) : res edge := unwrap (mget ekey_eqb (ft_edges ft) k).
(* features.rs:452-460, 493-501; sort_by_key is stable, as isort is *)
Definition get_cells_pairs_via_2d_edges {T} (ft : @features T) (eds : list edge) : res (list (nat * list nat)) :=
  let! ps := mapM (get_cells_pairs_via_2d_edge ft) eds in Ok (isort by_id (List.concat ps)).
Definition get_cells_pairs_via_faces {T} (ft : @features T) (fcs : list face) : res (list (nat * list nat)) :=
  let! ps := mapM (get_cells_pairs_via_face ft) fcs in Ok (isort by_id (List.concat ps)).

(* check.rs:63-66 *)
Definition check_all (zdet : R) (m : mesh R) : res unit :=
  let! _ := check_ids_and_kind m in check_jacobian zdet m.

(* graph_und.rs:570-577, in exact arithmetic *)
Definition density (g : graph) : Q :=
  let nnode := inject_Z (Z.of_nat (List.length (adjacency g))) in
  let nedge := inject_Z (Z.of_nat (nedge g)) in
  if Qle_bool nnode 1 then 0%Q else ((2 * nedge) / (nnode * (nnode - 1)))%Q.

(* graph_und.rs:459-478: the lines printed; the frame consists of the characters "-" here, box characters in the code.
   An index out of range is a panic. *)
Definition upd (l : list string) (j : nat) (s : string) : res (list string) :=
  if j <? List.length l then Ok (firstn j l ++ s :: skipn (S j) l) else Panic.
Definition pattern_row (nnode i : nat) (row : list nat) : res (list string) :=
  let! l := upd (repeat "."%string nnode) i "D"%string in
  foldM (fun l j => upd l j "#"%string) row l.
Definition non_zero_pattern (g : graph) : res (list (list string)) :=
  let nnode := List.length (adjacency g) in
  mapM (fun ir => pattern_row nnode (fst ir) (snd ir)) (combine (seq 0 nnode) (adjacency g)).
Fixpoint blanks (n : nat) : string := match n with 0 => EmptyString | S n => (" " ++ blanks n)%string end.
Definition print_non_zero_pattern (g : graph) : res (list string) :=
  let width := List.length (adjacency g) * 2 + 1 in
  let! rows := non_zero_pattern g in
  Ok ((EmptyString :: [("+" ++ blanks width ++ "+")%string]) ++
      map (fun r => ("|" ++ fold_right (fun s t => " " ++ s ++ t) EmptyString r ++ " |")%string) rows ++
      [("+" ++ blanks width ++ "+")%string]).
