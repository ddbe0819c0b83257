(* Model of what the grids print: Display for GridSearch (/repo/src/util/grid_search.rs), Display and stat for GridCells
   (/repo/src/mesh/grid_cells.rs).  The numbers and their order are modelled, their formatting as text is not.
   Hash maps and hash sets are visited in an arbitrary order ([sh] rearranges a list of numbers, [shc] a list of containers). *)
From Coq Require Import String List Arith Bool Reals ZArith.
From Verif Require Import Base Kind MeshModel TopoModel GeomModel GridModel GridCellsModel.
Import ListNotations.
Open Scope nat_scope.

(* one line for each container: its number and the ids in it *)
Record report := mkReport { rp_rows : list (nat * list nat); rp_ids : list nat; rp_count : nat; rp_ncontainer : nat; rp_ndiv : list nat }.

Section Order.
Variable sh : list nat -> list nat.
Variable shc : list (nat * list nat) -> list (nat * list nat).

(* grid_search.rs:831-838, grid_cells.rs:510-517 *)
Definition report_rows {C} (ids_of : C -> list nat) (cs : list (nat * C)) : res (list (nat * list nat)) :=
  mapM (fun k => let! c := unwrap (mget Nat.eqb cs k) in Ok (k, isort Nat.leb (sh (ids_of c)))) (isort Nat.leb (sh (map fst cs))).
(* grid_search.rs:839-841, grid_cells.rs:518-520 *)
Definition unique_items (rows : list (nat * list nat)) : list nat := fold_left (sadd Nat.eqb) (flat_map snd rows) [].

(* grid_search.rs:829-850 *)
Definition grid_report (g : grid) : res report :=
  let! rows := report_rows (map fst) (g_containers g) in
  let u := unique_items rows in
  Ok (mkReport rows (isort Nat.leb (sh u)) (List.length u) (List.length (g_containers g)) (g_ndiv g)).

(* grid_cells.rs:507-531; the ids shown are those of the large cells *)
Definition cells_report (g : gcells) : res report :=
  let! rows := report_rows (fun c => c) (gc_containers g) in
  let u := unique_items rows in
  Ok (mkReport rows (isort Nat.leb (sh (gc_large g))) (List.length u + List.length (gc_large g)) (List.length (gc_containers g)) (gc_ndiv g)).

(* grid_cells.rs:471-503; the histogram (russell_stat) counts the values in [i, i+1) for each i below the last station *)
Record stats := mkStats { st_ncell : nat; st_xmin : list R; st_xmax : list R; st_side : R; st_ncontainer : nat; st_max : nat; st_hist : list nat }.
Definition hist_count (stations : list nat) (vals : list nat) : list nat :=
  map (fun i => List.length (filter (fun v => (nth i stations 0 <=? v) && (v <? nth (S i) stations 0)) vals)) (seq 0 (List.length stations - 1)).
Definition cells_stat (g : gcells) : stats :=
  let cs := shc (gc_containers g) in
  let nums := map (fun c : nat * list nat => List.length (snd c)) cs in
  let mx := fold_left Nat.max nums 0 in
  let u := fold_left (sadd Nat.eqb) (flat_map (fun c : nat * list nat => sh (snd c)) cs) [] in
  mkStats (List.length u + List.length (gc_large g)) (gc_xmin g) (gc_xmax g) (gc_side g) (List.length (gc_containers g)) mx
    (hist_count (seq 0 (mx + 2)) nums).
End Order.
