(* C31: the grid of cells finds a cell around every point that has one. *)
From Coq Require Import String List Arith Bool Reals ZArith Lra Lia Permutation.
From Verif Require Import Base BaseFacts Kind MeshModel MeshQuerySpec TopoModel TopoMaps GeomModel GeomSpec GeomProof GeomSimplex GridModel GridSpec GridProof
  GridCellsModel GridCellsSpec GridCellsProof GridCellsProof2 GridCellsProof3.
Import ListNotations.
Open Scope R_scope.

(* the constructor succeeds on every non-empty mesh that is not flat (or with a border); the limits contain all points
   used by cells and the border around them *)
Theorem C31_new : forall m tol border cutoff pct,
  consistent m -> coords_complete m -> ndim m = 2%nat \/ ndim m = 3%nat -> cells m <> [] -> params_ok tol border cutoff pct ->
  (forall i a b, (i < ndim m)%nat -> spans m i a b -> a < b) \/ 0 < value border (/ 100) ->
  exists g, gc_new m tol border cutoff pct = Ok g /\
    List.length (gc_xmin g) = ndim m /\ List.length (gc_xmax g) = ndim m /\
    forall i a b, (i < ndim m)%nat -> spans m i a b ->
      nth i (gc_xmin g) 0 = a - value border (/ 100) /\ b + value border (/ 100) <= nth i (gc_xmax g) 0.
Proof. exact new_limits. Qed.
Print Assumptions C31_new.

(* a flat mesh without border: the assertion fails *)
Theorem C31_flat : forall m tol border cutoff pct i a,
  consistent m -> coords_complete m -> ndim m = 2%nat \/ ndim m = 3%nat -> cells m <> [] -> params_ok tol border cutoff pct ->
  value border (/ 100) = 0 -> (i < ndim m)%nat -> spans m i a a ->
  gc_new m tol border cutoff pct = Panic.
Proof. exact new_flat. Qed.
Print Assumptions C31_flat.

Theorem C31_search : forall m tol border cutoff pct g sh zeta x,
  consistent m -> coords_complete m -> simplex_mesh m -> non_degenerate m -> params_ok tol border cutoff pct ->
  gc_new m tol border cutoff pct = Ok g -> (forall l, Permutation (sh l) l) ->
  List.length zeta = 4%nat -> List.length x = ndim m ->
  (within (ndim m) (gc_xmin g) (gc_xmax g) x ->
   exists zeta' r, gc_search sh g zeta x = Ok (zeta', r) /\
     match r with
     | Some id => exists c, nth_error (cells m) id = Some c /\ convex_combination (ndim m) (corner_coords m c) x /\
                  affine_weights (ndim m) (corner_coords m c) x (firstn (ndim m + 1) zeta') /\
                  skipn (ndim m + 1) zeta' = skipn (ndim m + 1) zeta
     | None => forall id, ~ contains m id x
     end) /\
  (~ within (ndim m) (gc_xmin g) (gc_xmax g) x -> exists e, gc_search sh g zeta x = Err e).
Proof. exact search_spec. Qed.
Print Assumptions C31_search.

(* a point of some cell is never reported as outside *)
Theorem C31_found : forall m tol border cutoff pct g sh zeta x id,
  consistent m -> coords_complete m -> simplex_mesh m -> non_degenerate m -> params_ok tol border cutoff pct ->
  gc_new m tol border cutoff pct = Ok g -> (forall l, Permutation (sh l) l) ->
  List.length zeta = 4%nat -> List.length x = ndim m -> contains m id x ->
  exists zeta' id', gc_search sh g zeta x = Ok (zeta', Some id') /\ contains m id' x.
Proof. exact search_found. Qed.
Print Assumptions C31_found.

(* wrong lengths and wrong parameters are errors *)
Theorem C31_errors : forall m tol border cutoff pct sh g zeta x,
  (value tol (/ 10000) <= 0 \/ value border (/ 100) < 0 \/ value cutoff (3 / 4) < 0 \/ 1 < value cutoff (3 / 4) \/
   value pct (/ 5) < 0 \/ 1 < value pct (/ 5) -> exists e, gc_new m tol border cutoff pct = Err e) /\
  (List.length zeta <> 4%nat \/ List.length x <> ndim (gc_mesh g) -> exists e, gc_search sh g zeta x = Err e).
Proof. exact errors_ok. Qed.
Print Assumptions C31_errors.

(* two triangles sharing an edge, the second much larger: three queries *)
Example C31_ex : consistent two_tri /\ coords_complete two_tri /\ simplex_mesh two_tri /\ non_degenerate two_tri /\
  params_ok None None None None /\ params_ok (Some 1) (Some 0) (Some 0) (Some (1/2)) /\
  (exists g, gc_new two_tri None None None None = Ok g /\
     (exists z, gc_search (fun l => l) g [0; 0; 0; 7] [1/4; 1/4] = Ok (z, Some 0%nat)) /\
     (exists z, gc_search (fun l => l) g [0; 0; 0; 7] [5; 5] = Ok (z, Some 1%nat)) /\
     (exists z, gc_search (fun l => l) g [0; 0; 0; 7] [5; 1/2] = Ok (z, None)) /\
     exists e, gc_search (fun l => l) g [0; 0; 0; 7] [-1; 5] = Err e).
Proof. exact two_tri_ex. Qed.

(* large_pct = 1.0 is accepted by the constructor; if all cells are large then side_length stays at f64::MIN
   and the grid is empty: interior points are reported as outside *)
Theorem C31_large_pct_refuted : exists m tol border cutoff g x,
  consistent m /\ coords_complete m /\ simplex_mesh m /\ non_degenerate m /\
  gc_new m tol border cutoff (Some 1) = Ok g /\ contains m 0 x /\
  forall sh zeta, List.length zeta = 4%nat -> exists e, gc_search sh g zeta x = Err e.
Proof. exists one_tri, None, None, None. exact one_tri_refuted. Qed.
Print Assumptions C31_large_pct_refuted.

(* triangles in 3D: only the first two coordinates are used, so a point off the plane of the triangle is reported as inside *)
Theorem C31_shell_refuted : exists m g x,
  consistent m /\ coords_complete m /\ (forall c, In c (cells m) -> c_kind c = Tri3) /\
  gc_new m None None None None = Ok g /\ List.length x = ndim m /\ ~ contains m 0 x /\
  forall sh zeta, (forall l, Permutation (sh l) l) -> List.length zeta = 4%nat -> exists zeta', gc_search sh g zeta x = Ok (zeta', Some 0%nat).
Proof. exists shell. exact shell_refuted. Qed.
Print Assumptions C31_shell_refuted.
