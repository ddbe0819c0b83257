(* Further theorems of C06, C24 and C60: density and printed pattern of graphs, lookups with many edges and faces, Mesh::check_all. *)
From Coq Require Import String QArith Reals Lra List Arith Bool Lia Permutation Sorted.
From Verif Require Import Base BaseFacts Kind MeshModel GraphModel GraphSpec GraphVocab PropGraph MeshQueryModel MeshQuerySpec MeshQueryProof TopoModel TopoSpec TopoProof TopoFinal PropMeshQuery PropTopo
  PadModel PadSpec PadProof4 PropPad MoreModel MoreProof.
Import ListNotations.
Local Open Scope list_scope.
Local Open Scope nat_scope.

(** C06: the density is the number of edges divided by the number of pairs of vertices *)
Theorem C06_density : forall g, ready g -> nedge g = List.length (get_edges g) ->
  (nv g <= 1 -> density g = 0%Q) /\
  (2 <= nv g -> (density g * (inject_Z (Z.of_nat (nv g)) * (inject_Z (Z.of_nat (nv g)) - 1)) == 2 * inject_Z (Z.of_nat (List.length (get_edges g))))%Q /\
    (0 <= density g <= 1)%Q /\
    ((density g == 1)%Q <-> forall a b, a < nv g -> b < nv g -> a <> b -> GraphVocab.edge g a b) /\
    ((density g == 0)%Q <-> forall a b, a <> b -> ~ GraphVocab.edge g a b)).
Proof. exact density_spec. Qed.
Print Assumptions C06_density.

(** C06: the picture of the matrix printed by print_non_zero_pattern: one line per vertex between two frames, all of the same length; entry (i, j) is at column 2 j + 2 *)
Theorem C06_pattern : forall g, ready g -> exists rows lines, non_zero_pattern g = Ok rows /\ print_non_zero_pattern g = Ok lines /\
  (List.length rows = nv g /\ forall i, i < nv g -> exists r, nth_error rows i = Some r /\ List.length r = nv g /\
    forall j, j < nv g -> (nth j r "."%string = "#"%string <-> GraphVocab.edge g i j) /\ (nth j r "."%string = "D"%string <-> i = j /\ ~ GraphVocab.edge g i j) /\
      (nth j r "."%string = "."%string <-> i <> j /\ ~ GraphVocab.edge g i j)) /\
  List.length lines = nv g + 3 /\ (forall l, In l (tl lines) -> String.length l = 2 * nv g + 3) /\
  forall i r, nth_error rows i = Some r -> nth_error lines (S (S i)) = Some ("|" ++ fold_right (fun s t => " " ++ s ++ t) EmptyString r ++ " |")%string.
Proof.
  intros g R. destruct (printed_ok g (r_bounds g R)) as (rows & lines & E & Ep & L1 & L2 & L3). exists rows, lines. split; [exact E|]. split; [exact Ep|].
  destruct (pattern_ok g (r_bounds g R)) as (rows' & E' & L & N). assert (rows' = rows) by congruence. subst rows'.
  split; [|auto]. split; [exact L|]. intros i Hi. destruct (N i Hi) as (r & Er & Lr & Nr). exists r. split; [exact Er|]. split; [exact Lr|].
  intros j Hj. rewrite (Nr j Hj). assert (X : existsb (Nat.eqb j) (nth i (adjacency g) []) = true <-> GraphVocab.edge g i j).
  { unfold GraphVocab.edge, adj_edge. rewrite existsb_exists. split; [intros (x & I & Q); apply Nat.eqb_eq in Q; now subst|intros I; exists j; split; auto; apply Nat.eqb_refl]. }
  destruct (existsb (Nat.eqb j) (nth i (adjacency g) [])); destruct (Nat.eqb_spec j i) as [->|Ne]; repeat split; intros; try discriminate; try tauto; try (destruct H; congruence); try congruence;
    try (intros Y; apply X in Y; discriminate); exfalso; intuition congruence.
Qed.
Print Assumptions C06_pattern.
Example C06_density_ex : ready ex_graph /\ nedge ex_graph = List.length (get_edges ex_graph) /\ nv ex_graph = 6 /\ (density ex_graph == 2 # 5)%Q /\
  print_non_zero_pattern ex_graph = Ok ["";
    "+             +";
    "| D . . # . . |";
    "| . D # # . . |";
    "| . # D # # . |";
    "| # # # D . . |";
    "| . . # . D # |";
    "| . . . . # D |";
    "+             +"]%string.
Proof. split; [apply ex_ready|]. repeat split; vm_compute; reflexivity. Qed.

(** C24: the pairs of many edges (faces), sorted by cell; within a cell in the order of the edges given *)
Theorem C24_pairs_via_edges : forall (T : Type) (leb : T -> T -> bool) (shuffle : emap -> emap),
  (forall l, Permutation (shuffle l) l) -> forall (m : mesh T) ea ft eds,
  consistent m -> ndim m = 2 -> features_new leb shuffle m ea = Ok ft ->
  (forall ed, In ed eds -> exists a b, get_edge_by_key ft (a, b) = Ok ed) ->
  exists r, get_cells_pairs_via_2d_edges ft eds = Ok r /\ StronglySorted le (map fst r) /\
    (forall c ps, In (c, ps) r <-> exists ed a b e, In ed eds /\ get_edge ft a b = Ok ed /\ has_edge m a b (c, e) /\ ps = e_points ed) /\
    forall c, map snd (filter (fun p => fst p =? c) r) =
      flat_map (fun ed => match get_cells_via_2d_edge ft ed with Ok ids => map (fun _ => e_points ed) (filter (Nat.eqb c) ids) | _ => [] end) eds.
Proof.
  intros T leb shuffle Sh m ea ft eds C D F A.
  assert (A' : forall ed, In ed eds -> exists l, get_cells_via_2d_edge ft ed = Ok l).
  { intros ed I. destruct (A ed I) as (a & b & G). destruct (cells_of_edge leb shuffle Sh m ea ft a b ed C D F G) as (ids & E & _). eauto. }
  destruct (many_pairs (get_cells_via_2d_edge ft) (get_cells_pairs_via_2d_edge ft) e_points (pairs_edge ft) eds A') as (r & E & S1 & S2 & S3).
  exists r. split; [exact E|]. split; [exact S1|]. split; [|exact S3]. intros c ps. rewrite S2. split.
  - intros (ed & l & I & El & Ic & ->). destruct (A ed I) as (a & b & G). destruct (cells_of_edge leb shuffle Sh m ea ft a b ed C D F G) as (ids & E' & _ & X & _).
    assert (ids = l) by congruence. subst ids. destruct (proj1 (X c) Ic) as (e & He). exists ed, a, b, e. auto.
  - intros (ed & a & b & e & I & G & He & ->). destruct (cells_of_edge leb shuffle Sh m ea ft a b ed C D F G) as (ids & E' & _ & X & _).
    exists ed, ids. split; [exact I|]. split; [exact E'|]. split; [apply X; eauto|reflexivity].
Qed.
Print Assumptions C24_pairs_via_edges.
Theorem C24_pairs_via_faces : forall (T : Type) (leb : T -> T -> bool) (shuffle : emap -> emap) (m : mesh T) ea ft fcs,
  consistent m -> ndim m = 3 -> no_quadratic_tets m -> features_new leb shuffle m ea = Ok ft ->
  (forall fc, In fc fcs -> exists k, get_face ft k = Ok fc) ->
  exists r, get_cells_pairs_via_faces ft fcs = Ok r /\ StronglySorted le (map fst r) /\
    (forall c ps, In (c, ps) r <-> exists fc k f, In fc fcs /\ get_face ft k = Ok fc /\ has_face m k (c, f) /\ ps = f_points fc) /\
    forall c, map snd (filter (fun p => fst p =? c) r) =
      flat_map (fun fc => match get_cells_via_face ft fc with Ok ids => map (fun _ => f_points fc) (filter (Nat.eqb c) ids) | _ => [] end) fcs.
Proof.
  intros T leb shuffle m ea ft fcs C D Qt F A.
  assert (A' : forall fc, In fc fcs -> exists l, get_cells_via_face ft fc = Ok l).
  { intros fc I. destruct (A fc I) as (k & G). destruct (cells_of_face leb shuffle m ea ft k fc C D Qt F G) as (ids & E & _). eauto. }
  destruct (many_pairs (get_cells_via_face ft) (get_cells_pairs_via_face ft) f_points (pairs_face ft) fcs A') as (r & E & S1 & S2 & S3).
  exists r. split; [exact E|]. split; [exact S1|]. split; [|exact S3]. intros c ps. rewrite S2. split.
  - intros (fc & l & I & El & Ic & ->). destruct (A fc I) as (k & G). destruct (cells_of_face leb shuffle m ea ft k fc C D Qt F G) as (ids & E' & _ & X & _).
    assert (ids = l) by congruence. subst ids. destruct (proj1 (X c) Ic) as (f & Hf). exists fc, k, f. auto.
  - intros (fc & k & f & I & G & Hf & ->). destruct (cells_of_face leb shuffle m ea ft k fc C D Qt F G) as (ids & E' & _ & X & _).
    exists fc, ids. split; [exact I|]. split; [exact E'|]. split; [apply X; eauto|reflexivity].
Qed.
Print Assumptions C24_pairs_via_faces.
Example C24_pairs_many_ex :
  (match sq_all with Ok ft => match get_edge_by_key ft (0, 2), get_edge_by_key ft (0, 1) with
     | Ok e1, Ok e2 => get_cells_pairs_via_2d_edges ft [e1; e2] | _, _ => Panic end | _ => Panic end) = Ok [(0, [0; 2]); (0, [1; 0]); (1, [0; 2])].
Proof. vm_compute. reflexivity. Qed.

(** C60: Mesh::check_all accepts exactly the consistent meshes that pass the check of the Jacobians; it is an error otherwise and never panics if all points have their coordinates *)
Theorem C60_check_all : forall zdet m, (0 <= zdet)%R -> coords_complete m ->
  (check_all zdet m = Ok tt <->
   consistent m /\ forall c, In c (cells m) -> (ndim m = 2 \/ ndim m = 3) /\ kind_ndim (c_kind c) <= ndim m /\
     (kind_ndim (c_kind c) = ndim m -> exists d, det_third m c d /\ (zdet < d)%R)) /\
  (check_all zdet m = Ok tt \/ exists msg, check_all zdet m = Err msg).
Proof.
  intros zdet m Z K. unfold check_all. destruct (check_result m) as [E|(e & E)]; rewrite E; cbn [bind].
  - apply check_iff in E as C. destruct (C60_check_jacobian zdet m Z C K) as (X & Y). split; [rewrite X; tauto|exact Y].
  - split; [|right; eauto]. split; [discriminate|]. intros (C & _). apply check_iff in C. congruence.
Qed.
Print Assumptions C60_check_all.
Example C60_check_all_ex : coords_complete (kite 1) /\ check_all (1 / 1000) (kite 1) = Ok tt.
Proof.
  destruct (kite_ok 1) as (C & K). split; [exact K|]. apply C60_check_all; [lra|exact K|]. split; [exact C|]. intros c [<-|[]]. cbn. split; auto. split; auto. intros _.
  exists (2 / 3 * 1 - 1 / 3)%R. split; [apply kite_third|lra].
Qed.
