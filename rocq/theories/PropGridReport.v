(* C103: the summaries printed by the grids tell what is stored. *)
From Coq Require Import String List Arith Bool Reals ZArith Lra Lia Permutation Sorted.
From Verif Require Import Base BaseFacts Kind MeshModel MeshQuerySpec TopoModel GeomModel GridModel GridSpec GridProof GridProof3 PropGrid
  GridCellsModel GridCellsSpec GridCellsProof3 PropGridCells GridReportModel GridReportSpec GridReportProof GridReportProof2.
Import ListNotations.
Open Scope nat_scope.

(* GridSearch: after any insertions [h], in whatever order the hash maps are visited *)
Theorem C103_search : forall sh xmin xmax ndiv tol btol h g, (forall l, Permutation (sh l) l) -> reached xmin xmax ndiv tol btol h g ->
  exists rows ids, grid_report sh g = Ok (mkReport rows ids (List.length ids) (List.length rows) (g_ndiv g)) /\ listing rows /\ increasing ids /\
    (forall id, In id ids <-> exists x, In (id, x) h) /\
    (forall id, listed rows id <-> In id ids) /\
    (forall k, In k (map fst rows) -> k < grid_size (g_ndiv g)) /\
    (forall id x, last_insertion h id x -> exists k l, In (k, l) rows /\ In id l /\ covers (g_ndiv g) (g_xmin g) (g_side g) k x).
Proof.
  intros sh xmin xmax ndiv tol btol h g SH (g0 & N & I). destruct (new_ok _ _ _ _ _ _ N) as (W & E & _). exact (search_report sh SH g0 h g W E I).
Qed.
Print Assumptions C103_search.

(* GridCells: every cell of the mesh is counted once, either as a large cell or in some container; a cell is listed only
   under containers that hold a corner of the smallest box around its points *)
Theorem C103_cells : forall sh m tol border cutoff pct g, (forall l, Permutation (sh l) l) ->
  consistent m -> coords_complete m -> ndim m = 2 \/ ndim m = 3 -> params_ok tol border cutoff pct -> gc_new m tol border cutoff pct = Ok g ->
  exists rows large, cells_report sh g = Ok (mkReport rows large (List.length (cells m)) (List.length rows) (gc_ndiv g)) /\
    listing rows /\ increasing large /\
    (forall id, id < List.length (cells m) <-> listed rows id \/ In id large) /\
    (forall id, ~ (listed rows id /\ In id large)) /\
    (forall k, In k (map fst rows) -> k < grid_size (gc_ndiv g)) /\
    (forall k ids id, In (k, ids) rows -> In id ids -> exists x,
       (List.length x = ndim m /\ forall i, i < ndim m -> exists c, nth_error (cells m) id = Some c /\
          (exists p, In p (c_points c) /\ nth i x 0%R = coordinate m p i) /\
          ((forall p, In p (c_points c) -> nth i x 0 <= coordinate m p i)%R \/ (forall p, In p (c_points c) -> coordinate m p i <= nth i x 0)%R)) /\
       covers (gc_ndiv g) (gc_xmin g) (gc_side g) k x).
Proof. intros sh m tol border cutoff pct g SH. exact (cells_report_ok sh SH m tol border cutoff pct g). Qed.
Print Assumptions C103_cells.

(* the statistics agree with the listing *)
Theorem C103_stat : forall sh shc m tol border cutoff pct g rep, (forall l, Permutation (sh l) l) -> (forall l, Permutation (shc l) l) ->
  consistent m -> coords_complete m -> ndim m = 2 \/ ndim m = 3 -> params_ok tol border cutoff pct -> gc_new m tol border cutoff pct = Ok g ->
  cells_report sh g = Ok rep ->
  let s := cells_stat sh shc g in let rows := rp_rows rep in
  st_ncell s = List.length (cells m) /\ st_xmin s = gc_xmin g /\ st_xmax s = gc_xmax g /\ st_side s = gc_side g /\
  st_ncontainer s = List.length rows /\
  (forall k ids, In (k, ids) rows -> List.length ids <= st_max s) /\
  (rows <> [] -> exists k ids, In (k, ids) rows /\ List.length ids = st_max s) /\
  List.length (st_hist s) = S (st_max s) /\
  (forall i, i <= st_max s -> nth i (st_hist s) 0 = List.length (filter (fun r : nat * list nat => List.length (snd r) =? i) rows)) /\
  total (st_hist s) = List.length rows.
Proof. intros sh shc m tol border cutoff pct g rep SH SHC. exact (cells_stat_ok sh shc SH SHC m tol border cutoff pct g rep). Qed.
Print Assumptions C103_stat.

(* two insertions; two triangles, one much larger *)
Example C103_ex :
  (exists g rep, reached [0; 0]%R [2; 2]%R (Some 2) (/10)%R 0%R [(7, [19/20; 1/2]%R); (8, [3/2; 3/2]%R)] g /\
     grid_report (@rev nat) g = Ok rep /\ rp_count rep = 2 /\ In 7 (rp_ids rep) /\ listed (rp_rows rep) 8) /\
  (exists g rep, gc_new two_tri None None None None = Ok g /\ cells_report (@rev nat) g = Ok rep /\ rp_count rep = 2 /\
     st_ncell (cells_stat (@rev nat) (@rev _) g) = 2 /\ consistent two_tri /\ coords_complete two_tri /\ params_ok None None None None).
Proof.
  split.
  - destruct C14_ex as (g & R & _). exists g. destruct (C103_search (@rev nat) _ _ _ _ _ _ g (fun l => Permutation_sym (Permutation_rev l)) R) as (rows & ids & E & LR & IN & II & IL & _).
    eexists. split; [exact R|]. split; [exact E|]. cbn [rp_count rp_ids rp_rows].
    assert (Q : forall id, In id ids <-> In id [7; 8]).
    { intros id. rewrite II. split; [intros (x & [H|[H|[]]]); injection H as <- _; cbn; auto|].
      intros [<-|[<-|[]]]; eexists; [left|right; left]; reflexivity. }
    split; [|split; [apply Q; left; reflexivity|apply IL, Q; right; left; reflexivity]].
    change 2 with (List.length [7; 8]). apply same_count; auto.
    + clear -IN. induction IN as [|x l H IH F]; constructor; auto. intros I. rewrite Forall_forall in F. specialize (F x I). lia.
    + repeat constructor; cbn; intuition discriminate.
  - destruct C31_ex as (A & B & C & D & P & _ & g & E & _). exists g.
    destruct (C103_cells (@rev nat) _ _ _ _ _ g (fun l => Permutation_sym (Permutation_rev l)) A B (or_introl eq_refl) P E) as (rows & large & ER & _).
    eexists. split; [exact E|]. split; [exact ER|]. split; [reflexivity|].
    destruct (C103_stat (@rev nat) (@rev _) _ _ _ _ _ g _ (fun l => Permutation_sym (Permutation_rev l)) (fun l => Permutation_sym (Permutation_rev l)) A B (or_introl eq_refl) P E ER) as (S1 & _).
    split; [exact S1|]. split; [exact A|]. split; [exact B|exact P].
Qed.
