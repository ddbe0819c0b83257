(* Properties of the quarter disks and of the quarter of a plate with a hole: Structured::quarter_disk_2d_a, quarter_disk_2d_b,
   quarter_disk_3d_a, quarter_disk_3d_b, quarter_plate_hole_2d, quarter_plate_hole_3d (mesh/generators_qua_hex.rs). *)
From Coq Require Import String Reals List Lia Lra Bool Arith ZArith Permutation Sorted.
From Verif Require Import Base BaseFacts Kind GraphModel MeshModel MeshQuerySpec TopoModel TopoSpec TopoMaps TopoProof TopoFeat3 TopoFinal GeomModel GeomSpec GeomProof GridModel GridSpec GridProof SearchModel SearchSpec SearchProof SearchProof2
  JoinModel JoinSpec JoinProof JoinProof2 JoinProof3 PropJoin Expr ShapesModel ShapesSpec PadModel PadSpec PadProof PadProof2 PadProof3 BlockModel BlockSpec BlockProof BlockProof2 BlockProof3 BlockProof10 PropBlock StructModel StructSpec StructProof StructProof4 RingSpec RingProof2 BlocksSpec BlocksProof BlocksProof2 BlocksProof3 BlocksProof4 BlocksProof5 BlocksProof6 BlocksProof7 BlocksProof8 BlocksProof9 ExactSpec ExactProof DiskModel DiskSpec DiskProof DiskProof2 DiskProof3 ShapesProof DiskProof4 PosSpec ExactProof2 StructProof6 DiskProof5 DiskProof6 DiskProof7 DiskProof8 DiskProof9 DiskProof10 DiskProof11 ExactProof3 DiskProof12.
Import ListNotations.
Local Open Scope list_scope.
Local Open Scope R_scope.

(* ---- what is in a mesh that was created ---- *)
Theorem C79_disk_2d_a : forall zdet shp shuffle sh shc r na nb target renumber m,
  0 <= zdet -> any_order shp shuffle sh -> (forall l, Permutation (shc l) l) -> coarse (tolR 2) target na -> coarse (tolR 2) target nb ->
  quarter_disk_2d_a zdet shp shuffle sh shc r na nb target renumber = Ok m ->
  (1 <= na /\ 1 <= nb)%nat /\ kind_class target = CQua /\ contents 2 (tolR 2) target (disk_2d (core_a r) (right_a r) (top_a r) r na nb) (na * na + 2 * na * nb)%nat m.
Proof.
  intros zdet shp shuffle sh shc r na nb target renumber m Hz AO P2 C_na C_nb E.
  assert (Co : forall k, In k [na; nb] -> coarse (tolR 2) target k) by (cbn [In]; intros k [<-|[<-|[]]]; assumption).
  destruct (run_ok zdet shp shuffle sh shc Hz AO P2 target 2 [na; nb] (disk_2d (core_a r) (right_a r) (top_a r) r na nb) (na * na + 2 * na * nb) (or_introl eq_refl) ltac:(intros g; apply dv_disk_2d) ltac:(apply cells_disk_2d) ltac:(apply lone_disk_2d) Co renumber _ m (cases_2d_a zdet shp shuffle sh shc Hz target renumber r na nb) E) as (Pos & K & Cn).
  split; [repeat split; apply Pos; cbn; tauto|]. split; [exact K|exact Cn].
Qed.
Print Assumptions C79_disk_2d_a.
Theorem C79_disk_3d_a : forall zdet shp shuffle sh shc r h na nb nz target renumber m,
  0 <= zdet -> any_order shp shuffle sh -> (forall l, Permutation (shc l) l) -> coarse (tolR 3) target na -> coarse (tolR 3) target nb -> coarse (tolR 3) target nz ->
  quarter_disk_3d_a zdet shp shuffle sh shc r h na nb nz target renumber = Ok m ->
  (1 <= na /\ 1 <= nb /\ 1 <= nz)%nat /\ kind_class target = CHex /\ contents 3 (tolR 3) target (disk_3d (core_a r) (right_a r) (top_a r) r h na nb nz) ((na * na + 2 * na * nb) * nz)%nat m.
Proof.
  intros zdet shp shuffle sh shc r h na nb nz target renumber m Hz AO P2 C_na C_nb C_nz E.
  assert (Co : forall k, In k [na; nb; nz] -> coarse (tolR 3) target k) by (cbn [In]; intros k [<-|[<-|[<-|[]]]]; assumption).
  destruct (run_ok zdet shp shuffle sh shc Hz AO P2 target 3 [na; nb; nz] (disk_3d (core_a r) (right_a r) (top_a r) r h na nb nz) ((na * na + 2 * na * nb) * nz) (or_intror eq_refl) ltac:(intros g; apply dv_disk_3d) ltac:(apply cells_disk_3d) ltac:(apply lone_disk_3d) Co renumber _ m (cases_3d_a zdet shp shuffle sh shc Hz target renumber r h na nb nz) E) as (Pos & K & Cn).
  split; [repeat split; apply Pos; cbn; tauto|]. split; [exact K|exact Cn].
Qed.
Print Assumptions C79_disk_3d_a.
Theorem C79_disk_2d_b : forall zdet shp shuffle sh shc a r na nb target renumber m,
  0 <= zdet -> any_order shp shuffle sh -> (forall l, Permutation (shc l) l) -> coarse (tolR 2) target na -> coarse (tolR 2) target nb ->
  quarter_disk_2d_b zdet shp shuffle sh shc a r na nb target renumber = Ok m ->
  a < r /\ (1 <= na /\ 1 <= nb)%nat /\ kind_class target = CQua /\ contents 2 (tolR 2) target (disk_2d (core_b a) (right_b a r) (top_b a r) r na nb) (na * na + 2 * na * nb)%nat m.
Proof.
  intros zdet shp shuffle sh shc a r na nb target renumber m Hz AO P2 C_na C_nb E. destruct (Rle_or_lt r a) as [L|L]; [destruct (small_disk_2d zdet shp shuffle sh shc target renumber a r na nb L) as (msg & X); rewrite X in E; discriminate E|]. split; [exact L|].
  assert (Co : forall k, In k [na; nb] -> coarse (tolR 2) target k) by (cbn [In]; intros k [<-|[<-|[]]]; assumption).
  destruct (run_ok zdet shp shuffle sh shc Hz AO P2 target 2 [na; nb] (disk_2d (core_b a) (right_b a r) (top_b a r) r na nb) (na * na + 2 * na * nb) (or_introl eq_refl) ltac:(intros g; apply dv_disk_2d) ltac:(apply cells_disk_2d) ltac:(apply lone_disk_2d) Co renumber _ m (cases_2d_b zdet shp shuffle sh shc Hz target renumber a r na nb L) E) as (Pos & K & Cn).
  split; [repeat split; apply Pos; cbn; tauto|]. split; [exact K|exact Cn].
Qed.
Print Assumptions C79_disk_2d_b.
Theorem C79_disk_3d_b : forall zdet shp shuffle sh shc a r h na nb nz target renumber m,
  0 <= zdet -> any_order shp shuffle sh -> (forall l, Permutation (shc l) l) -> coarse (tolR 3) target na -> coarse (tolR 3) target nb -> coarse (tolR 3) target nz ->
  quarter_disk_3d_b zdet shp shuffle sh shc a r h na nb nz target renumber = Ok m ->
  a < r /\ (1 <= na /\ 1 <= nb /\ 1 <= nz)%nat /\ kind_class target = CHex /\ contents 3 (tolR 3) target (disk_3d (core_b a) (right_b a r) (top_b a r) r h na nb nz) ((na * na + 2 * na * nb) * nz)%nat m.
Proof.
  intros zdet shp shuffle sh shc a r h na nb nz target renumber m Hz AO P2 C_na C_nb C_nz E. destruct (Rle_or_lt r a) as [L|L]; [destruct (small_disk_3d zdet shp shuffle sh shc target renumber a r h na nb nz L) as (msg & X); rewrite X in E; discriminate E|]. split; [exact L|].
  assert (Co : forall k, In k [na; nb; nz] -> coarse (tolR 3) target k) by (cbn [In]; intros k [<-|[<-|[<-|[]]]]; assumption).
  destruct (run_ok zdet shp shuffle sh shc Hz AO P2 target 3 [na; nb; nz] (disk_3d (core_b a) (right_b a r) (top_b a r) r h na nb nz) ((na * na + 2 * na * nb) * nz) (or_intror eq_refl) ltac:(intros g; apply dv_disk_3d) ltac:(apply cells_disk_3d) ltac:(apply lone_disk_3d) Co renumber _ m (cases_3d_b zdet shp shuffle sh shc Hz target renumber a r h na nb nz L) E) as (Pos & K & Cn).
  split; [repeat split; apply Pos; cbn; tauto|]. split; [exact K|exact Cn].
Qed.
Print Assumptions C79_disk_3d_b.
Theorem C79_plate_2d : forall zdet shp shuffle sh shc r a b na nb n target renumber m,
  0 <= zdet -> any_order shp shuffle sh -> (forall l, Permutation (shc l) l) -> coarse (tolR 2) target na -> coarse (tolR 2) target nb -> coarse (tolR 2) target n ->
  quarter_plate_hole_2d zdet shp shuffle sh shc r a b na nb n target renumber = Ok m ->
  (1 <= na /\ 1 <= nb /\ 1 <= n)%nat /\ kind_class target = CQua /\ contents 2 (tolR 2) target (plate_2d r a b na nb n) (2 * (na + nb) * n)%nat m.
Proof.
  intros zdet shp shuffle sh shc r a b na nb n target renumber m Hz AO P2 C_na C_nb C_n E.
  assert (Co : forall k, In k [na; nb; n] -> coarse (tolR 2) target k) by (cbn [In]; intros k [<-|[<-|[<-|[]]]]; assumption).
  destruct (run_ok zdet shp shuffle sh shc Hz AO P2 target 2 [na; nb; n] (plate_2d r a b na nb n) (2 * (na + nb) * n) (or_introl eq_refl) ltac:(intros g; apply dv_plate_2d) ltac:(apply cells_plate_2d) ltac:(apply lone_plate_2d) Co renumber _ m (cases_plate_2d zdet shp shuffle sh shc Hz target renumber r a b na nb n) E) as (Pos & K & Cn).
  split; [repeat split; apply Pos; cbn; tauto|]. split; [exact K|exact Cn].
Qed.
Print Assumptions C79_plate_2d.
Theorem C79_plate_3d : forall zdet shp shuffle sh shc r a b h na nb n nz target renumber m,
  0 <= zdet -> any_order shp shuffle sh -> (forall l, Permutation (shc l) l) -> coarse (tolR 3) target na -> coarse (tolR 3) target nb -> coarse (tolR 3) target n -> coarse (tolR 3) target nz ->
  quarter_plate_hole_3d zdet shp shuffle sh shc r a b h na nb n nz target renumber = Ok m ->
  (1 <= na /\ 1 <= nb /\ 1 <= n /\ 1 <= nz)%nat /\ kind_class target = CHex /\ contents 3 (tolR 3) target (plate_3d r a b h na nb n nz) (2 * (na + nb) * n * nz)%nat m.
Proof.
  intros zdet shp shuffle sh shc r a b h na nb n nz target renumber m Hz AO P2 C_na C_nb C_n C_nz E.
  assert (Co : forall k, In k [na; nb; n; nz] -> coarse (tolR 3) target k) by (cbn [In]; intros k [<-|[<-|[<-|[<-|[]]]]]; assumption).
  destruct (run_ok zdet shp shuffle sh shc Hz AO P2 target 3 [na; nb; n; nz] (plate_3d r a b h na nb n nz) (2 * (na + nb) * n * nz) (or_intror eq_refl) ltac:(intros g; apply dv_plate_3d) ltac:(apply cells_plate_3d) ltac:(apply lone_plate_3d) Co renumber _ m (cases_plate_3d zdet shp shuffle sh shc Hz target renumber r a b h na nb n nz) E) as (Pos & K & Cn).
  split; [repeat split; apply Pos; cbn; tauto|]. split; [exact K|exact Cn].
Qed.
Print Assumptions C79_plate_3d.
(* ---- no divisions, a kind of the wrong class, flat blocks, radii in the wrong order ---- *)
Theorem C79_errors_disk_2d_a : forall zdet shp shuffle sh shc r na nb target renumber, 0 <= zdet ->
  na = 0%nat \/ nb = 0%nat \/ kind_class target <> CQua \/ r ^ 2 * (71 / 1000) <= zdet ->
  exists msg, quarter_disk_2d_a zdet shp shuffle sh shc r na nb target renumber = Err msg.
Proof.
  intros zdet shp shuffle sh shc r na nb target renumber Hz H. assert (Q : (In 0%nat [na; nb] \/ kind_class target <> CQua) \/ (r ^ 2 * (71 / 1000) <= zdet)) by (cbn [In]; intuition congruence). clear H. destruct Q as [H|H]; [|apply flat_run_2d_a; assumption].
  apply (done_err zdet shp shuffle sh shc Hz target renumber 2 [na; nb] (disk_2d (core_a r) (right_a r) (top_a r) r na nb) _ (or_introl eq_refl) (cases_2d_a zdet shp shuffle sh shc Hz target renumber r na nb)); [discriminate|exact H].
Qed.
Print Assumptions C79_errors_disk_2d_a.
Theorem C79_errors_disk_3d_a : forall zdet shp shuffle sh shc r h na nb nz target renumber, 0 <= zdet ->
  na = 0%nat \/ nb = 0%nat \/ nz = 0%nat \/ kind_class target <> CHex \/ h <= 0 ->
  exists msg, quarter_disk_3d_a zdet shp shuffle sh shc r h na nb nz target renumber = Err msg.
Proof.
  intros zdet shp shuffle sh shc r h na nb nz target renumber Hz H. assert (Q : (In 0%nat [na; nb; nz] \/ kind_class target <> CHex) \/ (h <= 0)) by (cbn [In]; intuition congruence). clear H. destruct Q as [H|H]; [|apply flat_run_3d_a; assumption].
  apply (done_err zdet shp shuffle sh shc Hz target renumber 3 [na; nb; nz] (disk_3d (core_a r) (right_a r) (top_a r) r h na nb nz) _ (or_intror eq_refl) (cases_3d_a zdet shp shuffle sh shc Hz target renumber r h na nb nz)); [discriminate|exact H].
Qed.
Print Assumptions C79_errors_disk_3d_a.
Theorem C79_errors_disk_2d_b : forall zdet shp shuffle sh shc a r na nb target renumber, 0 <= zdet ->
  na = 0%nat \/ nb = 0%nat \/ kind_class target <> CQua \/ r <= a ->
  exists msg, quarter_disk_2d_b zdet shp shuffle sh shc a r na nb target renumber = Err msg.
Proof.
  intros zdet shp shuffle sh shc a r na nb target renumber Hz H. destruct (Rle_or_lt r a) as [L|L]; [apply small_disk_2d; exact L|]. assert (Q : (In 0%nat [na; nb] \/ kind_class target <> CQua) \/ (r <= a)) by (cbn [In]; intuition congruence). clear H. destruct Q as [H|H]; [|lra].
  apply (done_err zdet shp shuffle sh shc Hz target renumber 2 [na; nb] (disk_2d (core_b a) (right_b a r) (top_b a r) r na nb) _ (or_introl eq_refl) (cases_2d_b zdet shp shuffle sh shc Hz target renumber a r na nb L)); [discriminate|exact H].
Qed.
Print Assumptions C79_errors_disk_2d_b.
Theorem C79_errors_disk_3d_b : forall zdet shp shuffle sh shc a r h na nb nz target renumber, 0 <= zdet ->
  na = 0%nat \/ nb = 0%nat \/ nz = 0%nat \/ kind_class target <> CHex \/ r <= a \/ h <= 0 ->
  exists msg, quarter_disk_3d_b zdet shp shuffle sh shc a r h na nb nz target renumber = Err msg.
Proof.
  intros zdet shp shuffle sh shc a r h na nb nz target renumber Hz H. destruct (Rle_or_lt r a) as [L|L]; [apply small_disk_3d; exact L|]. assert (Q : (In 0%nat [na; nb; nz] \/ kind_class target <> CHex) \/ (r <= a \/ h <= 0)) by (cbn [In]; intuition congruence). clear H. destruct Q as [H|H]; [|destruct H as [H|H]; [lra|apply flat_run_3d_b; assumption]].
  apply (done_err zdet shp shuffle sh shc Hz target renumber 3 [na; nb; nz] (disk_3d (core_b a) (right_b a r) (top_b a r) r h na nb nz) _ (or_intror eq_refl) (cases_3d_b zdet shp shuffle sh shc Hz target renumber a r h na nb nz L)); [discriminate|exact H].
Qed.
Print Assumptions C79_errors_disk_3d_b.
Theorem C79_errors_plate_2d : forall zdet shp shuffle sh shc r a b na nb n target renumber, 0 <= zdet ->
  na = 0%nat \/ nb = 0%nat \/ n = 0%nat \/ kind_class target <> CQua \/ 0 <= r /\ - r <= a <= 0 ->
  exists msg, quarter_plate_hole_2d zdet shp shuffle sh shc r a b na nb n target renumber = Err msg.
Proof.
  intros zdet shp shuffle sh shc r a b na nb n target renumber Hz H. assert (Q : (In 0%nat [na; nb; n] \/ kind_class target <> CQua) \/ (0 <= r /\ - r <= a <= 0)) by (cbn [In]; intuition congruence). clear H. destruct Q as [H|H]; [|apply flat_run_plate_2d; tauto].
  apply (done_err zdet shp shuffle sh shc Hz target renumber 2 [na; nb; n] (plate_2d r a b na nb n) _ (or_introl eq_refl) (cases_plate_2d zdet shp shuffle sh shc Hz target renumber r a b na nb n)); [discriminate|exact H].
Qed.
Print Assumptions C79_errors_plate_2d.
Theorem C79_errors_plate_3d : forall zdet shp shuffle sh shc r a b h na nb n nz target renumber, 0 <= zdet ->
  na = 0%nat \/ nb = 0%nat \/ n = 0%nat \/ nz = 0%nat \/ kind_class target <> CHex \/ 0 < r /\ 0 < a /\ h <= 0 ->
  exists msg, quarter_plate_hole_3d zdet shp shuffle sh shc r a b h na nb n nz target renumber = Err msg.
Proof.
  intros zdet shp shuffle sh shc r a b h na nb n nz target renumber Hz H. assert (Q : (In 0%nat [na; nb; n; nz] \/ kind_class target <> CHex) \/ (0 < r /\ 0 < a /\ h <= 0)) by (cbn [In]; intuition congruence). clear H. destruct Q as [H|H]; [|apply flat_run_plate_3d; tauto].
  apply (done_err zdet shp shuffle sh shc Hz target renumber 3 [na; nb; n; nz] (plate_3d r a b h na nb n nz) _ (or_intror eq_refl) (cases_plate_3d zdet shp shuffle sh shc Hz target renumber r a b h na nb n nz)); [discriminate|exact H].
Qed.
Print Assumptions C79_errors_plate_3d.
(* ---- otherwise all blocks are meshed exactly, and the result is that of joining their meshes ---- *)
Theorem C79_total_disk_2d_a : forall zdet shp shuffle sh shc r na nb target renumber,
  0 <= zdet -> any_order shp shuffle sh -> (forall l, Permutation (shc l) l) -> (1 <= na)%nat -> coarse (tolR 2) target na -> (1 <= nb)%nat -> coarse (tolR 2) target nb -> kind_class target = CQua ->
  / 1000000 <= r -> zdet < r ^ 2 / 20 ->
  exists ms, Forall2 (fun g mi => built 2 0 target [g] mi) (disk_2d (core_a r) (right_a r) (top_a r) r na nb) ms /\
    quarter_disk_2d_a zdet shp shuffle sh shc r na nb target renumber = (let! m := join_meshes shp shuffle sh ms in maybe_renumber renumber m).
Proof.
  intros zdet shp shuffle sh shc r na nb target renumber Hz AO P2 N_na C_na N_nb C_nb K S0 S1.
  assert (Co : forall k, In k [na; nb] -> coarse (tolR 2) target k) by (cbn [In]; intros k [<-|[<-|[]]]; assumption).
  apply (run_total zdet shp shuffle sh shc Hz AO P2 target 2 [na; nb] (disk_2d (core_a r) (right_a r) (top_a r) r na nb) (or_introl eq_refl) ltac:(intros g; apply dv_disk_2d) Co renumber _ (cases_2d_a zdet shp shuffle sh shc Hz target renumber r na nb)).
  - cbn [In]. intros k [<-|[<-|[]]]; assumption.
  - exact K.
  - apply sound_2d_a; try assumption. exact (target_in 2 target (or_introl eq_refl) K).
Qed.
Print Assumptions C79_total_disk_2d_a.
Theorem C79_total_disk_3d_a : forall zdet shp shuffle sh shc r h na nb nz target renumber,
  0 <= zdet -> any_order shp shuffle sh -> (forall l, Permutation (shc l) l) -> (1 <= na)%nat -> coarse (tolR 3) target na -> (1 <= nb)%nat -> coarse (tolR 3) target nb -> (1 <= nz)%nat -> coarse (tolR 3) target nz -> kind_class target = CHex ->
  0 < h -> / 1000000 <= r -> zdet < r ^ 2 / 20 * (h / 2) ->
  exists ms, Forall2 (fun g mi => built 3 0 target [g] mi) (disk_3d (core_a r) (right_a r) (top_a r) r h na nb nz) ms /\
    quarter_disk_3d_a zdet shp shuffle sh shc r h na nb nz target renumber = (let! m := join_meshes shp shuffle sh ms in maybe_renumber renumber m).
Proof.
  intros zdet shp shuffle sh shc r h na nb nz target renumber Hz AO P2 N_na C_na N_nb C_nb N_nz C_nz K S0 S1 S2.
  assert (Co : forall k, In k [na; nb; nz] -> coarse (tolR 3) target k) by (cbn [In]; intros k [<-|[<-|[<-|[]]]]; assumption).
  apply (run_total zdet shp shuffle sh shc Hz AO P2 target 3 [na; nb; nz] (disk_3d (core_a r) (right_a r) (top_a r) r h na nb nz) (or_intror eq_refl) ltac:(intros g; apply dv_disk_3d) Co renumber _ (cases_3d_a zdet shp shuffle sh shc Hz target renumber r h na nb nz)).
  - cbn [In]. intros k [<-|[<-|[<-|[]]]]; assumption.
  - exact K.
  - apply sound_3d_a; try assumption. exact (target_in 3 target (or_intror eq_refl) K).
Qed.
Print Assumptions C79_total_disk_3d_a.
Theorem C79_total_disk_2d_b : forall zdet shp shuffle sh shc a r na nb target renumber,
  0 <= zdet -> any_order shp shuffle sh -> (forall l, Permutation (shc l) l) -> (1 <= na)%nat -> coarse (tolR 2) target na -> (1 <= nb)%nat -> coarse (tolR 2) target nb -> kind_class target = CQua ->
  0 < a < r -> / 1000000 <= r -> zdet < a ^ 2 / 10 -> zdet < (r ^ 2 - a ^ 2) * (3 / 32) ->
  exists ms, Forall2 (fun g mi => built 2 0 target [g] mi) (disk_2d (core_b a) (right_b a r) (top_b a r) r na nb) ms /\
    quarter_disk_2d_b zdet shp shuffle sh shc a r na nb target renumber = (let! m := join_meshes shp shuffle sh ms in maybe_renumber renumber m).
Proof.
  intros zdet shp shuffle sh shc a r na nb target renumber Hz AO P2 N_na C_na N_nb C_nb K Hab S1 S2 S3.
  assert (Co : forall k, In k [na; nb] -> coarse (tolR 2) target k) by (cbn [In]; intros k [<-|[<-|[]]]; assumption).
  apply (run_total zdet shp shuffle sh shc Hz AO P2 target 2 [na; nb] (disk_2d (core_b a) (right_b a r) (top_b a r) r na nb) (or_introl eq_refl) ltac:(intros g; apply dv_disk_2d) Co renumber _ (cases_2d_b zdet shp shuffle sh shc Hz target renumber a r na nb (proj2 Hab))).
  - cbn [In]. intros k [<-|[<-|[]]]; assumption.
  - exact K.
  - apply sound_2d_b; try assumption. exact (target_in 2 target (or_introl eq_refl) K).
Qed.
Print Assumptions C79_total_disk_2d_b.
Theorem C79_total_disk_3d_b : forall zdet shp shuffle sh shc a r h na nb nz target renumber,
  0 <= zdet -> any_order shp shuffle sh -> (forall l, Permutation (shc l) l) -> (1 <= na)%nat -> coarse (tolR 3) target na -> (1 <= nb)%nat -> coarse (tolR 3) target nb -> (1 <= nz)%nat -> coarse (tolR 3) target nz -> kind_class target = CHex ->
  0 < h -> 0 < a < r -> / 1000000 <= r -> zdet < a ^ 2 / 10 * (h / 2) -> zdet < (r ^ 2 - a ^ 2) * (3 / 32) * (h / 2) ->
  exists ms, Forall2 (fun g mi => built 3 0 target [g] mi) (disk_3d (core_b a) (right_b a r) (top_b a r) r h na nb nz) ms /\
    quarter_disk_3d_b zdet shp shuffle sh shc a r h na nb nz target renumber = (let! m := join_meshes shp shuffle sh ms in maybe_renumber renumber m).
Proof.
  intros zdet shp shuffle sh shc a r h na nb nz target renumber Hz AO P2 N_na C_na N_nb C_nb N_nz C_nz K S0 Hab S2 S3 S4.
  assert (Co : forall k, In k [na; nb; nz] -> coarse (tolR 3) target k) by (cbn [In]; intros k [<-|[<-|[<-|[]]]]; assumption).
  apply (run_total zdet shp shuffle sh shc Hz AO P2 target 3 [na; nb; nz] (disk_3d (core_b a) (right_b a r) (top_b a r) r h na nb nz) (or_intror eq_refl) ltac:(intros g; apply dv_disk_3d) Co renumber _ (cases_3d_b zdet shp shuffle sh shc Hz target renumber a r h na nb nz (proj2 Hab))).
  - cbn [In]. intros k [<-|[<-|[<-|[]]]]; assumption.
  - exact K.
  - apply sound_3d_b; try assumption. exact (target_in 3 target (or_intror eq_refl) K).
Qed.
Print Assumptions C79_total_disk_3d_b.
Theorem C79_total_plate_2d : forall zdet shp shuffle sh shc r a b na nb n target renumber,
  0 <= zdet -> any_order shp shuffle sh -> (forall l, Permutation (shc l) l) -> (1 <= na)%nat -> coarse (tolR 2) target na -> (1 <= nb)%nat -> coarse (tolR 2) target nb -> (1 <= n)%nat -> coarse (tolR 2) target n -> kind_class target = CQua ->
  / 1000000 <= r -> 0 < a -> 0 < b -> zdet < ((r + a) ^ 2 - r ^ 2) * (3 / 32) -> zdet < b * (r + a + b) / 8 ->
  exists ms, Forall2 (fun g mi => built 2 0 target [g] mi) (plate_2d r a b na nb n) ms /\
    quarter_plate_hole_2d zdet shp shuffle sh shc r a b na nb n target renumber = (let! m := join_meshes shp shuffle sh ms in maybe_renumber renumber m).
Proof.
  intros zdet shp shuffle sh shc r a b na nb n target renumber Hz AO P2 N_na C_na N_nb C_nb N_n C_n K S0 S1 S2 S3 S4.
  assert (Co : forall k, In k [na; nb; n] -> coarse (tolR 2) target k) by (cbn [In]; intros k [<-|[<-|[<-|[]]]]; assumption).
  apply (run_total zdet shp shuffle sh shc Hz AO P2 target 2 [na; nb; n] (plate_2d r a b na nb n) (or_introl eq_refl) ltac:(intros g; apply dv_plate_2d) Co renumber _ (cases_plate_2d zdet shp shuffle sh shc Hz target renumber r a b na nb n)).
  - cbn [In]. intros k [<-|[<-|[<-|[]]]]; assumption.
  - exact K.
  - apply sound_plate_2d; try assumption. exact (target_in 2 target (or_introl eq_refl) K).
Qed.
Print Assumptions C79_total_plate_2d.
Theorem C79_total_plate_3d : forall zdet shp shuffle sh shc r a b h na nb n nz target renumber,
  0 <= zdet -> any_order shp shuffle sh -> (forall l, Permutation (shc l) l) -> (1 <= na)%nat -> coarse (tolR 3) target na -> (1 <= nb)%nat -> coarse (tolR 3) target nb -> (1 <= n)%nat -> coarse (tolR 3) target n -> (1 <= nz)%nat -> coarse (tolR 3) target nz -> kind_class target = CHex ->
  0 < h -> / 1000000 <= r -> 0 < a -> 0 < b -> zdet < ((r + a) ^ 2 - r ^ 2) * (3 / 32) * (h / 2) -> zdet < b * (r + a + b) / 8 * (h / 2) ->
  exists ms, Forall2 (fun g mi => built 3 0 target [g] mi) (plate_3d r a b h na nb n nz) ms /\
    quarter_plate_hole_3d zdet shp shuffle sh shc r a b h na nb n nz target renumber = (let! m := join_meshes shp shuffle sh ms in maybe_renumber renumber m).
Proof.
  intros zdet shp shuffle sh shc r a b h na nb n nz target renumber Hz AO P2 N_na C_na N_nb C_nb N_n C_n N_nz C_nz K S0 S1 S2 S3 S4 S5.
  assert (Co : forall k, In k [na; nb; n; nz] -> coarse (tolR 3) target k) by (cbn [In]; intros k [<-|[<-|[<-|[<-|[]]]]]; assumption).
  apply (run_total zdet shp shuffle sh shc Hz AO P2 target 3 [na; nb; n; nz] (plate_3d r a b h na nb n nz) (or_intror eq_refl) ltac:(intros g; apply dv_plate_3d) Co renumber _ (cases_plate_3d zdet shp shuffle sh shc Hz target renumber r a b h na nb n nz)).
  - cbn [In]. intros k [<-|[<-|[<-|[<-|[]]]]]; assumption.
  - exact K.
  - apply sound_plate_3d; try assumption. exact (target_in 3 target (or_intror eq_refl) K).
Qed.
Print Assumptions C79_total_plate_3d.
(* ---- A-version with linear cells, any number of divisions: the mesh is made, no two points are at the same place, and all nodes
   are exactly where the blocks put them ---- *)
Theorem C79_exact_2d_a : forall zdet shp shuffle sh shc r na nb,
  0 <= zdet -> any_order shp shuffle sh -> (forall l, Permutation (shc l) l) ->
  (1 <= na)%nat -> (1 <= nb)%nat -> coarse (tolR 2) Qua4 na -> coarse (tolR 2) Qua4 nb ->
  / 1000000 <= r -> zdet < r ^ 2 / 20 -> tolR 2 * INR na < r / 10 -> tolR 2 * INR nb < r / 10 ->
  made_exact 2 Qua4 (disk_2d (core_a r) (right_a r) (top_a r) r na nb) (quarter_disk_2d_a zdet shp shuffle sh shc r na nb Qua4).
Proof. intros zdet shp shuffle sh shc r na nb Hz AO P2. exact (exact_2d_a zdet shp shuffle sh shc Hz AO P2 r na nb). Qed.
Print Assumptions C79_exact_2d_a.
Theorem C79_exact_3d_a : forall zdet shp shuffle sh shc r h na nb nz,
  0 <= zdet -> any_order shp shuffle sh -> (forall l, Permutation (shc l) l) ->
  (1 <= na)%nat -> (1 <= nb)%nat -> (1 <= nz)%nat -> coarse (tolR 3) Hex8 na -> coarse (tolR 3) Hex8 nb -> coarse (tolR 3) Hex8 nz ->
  0 < h -> / 1000000 <= r -> zdet < r ^ 2 / 20 * (h / 2) -> tolR 3 * INR na < r / 10 -> tolR 3 * INR nb < r / 10 -> tolR 3 * INR nz < h ->
  made_exact 3 Hex8 (disk_3d (core_a r) (right_a r) (top_a r) r h na nb nz) (quarter_disk_3d_a zdet shp shuffle sh shc r h na nb nz Hex8).
Proof. intros zdet shp shuffle sh shc r h na nb nz Hz AO P2. exact (exact_3d_a zdet shp shuffle sh shc Hz AO P2 r h na nb nz). Qed.
Print Assumptions C79_exact_3d_a.

(* radius 1, three times two divisions; height 1 *)
Example C79_2d_ex : forall shp shuffle sh, any_order shp shuffle sh -> exists m,
  quarter_disk_2d_a (/ 1000) shp shuffle sh (fun l => l) 1 3 2 Qua4 false = Ok m /\ List.length (cells m) = 21%nat /\ distinct_points m /\
  built 2 0 Qua4 (disk_2d (core_a 1) (right_a 1) (top_a 1) 1 3 2) m /\ contents 2 (tolR 2) Qua4 (disk_2d (core_a 1) (right_a 1) (top_a 1) 1 3 2) 21 m.
Proof.
  intros shp shuffle sh AO. pose proof (tol_small 2 (or_introl eq_refl)) as T. assert (P2 : forall l : list (nat * nat), Permutation ((fun l => l) l) l) by (intros l; apply Permutation_refl).
  assert (C3 : coarse (tolR 2) Qua4 3) by (unfold coarse; cbn; lra). assert (C2 : coarse (tolR 2) Qua4 2) by (unfold coarse; cbn; lra).
  destruct (C79_exact_2d_a (/ 1000) shp shuffle sh (fun l => l) 1 3 2) as (m & E & (X1 & X2 & X3 & X4 & X5) & _); try assumption; try lia; try (cbn [INR]; lra).
  destruct (C79_disk_2d_a (/ 1000) shp shuffle sh (fun l => l) 1 3%nat 2%nat Qua4 false m ltac:(lra) AO P2 C3 C2 E) as (_ & _ & Cn).
  exists m. split; [exact E|]. split; [apply Cn|]. split; [exact X4|]. split; [exact X5|exact Cn].
Qed.
Example C79_3d_ex : forall shp shuffle sh, any_order shp shuffle sh -> exists m,
  quarter_disk_3d_a (/ 1000) shp shuffle sh (fun l => l) 1 1 3 2 2 Hex8 false = Ok m /\ List.length (cells m) = 42%nat /\ distinct_points m /\
  built 3 0 Hex8 (disk_3d (core_a 1) (right_a 1) (top_a 1) 1 1 3 2 2) m /\ contents 3 (tolR 3) Hex8 (disk_3d (core_a 1) (right_a 1) (top_a 1) 1 1 3 2 2) 42 m.
Proof.
  intros shp shuffle sh AO. pose proof (tol_small 3 (or_intror eq_refl)) as T. assert (P2 : forall l : list (nat * nat), Permutation ((fun l => l) l) l) by (intros l; apply Permutation_refl).
  assert (C3 : coarse (tolR 3) Hex8 3) by (unfold coarse; cbn; lra). assert (C2 : coarse (tolR 3) Hex8 2) by (unfold coarse; cbn; lra).
  destruct (C79_exact_3d_a (/ 1000) shp shuffle sh (fun l => l) 1 1 3 2 2) as (m & E & (X1 & X2 & X3 & X4 & X5) & _); try assumption; try lia; try (cbn [INR]; lra).
  destruct (C79_disk_3d_a (/ 1000) shp shuffle sh (fun l => l) 1 1 3%nat 2%nat 2%nat Hex8 false m ltac:(lra) AO P2 C3 C2 C2 E) as (_ & _ & Cn).
  exists m. split; [exact E|]. split; [apply Cn|]. split; [exact X4|]. split; [exact X5|exact Cn].
Qed.
(* inner radius 1, outer radius 2 *)
Example C79_total_2d_ex : forall shp shuffle sh renumber, any_order shp shuffle sh ->
  exists ms, Forall2 (fun g mi => built 2 0 Qua8 [g] mi) (disk_2d (core_b 1) (right_b 1 2) (top_b 1 2) 2 2 1) ms /\
    quarter_disk_2d_b (/ 1000) shp shuffle sh (fun l => l) 1 2 2 1 Qua8 renumber = (let! m := join_meshes shp shuffle sh ms in maybe_renumber renumber m).
Proof.
  intros shp shuffle sh renumber AO. pose proof (tol_small 2 (or_introl eq_refl)) as T. assert (P2 : forall l : list (nat * nat), Permutation ((fun l => l) l) l) by (intros l; apply Permutation_refl).
  apply C79_total_disk_2d_b; try assumption; try lia; try lra; try reflexivity; unfold coarse; cbn; lra.
Qed.
(* a hole of radius 1, two rings of thickness 1, height 1 *)
Example C79_total_3d_ex : forall shp shuffle sh renumber, any_order shp shuffle sh ->
  exists ms, Forall2 (fun g mi => built 3 0 Hex20 [g] mi) (plate_3d 1 1 1 1 1 1 2 1) ms /\
    quarter_plate_hole_3d (/ 1000) shp shuffle sh (fun l => l) 1 1 1 1 1 1 2 1 Hex20 renumber = (let! m := join_meshes shp shuffle sh ms in maybe_renumber renumber m).
Proof.
  intros shp shuffle sh renumber AO. pose proof (tol_small 3 (or_intror eq_refl)) as T. assert (P2 : forall l : list (nat * nat), Permutation ((fun l => l) l) l) by (intros l; apply Permutation_refl).
  apply C79_total_plate_3d; try assumption; try lia; try lra; try reflexivity; unfold coarse; cbn; lra.
Qed.
Example C79_errors_ex : forall shp shuffle sh, exists msg, quarter_disk_2d_b 0 shp shuffle sh (fun l => l) 2 1 3 2 Qua4 true = Err msg.
Proof. intros shp shuffle sh. apply C79_errors_disk_2d_b; [lra|]. right. right. right. lra. Qed.
