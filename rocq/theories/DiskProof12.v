(* The quarter disks and plates: contents, errors, totality, exactness. *)
From Coq Require Import String Reals List Lia Lra Bool Arith ZArith Permutation Sorted.
From Verif Require Import Base BaseFacts Kind GraphModel MeshModel MeshQuerySpec TopoModel TopoSpec TopoMaps TopoProof TopoFeat3 TopoFinal GeomModel GeomSpec GeomProof GridModel GridSpec GridProof SearchModel SearchSpec SearchProof SearchProof2
  JoinModel JoinSpec JoinProof JoinProof2 JoinProof3 PropJoin Expr ShapesModel ShapesSpec PadModel PadSpec PadProof PadProof2 PadProof3 BlockModel BlockSpec BlockProof BlockProof2 BlockProof3 BlockProof10 PropBlock StructModel StructSpec StructProof StructProof4 RingSpec RingProof2 BlocksSpec BlocksProof BlocksProof2 BlocksProof3 BlocksProof4 BlocksProof5 BlocksProof6 BlocksProof7 BlocksProof8 BlocksProof9 ExactSpec ExactProof DiskModel DiskSpec DiskProof DiskProof2 DiskProof3 ShapesProof DiskProof4 PosSpec ExactProof2 StructProof6 DiskProof5 DiskProof6 DiskProof7 DiskProof8 DiskProof9 DiskProof10 DiskProof11 ExactProof3.
Import ListNotations.
Local Open Scope list_scope.
Local Open Scope R_scope.

Section Runs.
Variables (zdet : R) (shp : list nat -> list nat) (shuffle : emap -> emap) (sh : container -> container) (shc : list (nat * nat) -> list (nat * nat)).
Hypothesis Hz : 0 <= zdet.
Hypothesis AO : any_order shp shuffle sh.
Hypothesis P2 : forall l, Permutation (shc l) l.
Variables (target : geokind) (nd : nat) (ns : list nat) (gs : list region) (n : nat).
Hypothesis Hnd : (nd = 2 \/ nd = 3)%nat.
Hypothesis Dv : forall g, In g gs -> exists dv, g_weights g = map (repeat 1) dv /\ incl dv ns.
Hypothesis Ne : gs <> [].
Hypothesis Cells : fold_right plus 0%nat (map ncells gs) = n.
Hypothesis Ls : lone_sides nd gs.
Hypothesis Coarse : forall n, In n ns -> coarse (tolR nd) target n.

Lemma run_ok renumber run m : made_or_error zdet shp shuffle sh shc target renumber nd ns gs run -> run = Ok m ->
  (forall n, In n ns -> (1 <= n)%nat) /\ kind_class target = (if (nd =? 2)%nat then CQua else CHex) /\ contents nd (tolR nd) target gs n m.
Proof.
  intros Cs E. destruct (done_ok zdet shp shuffle sh shc Hz AO P2 target renumber nd ns gs run Hnd Cs Dv m Coarse E) as (Pos & K & C1 & C2 & U & M1 & M2 & B).
  split; [exact Pos|]. split; [exact K|]. do 5 (split; [assumption|]). split; [rewrite <- Cells; exact (proj1 (proj2 B))|]. split; [exact B|]. apply built_rounded; [exact Hnd|apply Rlt_le, (tol_small nd Hnd)|exact Ls|exact B].
Qed.
Lemma run_total renumber run : made_or_error zdet shp shuffle sh shc target renumber nd ns gs run -> (forall n, In n ns -> (1 <= n)%nat) -> kind_class target = (if (nd =? 2)%nat then CQua else CHex) -> sound zdet nd target gs ->
  exists ms, Forall2 (fun g mi => built nd 0 target [g] mi) gs ms /\ run = (let! m := join_meshes shp shuffle sh ms in maybe_renumber renumber m).
Proof.
  intros Cs Pos K So. destruct (done_total zdet shp shuffle sh shc Hz AO P2 target renumber nd ns gs run Hnd Cs Dv) as (ms & F & E); [intros k I; split; [apply Coarse|apply Pos]; exact I|exact K|exact So|].
  exists ms. split; [|exact E]. eapply f2_impl; [|exact F]. intros g mi R. eapply alone. exact R.
Qed.
Lemma run_exact run : (forall renumber, made_or_error zdet shp shuffle sh shc target renumber nd ns gs (run renumber)) -> (forall renumber, run renumber = (let! m := run false in maybe_renumber renumber m)) ->
  (forall n, In n ns -> (1 <= n)%nat) -> kind_class target = (if (nd =? 2)%nat then CQua else CHex) -> sound zdet nd target gs ->
  (2 <= List.length gs)%nat -> one_to_one nd target gs -> separated nd (tolR nd) target gs -> enclosing nd target gs -> made_exact nd target gs run.
Proof using Hz AO P2 Hnd Dv Coarse.
  clear Cells Ls Ne.
  intros Cs Eq Pos K So L Inj Sep En. apply made_both; [exact Hnd|].
  destruct (Cs false) as [(bs & _ & F & E)|([X|(cs & I & Fl)] & _)]; [|specialize (Pos _ X); lia|apply in_map_iff in I as (g & <- & Ig); destruct (proj2 (So g Ig) Fl)].
  destruct (exact_blocks zdet shp shuffle sh shc Hz AO P2 target nd gs bs Hnd F) as (m & G & R); try assumption.
  - apply coarse_fine with (ns := ns); [apply (tol_small nd Hnd)|exact Coarse|exact Dv].
  - intros g Ig. apply So. exact Ig.
  - exists m. split; [exact G|]. intros renumber. rewrite Eq, E, R. reflexivity.
Qed.
End Runs.

Ltac same_run := repeat match goal with
  | |- bind ?x _ = bind (bind ?x _) _ => let E := fresh in destruct x eqn:E; cbn [bind]; try reflexivity
  | |- context [if Rleb ?a ?b then _ else _] => destruct (Rleb a b); cbn [bind]; try reflexivity
  end.
Section Same.
Variables (zdet : R) (shp : list nat -> list nat) (shuffle : emap -> emap) (sh : container -> container) (shc : list (nat * nat) -> list (nat * nat)) (target : geokind).
Lemma same_2d_a r na nb renumber : quarter_disk_2d_a zdet shp shuffle sh shc r na nb target renumber = (let! m := quarter_disk_2d_a zdet shp shuffle sh shc r na nb target false in maybe_renumber renumber m).
Proof. unfold quarter_disk_2d_a, DiskModel.mesh_blocks. same_run. Qed.
Lemma same_3d_a r h na nb nz renumber : quarter_disk_3d_a zdet shp shuffle sh shc r h na nb nz target renumber = (let! m := quarter_disk_3d_a zdet shp shuffle sh shc r h na nb nz target false in maybe_renumber renumber m).
Proof. unfold quarter_disk_3d_a, DiskModel.mesh_blocks. same_run. Qed.
End Same.

(* ---- flat first blocks ---- *)
Section Flat.
Variables (zdet : R) (shp : list nat -> list nat) (shuffle : emap -> emap) (sh : container -> container) (shc : list (nat * nat) -> list (nat * nat)).
Hypothesis Hz : 0 <= zdet.
Variables (target : geokind) (renumber : bool).
Lemma flat_new nd cs : good_size nd cs -> rect nd cs -> (forall d, det_center nd cs d -> d <= zdet) -> exists msg, block_new zdet nd cs = Err msg.
Proof. intros G Rc H. destruct (C62_new zdet nd cs Hz G Rc) as (d & D & _ & B). apply B, H, D. Qed.
Lemma flat_2d cs : planar cs -> center_det cs <= zdet -> exists msg, block_new zdet 2 cs = Err msg.
Proof. intros P H. destruct (planar_2 cs P) as (G & Rc). apply flat_new; [exact G|exact Rc|]. intros d D. apply det_2d in D; [lra|..]; apply P. Qed.
Lemma flat_3d h cs : planar cs -> center_det cs * (h / 2) <= zdet -> exists msg, block_new zdet 3 (extrude h cs) = Err msg.
Proof. intros P H. destruct (planar_3 h cs P) as (G & Rc). apply flat_new; [exact G|exact Rc|]. intros d D. apply det_3d in D; [lra|..]; apply P. Qed.
Lemma flat_run_2d_a r na nb : r ^ 2 * (71 / 1000) <= zdet -> exists msg, quarter_disk_2d_a zdet shp shuffle sh shc r na nb target renumber = Err msg.
Proof.
  intros H. rewrite fn_2d_a. destruct (flat_2d (core_a r) (planar_core_a r)) as (msg & E); [|exists msg; unfold disk_body_2d; rewrite E; reflexivity].
  rewrite det_core_a. destruct k_bounds as (Kb & _). pose proof (pow2_ge_0 r). eapply Rle_trans; [|exact H]. apply Rmult_le_compat_l; lra.
Qed.
Lemma flat_run_3d_a r h na nb nz : h <= 0 -> exists msg, quarter_disk_3d_a zdet shp shuffle sh shc r h na nb nz target renumber = Err msg.
Proof.
  intros H. rewrite fn_3d_a. destruct (flat_3d h (core_a r) (planar_core_a r)) as (msg & E); [|exists msg; unfold disk_body_3d; rewrite E; reflexivity].
  pose proof (flat_a r (core_a r) (or_introl eq_refl)) as F. pose proof (pow2_ge_0 r). nra.
Qed.
Lemma flat_run_3d_b a r h na nb nz : h <= 0 -> exists msg, quarter_disk_3d_b zdet shp shuffle sh shc a r h na nb nz target renumber = Err msg.
Proof.
  intros H. destruct (Rle_or_lt r a) as [L|L]; [apply small_disk_3d; assumption|]. rewrite fn_3d_b by exact L. destruct (flat_3d h (core_b a) (planar_core_b a)) as (msg & E); [|exists msg; unfold disk_body_3d; rewrite E; reflexivity].
  pose proof (det_core_b a) as F. pose proof (pow2_ge_0 a). nra.
Qed.
Lemma part_45 r0 r1 : center_det (ring_part r0 r1 0 (PI / 4)) = (r1 ^ 2 - r0 ^ 2) * sin (PI / 8) / 4.
Proof. rewrite <- (det_part r0 r1 0). rewrite Rplus_0_l. reflexivity. Qed.
Lemma flat_run_plate_2d r a b na nb n : 0 <= r -> - r <= a <= 0 -> exists msg, quarter_plate_hole_2d zdet shp shuffle sh shc r a b na nb n target renumber = Err msg.
Proof.
  intros Hr Ha. rewrite fn_plate_2d. destruct (flat_2d (ring_part r (r + a) 0 (PI / 4)) (planar_part _ _ _ _)) as (msg & E); [|exists msg; unfold plate_body_2d; rewrite E; reflexivity].
  rewrite part_45. destruct sc_bounds as (_ & _ & _ & Sb & _). assert (Q : (r + a) ^ 2 - r ^ 2 <= 0) by nra. nra.
Qed.
Lemma flat_run_plate_3d r a b h na nb n nz : 0 < r -> 0 < a -> h <= 0 -> exists msg, quarter_plate_hole_3d zdet shp shuffle sh shc r a b h na nb n nz target renumber = Err msg.
Proof.
  intros Hr Ha H. rewrite fn_plate_3d. destruct (flat_3d h (ring_part r (r + a) 0 (PI / 4)) (planar_part _ _ _ _)) as (msg & E); [|exists msg; unfold plate_body_3d; rewrite E; reflexivity].
  rewrite part_45. destruct sc_bounds as (_ & _ & _ & Sb & _). assert (Q : 0 <= (r + a) ^ 2 - r ^ 2) by nra. assert (Q' : 0 <= ((r + a) ^ 2 - r ^ 2) * sin (PI / 8) / 4) by nra. nra.
Qed.
End Flat.

(* ---- exact A-versions ---- *)
Lemma both_d x r na nb : 0 <= x -> 0 < r -> (1 <= na)%nat -> (1 <= nb)%nat -> x * INR na < r -> x * INR nb < r -> exists d, 0 < d /\ x < r * d /\ d <= / INR na /\ d <= / INR nb.
Proof.
  intros Hx Hr Ha Hb Xa Xb. assert (Pa : 0 < INR na) by (apply lt_0_INR; lia). assert (Pb : 0 < INR nb) by (apply lt_0_INR; lia). exists (Rmin (/ INR na) (/ INR nb)). split; [|split; [|split; [apply Rmin_l|apply Rmin_r]]].
  - apply Rmin_glb_lt; apply Rinv_0_lt_compat; assumption.
  - unfold Rmin; destruct (Rle_dec (/ INR na) (/ INR nb)); [apply (Rmult_lt_reg_r (INR na)); [exact Pa|]|apply (Rmult_lt_reg_r (INR nb)); [exact Pb|]]; rewrite Rmult_assoc, Rinv_l by lra; lra.
Qed.
Section Exact.
Variables (zdet : R) (shp : list nat -> list nat) (shuffle : emap -> emap) (sh : container -> container) (shc : list (nat * nat) -> list (nat * nat)).
Hypothesis Hz : 0 <= zdet.
Hypothesis AO : any_order shp shuffle sh.
Hypothesis P2 : forall l, Permutation (shc l) l.
Lemma exact_2d_a r na nb : (1 <= na)%nat -> (1 <= nb)%nat -> coarse (tolR 2) Qua4 na -> coarse (tolR 2) Qua4 nb -> / 1000000 <= r -> zdet < r ^ 2 / 20 -> tolR 2 * INR na < r / 10 -> tolR 2 * INR nb < r / 10 ->
  made_exact 2 Qua4 (disk_2d (core_a r) (right_a r) (top_a r) r na nb) (quarter_disk_2d_a zdet shp shuffle sh shc r na nb Qua4).
Proof.
  intros Ha Hb Ca Cb Hr Hd Ta Tb. pose proof (tol_small 2 (or_introl eq_refl)) as (T0 & _). assert (Rp : 0 < r) by lra.
  destruct (both_d (tolR 2) (r / 10) na nb (Rlt_le _ _ T0) ltac:(lra) Ha Hb Ta Tb) as (d & D0 & D1 & D2 & D3).
  assert (E2 : disk_n r na nb 1 1 2 = disk_2d (core_a r) (right_a r) (top_a r) r na nb) by reflexivity.
  apply (run_exact zdet shp shuffle sh shc Hz AO P2 Qua4 2 [na; nb]); try (left; reflexivity).
  - intros g. apply dv_disk_2d.
  - cbn [In]. intros n [<-|[<-|[]]]; assumption.
  - intros renumber. apply cases_2d_a. exact Hz.
  - intros renumber. apply same_2d_a.
  - cbn [In]. intros n [<-|[<-|[]]]; assumption.
  - reflexivity.
  - apply sound_2d_a; try assumption. cbn. tauto.
  - cbn. lia.
  - rewrite <- E2. apply (one_to_one_n r Rp na nb Ha Hb 1 1 Rlt_0_1 (le_n 1) 2 (or_introl eq_refl) (tolR 2) d); try assumption; try lra. intros X. discriminate X.
  - rewrite <- E2. apply (separated_n r Rp na nb Ha Hb 1 1 Rlt_0_1 (le_n 1) 2 (or_introl eq_refl) (tolR 2) d); try assumption; try lra. intros X. discriminate X.
  - rewrite <- E2. apply (enclosing_n r Rp na nb Ha Hb 1 1 Rlt_0_1 (le_n 1) 2 (or_introl eq_refl) (tolR 2) d); try assumption; try lra. intros X. discriminate X.
Qed.
Lemma exact_3d_a r h na nb nz : (1 <= na)%nat -> (1 <= nb)%nat -> (1 <= nz)%nat -> coarse (tolR 3) Hex8 na -> coarse (tolR 3) Hex8 nb -> coarse (tolR 3) Hex8 nz -> 0 < h -> / 1000000 <= r -> zdet < r ^ 2 / 20 * (h / 2) ->
  tolR 3 * INR na < r / 10 -> tolR 3 * INR nb < r / 10 -> tolR 3 * INR nz < h ->
  made_exact 3 Hex8 (disk_3d (core_a r) (right_a r) (top_a r) r h na nb nz) (quarter_disk_3d_a zdet shp shuffle sh shc r h na nb nz Hex8).
Proof.
  intros Ha Hb Hn Ca Cb Cn Hh Hr Hd Ta Tb Tn. pose proof (tol_small 3 (or_intror eq_refl)) as (T0 & _). assert (Rp : 0 < r) by lra.
  destruct (both_d (tolR 3) (r / 10) na nb (Rlt_le _ _ T0) ltac:(lra) Ha Hb Ta Tb) as (d & D0 & D1 & D2 & D3).
  assert (E3 : disk_n r na nb h nz 3 = disk_3d (core_a r) (right_a r) (top_a r) r h na nb nz) by reflexivity.
  assert (Tz : 3%nat = 3%nat -> tolR 3 < h * / INR nz). { intros _. assert (0 < INR nz) by (apply lt_0_INR; lia). apply (Rmult_lt_reg_r (INR nz)); [assumption|]. rewrite Rmult_assoc, Rinv_l by lra. lra. }
  apply (run_exact zdet shp shuffle sh shc Hz AO P2 Hex8 3 [na; nb; nz]); try (right; reflexivity).
  - intros g. apply dv_disk_3d.
  - cbn [In]. intros n [<-|[<-|[<-|[]]]]; assumption.
  - intros renumber. apply cases_3d_a. exact Hz.
  - intros renumber. apply same_3d_a.
  - cbn [In]. intros n [<-|[<-|[<-|[]]]]; assumption.
  - reflexivity.
  - apply sound_3d_a; try assumption. cbn. tauto.
  - rewrite <- E3. apply (one_to_one_n r Rp na nb Ha Hb h nz Hh Hn 3 (or_intror eq_refl) (tolR 3) d); try assumption; lra.
  - rewrite <- E3. apply (separated_n r Rp na nb Ha Hb h nz Hh Hn 3 (or_intror eq_refl) (tolR 3) d); try assumption; lra.
  - rewrite <- E3. apply (enclosing_n r Rp na nb Ha Hb h nz Hh Hn 3 (or_intror eq_refl) (tolR 3) d); try assumption; lra.
Qed.
End Exact.
