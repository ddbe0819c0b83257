(* Meshes of the B-version of the disk and of the plate with one linear cell in each block. *)
From Coq Require Import String Reals List Lia Lra Bool Arith ZArith Permutation Sorted.
From Verif Require Import Base BaseFacts Kind GraphModel MeshModel MeshQuerySpec TopoModel TopoSpec TopoMaps TopoProof TopoFeat3 TopoFinal GeomModel GeomSpec GeomProof GridModel GridSpec GridProof SearchModel SearchSpec SearchProof SearchProof2
  JoinModel JoinSpec JoinProof JoinProof2 JoinProof3 PropJoin Expr ShapesModel ShapesSpec PadModel PadSpec PadProof PadProof2 PadProof3 BlockModel BlockSpec BlockProof BlockProof2 BlockProof3 BlockProof10 PropBlock StructModel StructSpec StructProof StructProof4 RingSpec RingProof2 BlocksSpec BlocksProof BlocksProof2 BlocksProof3 BlocksProof4 BlocksProof5 BlocksProof6 BlocksProof7 BlocksProof8 BlocksProof9 ExactSpec ExactProof DiskModel DiskSpec DiskProof DiskProof2 DiskProof3 ShapesProof DiskProof4 PosSpec ExactProof2 StructProof6 DiskProof5 DiskProof6 DiskProof7 DiskProof8 DiskProof9 DiskProof10 DiskProof11 ExactProof3 DiskProof12 ExactProof4 DiskProof13 DiskProof14.
Import ListNotations.
Local Open Scope list_scope.
Local Open Scope R_scope.

Ltac num := cbv [label lab_3 lab_b lab_p pos_3 pos_b pos_p map app nth Nat.ltb Nat.leb Nat.add Nat.sub].
Ltac lone := split; [lia|]; (split; [cbn; lia|]); let i := fresh "i" in let k := fresh "k" in let E := fresh "E" in let Hi := fresh "Hi" in let Hk := fresh "Hk" in
  intros i k Hi Hk E; cbn [corners Nat.eqb] in Hk; do 3 (try (destruct i as [|i]; [do 8 (try (destruct k as [|k]; [vm_compute in E; first [discriminate E|split; reflexivity]|])); exfalso; lia|])); exfalso; lia.
Ltac lowest := let i := fresh "i" in let k := fresh "k" in let Hi := fresh "Hi" in let Hk := fresh "Hk" in intros i k Hi Hk; cbn [corners Nat.eqb] in Hk;
  do 3 (try (destruct i as [|i]; [do 8 (try (destruct k as [|k]; [num; lra|])); exfalso; lia|])); exfalso; lia.
Definition ends (nd : nat) (lab : list (list nat)) (pos : nat -> list R) (n a i k i' k' : nat) : Prop :=
  once nd lab n i k /\ once nd lab n i' k' /\ nth a (pos (label lab i k)) 0 < nth a (pos (label lab i' k')) 0 /\
  forall j m, (j < n)%nat -> (m < corners nd)%nat -> nth a (pos (label lab i k)) 0 <= nth a (pos (label lab j m)) 0 <= nth a (pos (label lab i' k')) 0.
Lemma fits nd target gs lab pos e N nb : List.length gs = nb -> kind_nnode target = corners nd ->
  (forall i g idx k y, nth_error gs i = Some g -> is_node nd target g idx k y -> idx = repeat 0%nat nd /\ y = pos (nth k (nth i lab []) 0%nat)) ->
  (forall g, In g gs -> in_region g (repeat 0%nat nd)) ->
  (forall i k, (i < nb)%nat -> (k < corners nd)%nat -> (label lab i k < N)%nat) ->
  (forall i k k', (i < nb)%nat -> (k < corners nd)%nat -> (k' < corners nd)%nat -> label lab i k = label lab i k' -> k = k') ->
  (forall l l', (l < N)%nat -> (l' < N)%nat -> l <> l' -> e < GeomSpec.euclid (pos l) (pos l')) -> 0 <= e ->
  (forall n a, (1 <= n < nb)%nat -> (a < nd)%nat -> exists i k i' k', ends nd lab pos n a i k i' k') ->
  one_to_one nd target gs /\ separated nd e target gs /\ enclosing nd target gs.
Proof.
  intros <- Kt At In0 Lab Nd Far He En. split; [exact (lab_one_to_one nd target gs lab pos e N Kt At Lab Nd Far He)|]. split; [exact (lab_separated nd target gs lab pos e N Kt At Lab Far)|].
  intros n a Hn Ha. destruct (En n a Hn Ha) as (i & k & i' & k' & O & O' & D & B). split; [|split].
  - apply (lab_outermost nd target gs lab pos e N Kt At In0 Lab Far He n 1 a i k); [lia|exact O|]. intros j m Hj Hm. specialize (B j m Hj Hm). lra.
  - apply (lab_outermost nd target gs lab pos e N Kt At In0 Lab Far He n (-1) a i' k'); [lia|exact O'|]. intros j m Hj Hm. specialize (B j m Hj Hm). lra.
  - apply (lab_wide nd target gs lab pos Kt At In0 n a i k i' k'); [lia|apply O|apply O'|apply O|apply O'|lra].
Qed.
Ltac small_lab := let i := fresh "i" in let k := fresh "k" in let Hi := fresh "Hi" in let Hk := fresh "Hk" in intros i k Hi Hk; cbn [corners Nat.eqb List.length] in Hi, Hk;
  do 4 (try (destruct i as [|i]; [do 8 (try (destruct k as [|k]; [vm_compute; lia|])); exfalso; lia|])); exfalso; lia.
Ltac diff_lab := let i := fresh "i" in let k := fresh "k" in let k' := fresh "k'" in let Hi := fresh "Hi" in let Hk := fresh "Hk" in let Hk' := fresh "Hk'" in intros i k k' Hi Hk Hk'; cbn [corners Nat.eqb List.length] in Hi, Hk, Hk';
  do 4 (try (destruct i as [|i]; [do 8 (try (destruct k as [|k]; [do 8 (try (destruct k' as [|k']; [vm_compute; let E := fresh in intros E; first [reflexivity|discriminate E]|])); exfalso; lia|])); exfalso; lia|])); exfalso; lia.
Ltac at_ends i k i' k' := exists i, k, i', k'; split; [lone|]; (split; [lone|]); (split; [num; lra|lowest]).
Lemma len_b a r l : (l < 7)%nat -> List.length (pos_b a r l) = 2%nat.
Proof. intros H. do 7 (destruct l as [|l]; [reflexivity|]). lia. Qed.
Lemma len_p r a b l : (l < 9)%nat -> List.length (pos_p r a b l) = 2%nat.
Proof. intros H. do 9 (destruct l as [|l]; [reflexivity|]). lia. Qed.
Lemma fit_b2 a r e : 0 < a < r -> 0 <= e -> e < a / 4 -> e < (r - a) / 4 -> let gs := disk_2d (core_b a) (right_b a r) (top_b a r) r 1 1 in one_to_one 2 Qua4 gs /\ separated 2 e Qua4 gs /\ enclosing 2 Qua4 gs.
Proof.
  intros Ha He E1 E2 gs. pose proof kk_bounds as K. assert (Ka : 7 / 10 * a < kk * a < 71 / 100 * a) by (split; apply Rmult_lt_compat_r; lra). assert (Kr : 7 / 10 * r < kk * r < 71 / 100 * r) by (split; apply Rmult_lt_compat_r; lra).
  apply (fits 2 Qua4 gs lab_b (pos_b a r) e 7 3); [reflexivity|reflexivity| | | | | |exact He|].
  - intros i g idx k y Eg M. apply (at_b2 a r i g idx k y Ha Eg M).
  - intros g [<-|[<-|[<-|[]]]]; apply (one_in_region 2).
  - small_lab.
  - diff_lab.
  - apply far_plane; [apply len_b|apply apart_b; tauto].
  - intros n i Hn Hi. assert (En : n = 1%nat \/ n = 2%nat) by lia. assert (Ei : i = 0%nat \/ i = 1%nat) by lia. destruct En as [-> | ->], Ei as [-> | ->].
    + at_ends 0%nat 0%nat 0%nat 1%nat.
    + at_ends 0%nat 0%nat 0%nat 3%nat.
    + at_ends 0%nat 0%nat 1%nat 1%nat.
    + destruct (Rle_dec a (kk * r)); [at_ends 0%nat 0%nat 1%nat 2%nat|at_ends 0%nat 0%nat 0%nat 3%nat].
Qed.
Lemma fit_b3 a r h e : 0 < a < r -> 0 < h -> 0 <= e -> e < a / 4 -> e < (r - a) / 4 -> e < h -> let gs := disk_3d (core_b a) (right_b a r) (top_b a r) r h 1 1 1 in one_to_one 3 Hex8 gs /\ separated 3 e Hex8 gs /\ enclosing 3 Hex8 gs.
Proof.
  intros Ha Hh He E1 E2 E3 gs. pose proof kk_bounds as K. assert (Ka : 7 / 10 * a < kk * a < 71 / 100 * a) by (split; apply Rmult_lt_compat_r; lra). assert (Kr : 7 / 10 * r < kk * r < 71 / 100 * r) by (split; apply Rmult_lt_compat_r; lra).
  apply (fits 3 Hex8 gs (lab_3 7 lab_b) (pos_3 7 h (pos_b a r)) e 14 3); [reflexivity|reflexivity| | | | | |exact He|].
  - intros i g idx k y Eg M. apply (at_b3 a r h i g idx k y Ha Eg M).
  - intros g [<-|[<-|[<-|[]]]]; apply (one_in_region 3).
  - small_lab.
  - diff_lab.
  - apply (far_solid 7); [exact Hh|exact E3|apply len_b|apply apart_b; tauto].
  - intros n i Hn Hi. assert (En : n = 1%nat \/ n = 2%nat) by lia. assert (Ei : i = 0%nat \/ i = 1%nat \/ i = 2%nat) by lia. destruct En as [-> | ->], Ei as [-> |[-> | ->]].
    + at_ends 0%nat 0%nat 0%nat 1%nat.
    + at_ends 0%nat 0%nat 0%nat 3%nat.
    + at_ends 0%nat 0%nat 0%nat 4%nat.
    + at_ends 0%nat 0%nat 1%nat 1%nat.
    + destruct (Rle_dec a (kk * r)); [at_ends 0%nat 0%nat 1%nat 2%nat|at_ends 0%nat 0%nat 0%nat 3%nat].
    + at_ends 0%nat 0%nat 0%nat 4%nat.
Qed.
Lemma fit_p2 r a b e : 0 < r -> 0 < a -> 0 < b -> 0 <= e -> e < r / 4 -> e < a / 4 -> e < b / 4 -> let gs := plate_2d r a b 1 1 1 in one_to_one 2 Qua4 gs /\ separated 2 e Qua4 gs /\ enclosing 2 Qua4 gs.
Proof.
  intros Hr Ha Hb He E1 E2 E3 gs. pose proof kk_bounds as K. assert (Ka : 7 / 10 * (r + a) < kk * (r + a) < 71 / 100 * (r + a)) by (split; apply Rmult_lt_compat_r; lra). assert (Kr : 7 / 10 * r < kk * r < 71 / 100 * r) by (split; apply Rmult_lt_compat_r; lra). assert (Kd : kk * r < kk * (r + a)) by (apply Rmult_lt_compat_l; lra).
  apply (fits 2 Qua4 gs lab_p (pos_p r a b) e 9 4); [reflexivity|reflexivity| | | | | |exact He|].
  - intros i g idx k y Eg M. apply (at_p2 r a b i g idx k y Hr Ha Hb Eg M).
  - intros g [<-|[<-|[<-|[<-|[]]]]]; apply (one_in_region 2).
  - small_lab.
  - diff_lab.
  - apply far_plane; [apply len_p|apply apart_p; assumption].
  - intros n i Hn Hi. assert (En : n = 1%nat \/ n = 2%nat \/ n = 3%nat) by lia. assert (Ei : i = 0%nat \/ i = 1%nat) by lia. destruct En as [-> |[-> | ->]], Ei as [-> | ->].
    + at_ends 0%nat 3%nat 0%nat 1%nat.
    + at_ends 0%nat 0%nat 0%nat 2%nat.
    + at_ends 1%nat 3%nat 0%nat 1%nat.
    + at_ends 0%nat 0%nat 1%nat 2%nat.
    + at_ends 1%nat 3%nat 2%nat 1%nat.
    + at_ends 0%nat 0%nat 2%nat 2%nat.
Qed.
Lemma fit_p3 r a b h e : 0 < r -> 0 < a -> 0 < b -> 0 < h -> 0 <= e -> e < r / 4 -> e < a / 4 -> e < b / 4 -> e < h -> let gs := plate_3d r a b h 1 1 1 1 in one_to_one 3 Hex8 gs /\ separated 3 e Hex8 gs /\ enclosing 3 Hex8 gs.
Proof.
  intros Hr Ha Hb Hh He E1 E2 E3 E4 gs. pose proof kk_bounds as K. assert (Ka : 7 / 10 * (r + a) < kk * (r + a) < 71 / 100 * (r + a)) by (split; apply Rmult_lt_compat_r; lra). assert (Kr : 7 / 10 * r < kk * r < 71 / 100 * r) by (split; apply Rmult_lt_compat_r; lra). assert (Kd : kk * r < kk * (r + a)) by (apply Rmult_lt_compat_l; lra).
  apply (fits 3 Hex8 gs (lab_3 9 lab_p) (pos_3 9 h (pos_p r a b)) e 18 4); [reflexivity|reflexivity| | | | | |exact He|].
  - intros i g idx k y Eg M. apply (at_p3 r a b h i g idx k y Hr Ha Hb Eg M).
  - intros g [<-|[<-|[<-|[<-|[]]]]]; apply (one_in_region 3).
  - small_lab.
  - diff_lab.
  - apply (far_solid 9); [exact Hh|exact E4|apply len_p|apply apart_p; assumption].
  - intros n i Hn Hi. assert (En : n = 1%nat \/ n = 2%nat \/ n = 3%nat) by lia. assert (Ei : i = 0%nat \/ i = 1%nat \/ i = 2%nat) by lia. destruct En as [-> |[-> | ->]], Ei as [-> |[-> | ->]].
    + at_ends 0%nat 3%nat 0%nat 1%nat.
    + at_ends 0%nat 0%nat 0%nat 2%nat.
    + at_ends 0%nat 0%nat 0%nat 4%nat.
    + at_ends 1%nat 3%nat 0%nat 1%nat.
    + at_ends 0%nat 0%nat 1%nat 2%nat.
    + at_ends 0%nat 0%nat 0%nat 4%nat.
    + at_ends 1%nat 3%nat 2%nat 1%nat.
    + at_ends 0%nat 0%nat 2%nat 2%nat.
    + at_ends 0%nat 0%nat 0%nat 4%nat.
Qed.

Section One.
Variables (zdet : R) (shp : list nat -> list nat) (shuffle : emap -> emap) (sh : container -> container) (shc : list (nat * nat) -> list (nat * nat)).
Lemma same_2d_b target a r na nb renumber : quarter_disk_2d_b zdet shp shuffle sh shc a r na nb target renumber = (let! m := quarter_disk_2d_b zdet shp shuffle sh shc a r na nb target false in maybe_renumber renumber m).
Proof. unfold quarter_disk_2d_b, DiskModel.mesh_blocks. same_run. Qed.
Lemma same_3d_b target a r h na nb nz renumber : quarter_disk_3d_b zdet shp shuffle sh shc a r h na nb nz target renumber = (let! m := quarter_disk_3d_b zdet shp shuffle sh shc a r h na nb nz target false in maybe_renumber renumber m).
Proof. unfold quarter_disk_3d_b, DiskModel.mesh_blocks. same_run. Qed.
Lemma same_p2 target r a b na nb n renumber : quarter_plate_hole_2d zdet shp shuffle sh shc r a b na nb n target renumber = (let! m := quarter_plate_hole_2d zdet shp shuffle sh shc r a b na nb n target false in maybe_renumber renumber m).
Proof. unfold quarter_plate_hole_2d, DiskModel.mesh_blocks. same_run. Qed.
Lemma same_p3 target r a b h na nb n nz renumber : quarter_plate_hole_3d zdet shp shuffle sh shc r a b h na nb n nz target renumber = (let! m := quarter_plate_hole_3d zdet shp shuffle sh shc r a b h na nb n nz target false in maybe_renumber renumber m).
Proof. unfold quarter_plate_hole_3d, DiskModel.mesh_blocks. same_run. Qed.
Hypothesis Hz : 0 <= zdet.
Hypothesis AO : any_order shp shuffle sh.
Hypothesis P2 : forall l, Permutation (shc l) l.
Lemma tol_big n : (n = 2 \/ n = 3)%nat -> / 10000 <= tolR n.
Proof. intros H. unfold tolR. rewrite <- (Rmult_1_l (/ 10000)) at 1. apply Rmult_le_compat_r; [lra|]. rewrite <- sqrt_1. apply sqrt_le_1_alt. destruct H as [-> | ->]; cbn; lra. Qed.
Lemma one_2d_b a r : tolR 2 < a / 4 -> tolR 2 < (r - a) / 4 -> zdet < a ^ 2 / 10 -> zdet < (r ^ 2 - a ^ 2) * (3 / 32) ->
  made_exact 2 Qua4 (disk_2d (core_b a) (right_b a r) (top_b a r) r 1 1) (quarter_disk_2d_b zdet shp shuffle sh shc a r 1 1 Qua4).
Proof.
  intros T1 T2 D1 D2. pose proof (tol_small 2 (or_introl eq_refl)) as (T0 & T). pose proof (tol_big 2 (or_introl eq_refl)) as TB. assert (Ha : 0 < a < r) by lra. destruct (fit_b2 a r (tolR 2) Ha (Rlt_le _ _ T0) T1 T2) as (F1 & F2 & F3).
  apply (run_exact zdet shp shuffle sh shc Hz AO P2 Qua4 2 [1; 1]%nat); try (left; reflexivity); try assumption.
  - intros g. apply dv_disk_2d.
  - cbn [In]. intros n [<-|[<-|[]]]; unfold coarse; cbn; lra.
  - intros renumber. apply cases_2d_b; [exact Hz|lra].
  - intros renumber. apply same_2d_b.
  - cbn [In]. intros n [<-|[<-|[]]]; lia.
  - reflexivity.
  - apply sound_2d_b; try assumption; [cbn; tauto|lra].
  - cbn. lia.
Qed.
Lemma one_3d_b a r h : tolR 3 < a / 4 -> tolR 3 < (r - a) / 4 -> tolR 3 < h -> zdet < a ^ 2 / 10 * (h / 2) -> zdet < (r ^ 2 - a ^ 2) * (3 / 32) * (h / 2) ->
  made_exact 3 Hex8 (disk_3d (core_b a) (right_b a r) (top_b a r) r h 1 1 1) (quarter_disk_3d_b zdet shp shuffle sh shc a r h 1 1 1 Hex8).
Proof.
  intros T1 T2 T3 D1 D2. pose proof (tol_small 3 (or_intror eq_refl)) as (T0 & T). pose proof (tol_big 3 (or_intror eq_refl)) as TB. assert (Ha : 0 < a < r) by lra. assert (Hh : 0 < h) by lra. destruct (fit_b3 a r h (tolR 3) Ha Hh (Rlt_le _ _ T0) T1 T2 T3) as (F1 & F2 & F3).
  apply (run_exact zdet shp shuffle sh shc Hz AO P2 Hex8 3 [1; 1; 1]%nat); try (right; reflexivity); try assumption.
  - intros g. apply dv_disk_3d.
  - cbn [In]. intros n [<-|[<-|[<-|[]]]]; unfold coarse; cbn; lra.
  - intros renumber. apply cases_3d_b; [exact Hz|lra].
  - intros renumber. apply same_3d_b.
  - cbn [In]. intros n [<-|[<-|[<-|[]]]]; lia.
  - reflexivity.
  - apply sound_3d_b; try assumption; [cbn; tauto|lra].
Qed.
Lemma one_plate_2d r a b : tolR 2 < r / 4 -> tolR 2 < a / 4 -> tolR 2 < b / 4 -> zdet < ((r + a) ^ 2 - r ^ 2) * (3 / 32) -> zdet < b * (r + a + b) / 8 ->
  made_exact 2 Qua4 (plate_2d r a b 1 1 1) (quarter_plate_hole_2d zdet shp shuffle sh shc r a b 1 1 1 Qua4).
Proof.
  intros T1 T2 T3 D1 D2. pose proof (tol_small 2 (or_introl eq_refl)) as (T0 & T). pose proof (tol_big 2 (or_introl eq_refl)) as TB. assert (Hr : 0 < r) by lra. assert (Ha : 0 < a) by lra. assert (Hb : 0 < b) by lra. destruct (fit_p2 r a b (tolR 2) Hr Ha Hb (Rlt_le _ _ T0) T1 T2 T3) as (F1 & F2 & F3).
  apply (run_exact zdet shp shuffle sh shc Hz AO P2 Qua4 2 [1; 1; 1]%nat); try (left; reflexivity); try assumption.
  - intros g. apply dv_plate_2d.
  - cbn [In]. intros n [<-|[<-|[<-|[]]]]; unfold coarse; cbn; lra.
  - intros renumber. apply cases_plate_2d. exact Hz.
  - intros renumber. apply same_p2.
  - cbn [In]. intros n [<-|[<-|[<-|[]]]]; lia.
  - reflexivity.
  - apply sound_plate_2d; try assumption; [cbn; tauto|lra].
  - cbn. lia.
Qed.
Lemma one_plate_3d r a b h : tolR 3 < r / 4 -> tolR 3 < a / 4 -> tolR 3 < b / 4 -> tolR 3 < h -> zdet < ((r + a) ^ 2 - r ^ 2) * (3 / 32) * (h / 2) -> zdet < b * (r + a + b) / 8 * (h / 2) ->
  made_exact 3 Hex8 (plate_3d r a b h 1 1 1 1) (quarter_plate_hole_3d zdet shp shuffle sh shc r a b h 1 1 1 1 Hex8).
Proof.
  intros T1 T2 T3 T4 D1 D2. pose proof (tol_small 3 (or_intror eq_refl)) as (T0 & T). pose proof (tol_big 3 (or_intror eq_refl)) as TB. assert (Hr : 0 < r) by lra. assert (Ha : 0 < a) by lra. assert (Hb : 0 < b) by lra. assert (Hh : 0 < h) by lra. destruct (fit_p3 r a b h (tolR 3) Hr Ha Hb Hh (Rlt_le _ _ T0) T1 T2 T3 T4) as (F1 & F2 & F3).
  apply (run_exact zdet shp shuffle sh shc Hz AO P2 Hex8 3 [1; 1; 1; 1]%nat); try (right; reflexivity); try assumption.
  - intros g. apply dv_plate_3d.
  - cbn [In]. intros n [<-|[<-|[<-|[<-|[]]]]]; unfold coarse; cbn; lra.
  - intros renumber. apply cases_plate_3d. exact Hz.
  - intros renumber. apply same_p3.
  - cbn [In]. intros n [<-|[<-|[<-|[<-|[]]]]]; lia.
  - reflexivity.
  - apply sound_plate_3d; try assumption; [cbn; tauto|lra].
  - cbn. lia.
Qed.
End One.
