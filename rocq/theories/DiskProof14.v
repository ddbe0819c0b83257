(* B-version of the disk and plate with one cell in each block. *)
From Coq Require Import String Reals List Lia Lra Bool Arith ZArith Permutation Sorted.
From Verif Require Import Base BaseFacts Kind GraphModel MeshModel MeshQuerySpec TopoModel TopoSpec TopoMaps TopoProof TopoFeat3 TopoFinal GeomModel GeomSpec GeomProof GridModel GridSpec GridProof SearchModel SearchSpec SearchProof SearchProof2
  JoinModel JoinSpec JoinProof JoinProof2 JoinProof3 PropJoin Expr ShapesModel ShapesSpec PadModel PadSpec PadProof PadProof2 PadProof3 BlockModel BlockSpec BlockProof BlockProof2 BlockProof3 BlockProof10 PropBlock StructModel StructSpec StructProof StructProof4 RingSpec RingProof2 BlocksSpec BlocksProof BlocksProof2 BlocksProof3 BlocksProof4 BlocksProof5 BlocksProof6 BlocksProof7 BlocksProof8 BlocksProof9 ExactSpec ExactProof DiskModel DiskSpec DiskProof DiskProof2 DiskProof3 ShapesProof DiskProof4 PosSpec ExactProof2 StructProof6 DiskProof5 DiskProof6 DiskProof7 DiskProof8 DiskProof9 DiskProof10 DiskProof11 ExactProof3 DiskProof12 ExactProof4 DiskProof13.
Import ListNotations.
Local Open Scope list_scope.
Local Open Scope R_scope.

Definition kk : R := / sqrt 2.
Lemma kk_bounds : 7 / 10 < kk < 71 / 100.
Proof.
  unfold kk. pose proof (sqrt_lt_R0 2 ltac:(lra)) as S0. pose proof (sqrt_sqrt 2 ltac:(lra)) as S2. set (q := sqrt 2) in *. assert (Q : / q * q = 1) by (apply Rinv_l; lra). assert (I0 : 0 < / q) by (apply Rinv_0_lt_compat; exact S0). set (u := / q) in *. assert (U : u * u = 1 / 2) by nra. split; nra.
Qed.
Lemma polar_k r : polar r (PI / 4) = [kk * r; kk * r].
Proof. unfold polar, kk. rewrite cos_PI4, sin_PI4. unfold Rdiv. leq. Qed.
Lemma dist_polar r t : 0 <= r -> dist2 (r * cos t) (r * sin t) = r.
Proof. intros H. unfold dist2. replace ((r * cos t) ^ 2 + (r * sin t) ^ 2) with (Rsqr r * (Rsqr (sin t) + Rsqr (cos t))) by (unfold Rsqr; ring). rewrite sin2_cos2, Rmult_1_r. apply sqrt_Rsqr. exact H. Qed.

Definition lab_b : list (list nat) := [[0; 1; 2; 3]; [1; 4; 5; 2]; [3; 2; 5; 6]]%nat.
Definition pos_b (a r : R) (l : nat) : list R := nth l [[0; 0]; [a; 0]; [kk * a; kk * a]; [0; a]; [r; 0]; [kk * r; kk * r]; [0; r]] [].
Definition lab_p : list (list nat) := [[0; 1; 2; 3]; [3; 2; 4; 5]; [1; 6; 7; 2]; [2; 7; 8; 4]]%nat.
Definition pos_p (r a b : R) (l : nat) : list R := nth l [[r; 0]; [r + a; 0]; [kk * (r + a); kk * (r + a)]; [kk * r; kk * r]; [0; r + a]; [0; r]; [r + a + b; 0]; [r + a + b; r + a + b]; [0; r + a + b]] [].
(* the same in space *)
Definition lab_3 (N : nat) (lab : list (list nat)) : list (list nat) := map (fun row => row ++ map (Nat.add N) row) lab.
Definition pos_3 (N : nat) (h : R) (pos : nat -> list R) (l : nat) : list R := if (l <? N)%nat then pos l ++ [0] else pos (l - N)%nat ++ [h].
Lemma far_solid N h pos e : 0 < h -> e < h -> (forall l, (l < N)%nat -> List.length (pos l) = 2%nat) ->
  (forall l l', (l < N)%nat -> (l' < N)%nat -> l <> l' -> exists a, (a < 2)%nat /\ e < Rabs (nth a (pos l) 0 - nth a (pos l') 0)) ->
  forall l l', (l < 2 * N)%nat -> (l' < 2 * N)%nat -> l <> l' -> e < GeomSpec.euclid (pos_3 N h pos l) (pos_3 N h pos l').
Proof.
  intros Hh Eh L2 F l l' Hl Hl' D. unfold pos_3.
  assert (Q : forall u v z z', (u < N)%nat -> (v < N)%nat -> (u <> v \/ e < Rabs (z - z')) -> e < GeomSpec.euclid (pos u ++ [z]) (pos v ++ [z'])).
  { intros u v z z' Hu Hv X. pose proof (L2 u Hu) as Lu. pose proof (L2 v Hv) as Lv. destruct (Nat.eq_dec u v) as [E|E].
    - destruct X as [X|X]; [contradiction|]. eapply Rlt_le_trans; [exact X|]. eapply Rle_trans; [|apply (coord_euclid 2); rewrite ?app_length, ?Lu, ?Lv; cbn; auto]. rewrite !app_nth2 by lia. rewrite Lu, Lv. cbn. lra.
    - destruct (F u v Hu Hv E) as (a & Ha & X'). eapply Rlt_le_trans; [exact X'|]. eapply Rle_trans; [|apply (coord_euclid a); rewrite ?app_length, ?Lu, ?Lv; cbn; auto; lia]. rewrite !app_nth1 by lia. lra. }
  destruct (Nat.ltb_spec l N), (Nat.ltb_spec l' N); apply Q; try lia; first [left; lia|right; rewrite Rabs_left by lra; lra|right; rewrite Rabs_right by lra; lra].
Qed.
Lemma far_plane N pos e : (forall l, (l < N)%nat -> List.length (pos l) = 2%nat) ->
  (forall l l', (l < N)%nat -> (l' < N)%nat -> l <> l' -> exists a, (a < 2)%nat /\ e < Rabs (nth a (pos l) 0 - nth a (pos l') 0)) ->
  forall l l', (l < N)%nat -> (l' < N)%nat -> l <> l' -> e < GeomSpec.euclid (pos l) (pos l').
Proof.
  intros L2 F l l' Hl Hl' D. destruct (F l l' Hl Hl' D) as (a & Ha & X). eapply Rlt_le_trans; [exact X|]. apply (coord_euclid a); [rewrite !L2 by assumption; reflexivity|lia|left; apply L2; exact Hl].
Qed.
Ltac gap i := exists i; split; [lia|]; cbn [nth]; first [rewrite Rabs_right by lra; lra|rewrite Rabs_left by lra; lra].
Lemma apart_b a r e : 0 < a -> 0 <= e -> e < a / 4 -> e < (r - a) / 4 -> forall l l', (l < 7)%nat -> (l' < 7)%nat -> l <> l' -> exists i, (i < 2)%nat /\ e < Rabs (nth i (pos_b a r l) 0 - nth i (pos_b a r l') 0).
Proof.
  intros Ha He E1 E2. pose proof kk_bounds as K. assert (Ka : 7 / 10 * a < kk * a < 71 / 100 * a) by (split; apply Rmult_lt_compat_r; lra). assert (Kr : 7 / 10 * r < kk * r < 71 / 100 * r) by (split; apply Rmult_lt_compat_r; lra).
  assert (Kd : 7 / 10 * (r - a) < kk * (r - a)) by (apply Rmult_lt_compat_r; lra). rewrite (Rmult_minus_distr_l kk) in Kd. intros l l' Hl Hl' D. unfold pos_b.
  do 7 (destruct l as [|l]; [do 7 (destruct l' as [|l']; [first [exfalso; apply D; reflexivity|gap 0%nat|gap 1%nat]|]); lia|]). lia.
Qed.
Lemma apart_p r a b e : 0 < r -> 0 < a -> 0 < b -> 0 <= e -> e < r / 4 -> e < a / 4 -> e < b / 4 -> forall l l', (l < 9)%nat -> (l' < 9)%nat -> l <> l' -> exists i, (i < 2)%nat /\ e < Rabs (nth i (pos_p r a b l) 0 - nth i (pos_p r a b l') 0).
Proof.
  intros Hr Ha Hb He E1 E2 E3. pose proof kk_bounds as K. assert (Ka : 7 / 10 * a < kk * a < 71 / 100 * a) by (split; apply Rmult_lt_compat_r; lra). assert (Kr : 7 / 10 * r < kk * r < 71 / 100 * r) by (split; apply Rmult_lt_compat_r; lra).
  intros l l' Hl Hl' D. unfold pos_p. rewrite Rmult_plus_distr_l.
  do 9 (destruct l as [|l]; [do 9 (destruct l' as [|l']; [first [exfalso; apply D; reflexivity|gap 0%nat|gap 1%nat]|]); lia|]). lia.
Qed.

(* the cells have these corners *)
Ltac sides := let s := fresh "s" in let c := fresh "c" in let I := fresh "I" in intros s c I; cbn [In] in I;
  repeat match type of I with _ \/ _ => destruct I as [I|I] | False => destruct I end; injection I as <- <-; eexists; (split; [reflexivity|]); (split; [lra|]);
  let k := fresh "k" in let Hk := fresh "Hk" in let A := fresh "A" in intros k Hk A; unfold at_side in A;
  first [rewrite ref_qua4 in A by exact Hk; do 4 (destruct k as [|k]; [cbn in A; first [exfalso; lra|cbn [nth]; apply dist_polar; lra]|]); lia
        |rewrite ref_hex8 in A by exact Hk; do 8 (destruct k as [|k]; [cbn in A; first [exfalso; lra|cbn [Nat.modulo Nat.divmod fst snd Nat.sub nth]; apply dist_polar; lra]|]); lia].
Ltac block2 k Eg M := cbn [nth_error] in Eg; injection Eg as <-; apply one_2d in M as (-> & ->);
  [split; [reflexivity|]; unfold core_b, right_b, top_b, ring_part, ring_part', far_1, far_2, pos_b, pos_p; rewrite ?polar_0, ?polar_2, ?polar_k; do 4 (destruct k as [|k]; [reflexivity|]); lia
  |first [apply planar_core_b|apply planar_part|apply planar_part'|apply planar_far_1|apply planar_far_2]|unfold right_b, top_b, ring_part, ring_part', far_1, far_2; first [solve [intros ? ? []]|sides]].
Ltac block3 k Eg M := cbn [nth_error] in Eg; injection Eg as <-; apply one_3d in M as (-> & ->);
  [split; [reflexivity|]; unfold core_b, right_b, top_b, ring_part, ring_part', far_1, far_2, pos_3, pos_b, pos_p, lifted; rewrite ?polar_0, ?polar_2, ?polar_k; do 8 (destruct k as [|k]; [reflexivity|]); lia
  |first [apply planar_core_b|apply planar_part|apply planar_part'|apply planar_far_1|apply planar_far_2]|unfold right_b, top_b, ring_part, ring_part', far_1, far_2; first [solve [intros ? ? []]|sides]].
Lemma at_b2 a r i g idx k y : 0 < a < r -> nth_error (disk_2d (core_b a) (right_b a r) (top_b a r) r 1 1) i = Some g -> is_node 2 Qua4 g idx k y -> idx = repeat 0%nat 2 /\ y = pos_b a r (nth k (nth i lab_b []) 0%nat).
Proof.
  intros H Eg M. assert (Hk : (k < 4)%nat) by apply M. unfold disk_2d in Eg. destruct i as [|[|[|i]]]; [block2 k Eg M..|destruct i; discriminate Eg].
Qed.
Lemma at_b3 a r h i g idx k y : 0 < a < r -> nth_error (disk_3d (core_b a) (right_b a r) (top_b a r) r h 1 1 1) i = Some g -> is_node 3 Hex8 g idx k y -> idx = repeat 0%nat 3 /\ y = pos_3 7 h (pos_b a r) (nth k (nth i (lab_3 7 lab_b) []) 0%nat).
Proof.
  intros H Eg M. assert (Hk : (k < 8)%nat) by apply M. unfold disk_3d in Eg. destruct i as [|[|[|i]]]; [block3 k Eg M..|destruct i; discriminate Eg].
Qed.
Lemma at_p2 r a b i g idx k y : 0 < r -> 0 < a -> 0 < b -> nth_error (plate_2d r a b 1 1 1) i = Some g -> is_node 2 Qua4 g idx k y -> idx = repeat 0%nat 2 /\ y = pos_p r a b (nth k (nth i lab_p []) 0%nat).
Proof.
  intros H0 H1 H2 Eg M. assert (Hk : (k < 4)%nat) by apply M. unfold plate_2d in Eg. cbv zeta in Eg. destruct i as [|[|[|[|i]]]]; [block2 k Eg M..|destruct i; discriminate Eg].
Qed.
Lemma at_p3 r a b h i g idx k y : 0 < r -> 0 < a -> 0 < b -> nth_error (plate_3d r a b h 1 1 1 1) i = Some g -> is_node 3 Hex8 g idx k y -> idx = repeat 0%nat 3 /\ y = pos_3 9 h (pos_p r a b) (nth k (nth i (lab_3 9 lab_p) []) 0%nat).
Proof.
  intros H0 H1 H2 Eg M. assert (Hk : (k < 8)%nat) by apply M. unfold plate_3d in Eg. cbv zeta in Eg. destruct i as [|[|[|[|i]]]]; [block3 k Eg M..|destruct i; discriminate Eg].
Qed.
