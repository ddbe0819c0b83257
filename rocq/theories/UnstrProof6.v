(* Unstructured quarter ring in 3D: the points and facets given to Tetgen. *)
From Coq Require Import String List Arith Bool ZArith Reals Lia Lra.
From Verif Require Import Base BaseFacts Kind MeshModel TopoModel GeomModel UnstrModel UnstrSpec UnstrProof UnstrProof2.
Import ListNotations.
Local Open Scope list_scope.
Local Open Scope R_scope.

Section Points.
Variables (F : nat -> Z * R * R * R) (N : nat) (t0 : tet_in).
Definition pinv (k : nat) (t : tet_in) : Prop :=
  t = mkTetIn (map (fun i => Some (F i)) (seq 0 k) ++ repeat None (N - k)) (ei_facet_markers t0) (ei_facets t0) (ei_regions t0) (ei_holes t0).
Lemma next3 k t mk x y z : (k < N)%nat -> pinv k t -> F k = (mk, x, y, z) -> exists t', next_point_3d mk x y z (t, k) = Ok (t', S k) /\ pinv (S k) t'.
Proof.
  intros Hk -> E. unfold next_point_3d, tet_point. cbn [fst snd ei_points ei_facet_markers ei_facets ei_regions ei_holes].
  rewrite (put_next N F k (mk, x, y, z)) by auto. cbn [bind]. eexists. split; reflexivity.
Qed.
Lemma loop3 (step : tet_in * nat -> nat -> res (tet_in * nat)) : forall m a k t, (k + m <= N)%nat -> pinv k t ->
  (forall i t, (i < m)%nat -> pinv (k + i) t -> exists t', step (t, (k + i)%nat) (a + i)%nat = Ok (t', S (k + i)) /\ pinv (S (k + i)) t') ->
  exists t', foldM step (seq a m) (t, k) = Ok (t', (k + m)%nat) /\ pinv (k + m) t'.
Proof.
  induction m; intros a k t H2 I Hs; [exists t; rewrite Nat.add_0_r; auto|].
  cbn [seq foldM]. destruct (Hs 0%nat t) as (t1 & E1 & I1); [lia|rewrite Nat.add_0_r; auto|]. rewrite !Nat.add_0_r in E1. rewrite E1. cbn [bind]. rewrite Nat.add_0_r in I1.
  destruct (IHm (S a) (S k) t1) as (t2 & E2 & I2); [lia|auto| |].
  - intros i t' Hi I'. destruct (Hs (S i) t') as (t3 & E3 & I3); [lia|replace (k + S i)%nat with (S k + i)%nat by lia; auto|]. exists t3.
    replace (S k + i)%nat with (k + S i)%nat by lia. replace (S a + i)%nat with (a + S i)%nat by lia. auto.
  - exists t2. replace (k + S m)%nat with (S k + m)%nat by lia. auto.
Qed.

Variables (rmin rmax z : R) (nr na o : nat).
Hypothesis Hr : (1 <= nr)%nat. Hypothesis Ha : (1 <= na)%nat. Hypothesis Ho : (o + (2 * nr + 2 * na) <= N)%nat.
Hypothesis HF : forall i, (i < 2 * nr + 2 * na)%nat -> F (o + i)%nat = (ring_corner_marker nr na i, fst (ring_corner rmin rmax nr na i), snd (ring_corner rmin rmax nr na i), z).
Lemma level_ok t : pinv o t -> exists t', ring_level rmin rmax z nr na (t, o) = Ok (t', (o + (2 * nr + 2 * na))%nat) /\ pinv (o + (2 * nr + 2 * na)) t'.
Proof.
  intros I0. pose proof (INR_pos nr Hr) as Pr. pose proof (INR_pos na Ha) as Pa. unfold ring_level. cbv zeta.
  destruct (next3 o t MARKER_A rmin 0 z) as (t1 & -> & I1); [lia|auto| |].
  { specialize (HF 0%nat ltac:(lia)). rewrite Nat.add_0_r in HF. rewrite HF. unfold ring_corner_marker, ring_corner. cbn [Nat.eqb Nat.leb fst snd INR]. unfold MARKER_A. repeat f_equal. ring. }
  cbn [bind].
  match goal with |- context [foldM ?s (seq 1 nr) _] => destruct (loop3 s nr 1 (S o) t1) as (t2 & E2 & I2) end; [lia|exact I1| |].
  { intros i t' Hi I. cbv beta. apply next3; [lia|auto|]. replace (S o + i)%nat with (o + (1 + i))%nat by lia. rewrite HF by lia.
    unfold ring_corner_marker, ring_corner. rewrite (proj2 (Nat.leb_le (1 + i) nr)) by lia. cbn [fst snd].
    replace ((1 + i =? 0)%nat) with false by (symmetry; apply Nat.eqb_neq; lia).
    destruct (1 + i =? nr)%nat eqn:E; [reflexivity|]. apply Nat.eqb_neq in E.
    rewrite (proj2 (Nat.eqb_neq (1 + i) (nr + na))) by lia. rewrite (proj2 (Nat.eqb_neq (1 + i) (nr + na + nr))) by lia. reflexivity. }
  rewrite E2. cbn [bind].
  match goal with |- context [foldM ?s (seq 1 na) _] => destruct (loop3 s na 1 (S o + nr)%nat t2) as (t3 & E3 & I3) end; [lia|exact I2| |].
  { intros i t' Hi I. cbv beta.
    assert (EF : F (S o + nr + i)%nat = ((if (1 + i =? na)%nat then MARKER_D else 0%Z), rmax * cos (0 + INR (1 + i) * ((PI / 2 - 0) / INR na)), rmax * sin (0 + INR (1 + i) * ((PI / 2 - 0) / INR na)), z)).
    { replace (S o + nr + i)%nat with (o + (1 + nr + i))%nat by lia. rewrite HF by lia.
      unfold ring_corner_marker, ring_corner. rewrite (proj2 (Nat.leb_gt (1 + nr + i) nr)) by lia. rewrite (proj2 (Nat.leb_le (1 + nr + i) (nr + na))) by lia.
      unfold polar. cbn [fst snd]. replace (1 + nr + i - nr)%nat with (1 + i)%nat by lia.
      replace (0 + INR (1 + i) * ((PI / 2 - 0) / INR na)) with (INR (1 + i) * (PI / 2 / INR na)) by (field; lra).
      rewrite (proj2 (Nat.eqb_neq (1 + nr + i) 0)) by lia. rewrite (proj2 (Nat.eqb_neq (1 + nr + i) nr)) by lia.
      replace (1 + nr + i =? nr + na)%nat with (1 + i =? na)%nat by (destruct (Nat.eqb_spec (1 + i) na), (Nat.eqb_spec (1 + nr + i) (nr + na)); auto; lia).
      rewrite (proj2 (Nat.eqb_neq (1 + nr + i) (nr + na + nr))) by lia. destruct (1 + i =? na)%nat; reflexivity. }
    destruct (1 + i =? na)%nat eqn:E.
    - apply next3; [lia|auto|]. rewrite EF. apply Nat.eqb_eq in E. rewrite E.
      replace (0 + INR na * ((PI / 2 - 0) / INR na)) with (PI / 2) by (field; lra). rewrite cos_PI2, sin_PI2. repeat f_equal; ring.
    - apply next3; [lia|auto|exact EF]. }
  rewrite E3. cbn [bind].
  match goal with |- context [foldM ?s (seq 1 nr) _] => destruct (loop3 s nr 1 (S o + nr + na)%nat t3) as (t4 & E4 & I4) end; [lia|exact I3| |].
  { intros i t' Hi I. cbv beta. apply next3; [lia|auto|]. replace (S o + nr + na + i)%nat with (o + (1 + nr + na + i))%nat by lia. rewrite HF by lia.
    unfold ring_corner_marker, ring_corner. rewrite (proj2 (Nat.leb_gt (1 + nr + na + i) nr)) by lia. rewrite (proj2 (Nat.leb_gt (1 + nr + na + i) (nr + na))) by lia.
    rewrite (proj2 (Nat.leb_le (1 + nr + na + i) (nr + na + nr))) by lia. cbn [fst snd].
    rewrite (proj2 (Nat.eqb_neq (1 + nr + na + i) 0)) by lia. rewrite (proj2 (Nat.eqb_neq (1 + nr + na + i) nr)) by lia. rewrite (proj2 (Nat.eqb_neq (1 + nr + na + i) (nr + na))) by lia.
    replace (1 + nr + na + i =? nr + na + nr)%nat with (1 + i =? nr)%nat by (destruct (Nat.eqb_spec (1 + i) nr), (Nat.eqb_spec (1 + nr + na + i) (nr + na + nr)); auto; lia).
    replace (rmax - INR (1 + nr + na + i - nr - na) * ((rmax - rmin) / INR nr)) with (rmin + INR (nr - (1 + i)) * ((rmax - rmin) / INR nr)).
    - destruct (1 + i =? nr)%nat; reflexivity.
    - rewrite minus_INR by lia. replace (1 + nr + na + i - nr - na)%nat with (1 + i)%nat by lia. field. lra. }
  rewrite E4. cbn [bind].
  match goal with |- context [foldM ?s (seq 1 (na - 1)) _] => destruct (loop3 s (na - 1)%nat 1 (S o + nr + na + nr)%nat t4) as (t5 & E5 & I5) end; [lia|exact I4| |].
  { intros i t' Hi I. cbv beta. apply next3; [lia|auto|]. replace (S o + nr + na + nr + i)%nat with (o + (1 + nr + na + nr + i))%nat by lia. rewrite HF by lia.
    unfold ring_corner_marker, ring_corner. rewrite (proj2 (Nat.leb_gt (1 + nr + na + nr + i) nr)) by lia. rewrite (proj2 (Nat.leb_gt (1 + nr + na + nr + i) (nr + na))) by lia.
    rewrite (proj2 (Nat.leb_gt (1 + nr + na + nr + i) (nr + na + nr))) by lia. unfold polar. cbn [fst snd].
    rewrite (proj2 (Nat.eqb_neq (1 + nr + na + nr + i) 0)) by lia. rewrite (proj2 (Nat.eqb_neq (1 + nr + na + nr + i) nr)) by lia. rewrite (proj2 (Nat.eqb_neq (1 + nr + na + nr + i) (nr + na))) by lia.
    rewrite (proj2 (Nat.eqb_neq (1 + nr + na + nr + i) (nr + na + nr))) by lia.
    replace (nr + na + nr + na - (1 + nr + na + nr + i))%nat with (na - (1 + i))%nat by lia.
    replace (0 + INR (na - (1 + i)) * ((PI / 2 - 0) / INR na)) with (INR (na - (1 + i)) * (PI / 2 / INR na)) by (field; lra). reflexivity. }
  rewrite E5. exists t5. replace (o + (2 * nr + 2 * na))%nat with (S o + nr + na + nr + (na - 1))%nat by lia. auto.
Qed.
End Points.

(* the facets *)
Section Facets.
Variables (len : list nat) (T : nat -> nat -> nat) (M : nat -> Z) (ps : list (option (Z * R * R * R))) (rg : list (option (Z * R * R * R * option R))) (hl : list (option (R * R * R))).
Hypothesis HT : forall i m, (i < List.length len)%nat -> (m < nth i len 0)%nat -> (T i m < List.length ps)%nat.
(* the slots in W and the markers in D are set *)
Definition finv (W : nat -> nat -> Prop) (D : nat -> Prop) (t : tet_in) : Prop :=
  ei_points t = ps /\ ei_regions t = rg /\ ei_holes t = hl /\
  List.length (ei_facet_markers t) = List.length len /\ (forall i, (i < List.length len)%nat -> D i -> nth i (ei_facet_markers t) None = Some (M i)) /\
  map (@List.length _) (ei_facets t) = len /\
  (forall i m, (i < List.length len)%nat -> (m < nth i len 0)%nat -> W i m -> nth m (nth i (ei_facets t) []) None = Some (T i m)).
Lemma finv_weaken (W : nat -> nat -> Prop) (D : nat -> Prop) (W' : nat -> nat -> Prop) (D' : nat -> Prop) t : finv W D t -> (forall i m, (i < List.length len)%nat -> (m < nth i len 0)%nat -> W' i m -> W i m) -> (forall i, (i < List.length len)%nat -> D' i -> D i) -> finv W' D' t.
Proof. intros (A & B & C & E & F & G & H) H1 H2. repeat (split; [auto|]). auto. Qed.

Lemma facet_point_ok W D t i m p : finv W D t -> (i < List.length len)%nat -> (m < nth i len 0)%nat -> p = T i m ->
  exists t', tet_facet_point t i m p = Ok t' /\ finv (fun a b => W a b \/ (a = i /\ b = m)) D t'.
Proof.
  intros (A & B & C & E & F & G & H) Hi Hm ->. unfold tet_facet_point. rewrite A. rewrite (proj2 (Nat.ltb_lt _ _) (HT i m Hi Hm)).
  assert (Lf : List.length (ei_facets t) = List.length len) by (rewrite <- G; now rewrite map_length).
  destruct (nth_error (ei_facets t) i) as [row|] eqn:Er; [|apply nth_error_None in Er; lia].
  assert (Lr : List.length row = nth i len 0%nat).
  { rewrite <- G. rewrite (nth_indep _ 0%nat (List.length (A:=option nat) [])) by (rewrite map_length; lia). rewrite map_nth. now rewrite (nth_error_nth _ _ [] Er). }
  unfold put. rewrite (proj2 (Nat.ltb_lt m (List.length row))) by lia. rewrite set_ok by lia. cbn [bind]. rewrite set_ok by lia. cbn [bind].
  eexists. split; [reflexivity|]. repeat (split; [now auto|]). split; cbn [ei_facets].
  - rewrite <- G. assert (NL : forall (ls : list (list (option nat))) k, nth k (map (@List.length _) ls) 0%nat = List.length (nth k ls [])) by (intros ls k; apply (map_nth (@List.length (option nat)) ls [] k)).
    apply (nth_ext _ _ 0%nat 0%nat); [now rewrite !map_length, upd_length|]. intros k Hk. rewrite map_length, upd_length in Hk.
    rewrite !NL. rewrite nth_upd by lia. destruct (Nat.eqb_spec i k) as [<-|]; [|auto]. rewrite upd_length. now rewrite (nth_error_nth _ _ [] Er).
  - intros a b Ha Hb HW. rewrite nth_upd by lia. destruct (Nat.eqb_spec i a) as [<-|Na].
    + rewrite nth_upd by lia. destruct (Nat.eqb_spec m b) as [<-|Nb]; [reflexivity|]. destruct HW as [HW|[_ HW]]; [|congruence].
      specialize (H i b Ha Hb HW). now rewrite (nth_error_nth _ _ [] Er) in H.
    + destruct HW as [HW|[HW _]]; [auto|congruence].
Qed.
Lemma facet_marker_ok W D t i mk : finv W D t -> (i < List.length len)%nat -> mk = M i ->
  exists t', tet_facet_marker t i mk = Ok t' /\ finv W (fun a => D a \/ a = i) t'.
Proof.
  intros (A & B & C & E & F & G & H) Hi ->. unfold tet_facet_marker, put. rewrite E, (proj2 (Nat.ltb_lt _ _) Hi). rewrite set_ok by lia. cbn [bind].
  eexists. split; [reflexivity|]. split; [auto|]. split; [auto|]. split; [auto|]. cbn [ei_facet_markers]. rewrite upd_length. split; [auto|].
  split; [|auto]. intros a La HD. rewrite nth_upd by lia. destruct (Nat.eqb_spec i a) as [<-|N]; [reflexivity|]. destruct HD as [HD|HD]; [auto|congruence].
Qed.
End Facets.
Lemma iloop {A} (step : A -> nat -> res A) (I : nat -> A -> Prop) n : (forall k t, (k < n)%nat -> I k t -> exists t', step t k = Ok t' /\ I (S k) t') ->
  forall t, I 0%nat t -> exists t', foldM step (seq 0 n) t = Ok t' /\ I n t'.
Proof.
  intros H t I0. assert (G : forall k, (k <= n)%nat -> exists t', foldM step (seq 0 k) t = Ok t' /\ I k t').
  { induction k; intros Hk; [exists t; auto|]. destruct IHk as (t1 & E1 & I1); [lia|]. destruct (H k t1) as (t2 & E2 & I2); [lia|auto|].
    exists t2. split; [|auto]. rewrite seq_S, foldM_app, E1. cbn [bind foldM Nat.add]. rewrite E2. reflexivity. }
  now apply G.
Qed.
