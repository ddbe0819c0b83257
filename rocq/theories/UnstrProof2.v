(* Unstructured quarter ring in 2D: the polygon given to Trigen. *)
From Coq Require Import String List Arith Bool ZArith Reals Lia Lra.
From Verif Require Import Base BaseFacts Kind MeshModel TopoModel GeomModel UnstrModel UnstrSpec UnstrProof.
Import ListNotations.
Local Open Scope list_scope.
Local Open Scope R_scope.

Section Poly.
Variables (F : nat -> Z * R * R) (G : nat -> Z * nat * nat) (n : nat) (rg : list (option (Z * R * R * option R))) (hl : list (option (R * R))).
(* k points and k - 1 segments are set *)
Definition poly_inv (k : nat) (t : tri_in) : Prop :=
  ti_points t = map (fun i => Some (F i)) (seq 0 k) ++ repeat None (n - k) /\
  ti_segments t = map (fun i => Some (G i)) (seq 0 (k - 1)) ++ repeat None (n - (k - 1)) /\
  ti_regions t = rg /\ ti_holes t = hl.

Lemma put_next {A} (f : nat -> A) k a : (k < n)%nat -> f k = a ->
  put (map (fun i => Some (f i)) (seq 0 k) ++ repeat None (n - k)) k a = Ok (map (fun i => Some (f i)) (seq 0 (S k)) ++ repeat None (n - S k)).
Proof.
  intros H E. unfold put. rewrite app_length, map_length, seq_length, repeat_length.
  rewrite (proj2 (Nat.ltb_lt k (k + (n - k)))) by lia. rewrite set_ok by (rewrite app_length, map_length, seq_length, repeat_length; lia).
  replace (n - k)%nat with (S (n - S k)) by lia. cbn [repeat]. f_equal. rewrite seq_S, map_app, <- app_assoc. cbn [map app Nat.add]. rewrite E.
  pose proof (upd_mid (map (fun i => Some (f i)) (seq 0 k)) None (Some a) (repeat None (n - S k))) as U. rewrite map_length, seq_length in U. exact U.
Qed.

Lemma inv_length k t : (k <= n)%nat -> poly_inv k t -> List.length (ti_points t) = n.
Proof. intros H (-> & _). rewrite app_length, map_length, seq_length, repeat_length. lia. Qed.

Lemma next_ok k t mk sg x y : (1 <= k < n)%nat -> poly_inv k t -> F k = (mk, x, y) -> G (k - 1) = (sg, k - 1, k)%nat ->
  exists t', next_point mk sg x y (t, k) = Ok (t', S k) /\ poly_inv (S k) t'.
Proof.
  intros Hk I EF EG. destruct I as (I1 & I2 & I3 & I4). unfold next_point, tri_point. cbn [fst snd].
  rewrite I1, (put_next F k (mk, x, y)) by (auto; lia). cbn [bind]. unfold tri_segment. cbn [ti_points ti_segments ti_regions ti_holes].
  rewrite app_length, map_length, seq_length, repeat_length.
  rewrite (proj2 (Nat.ltb_lt (k - 1) (S k + (n - S k)))) by lia. rewrite (proj2 (Nat.ltb_lt k (S k + (n - S k)))) by lia. cbn [andb].
  rewrite I2. rewrite (put_next G (k - 1) (sg, k - 1, k)%nat) by (auto; lia). cbn [bind]. eexists. split; [reflexivity|].
  split; [reflexivity|]. cbn [ti_segments ti_regions ti_holes]. replace (S k - 1)%nat with (S (k - 1)) by lia. auto.
Qed.

Lemma loop_ok (step : tri_in * nat -> nat -> res (tri_in * nat)) : forall m a k t, (1 <= k)%nat -> (k + m <= n)%nat -> poly_inv k t ->
  (forall i t k', (i < m)%nat -> k' = (k + i)%nat -> poly_inv k' t -> exists t', step (t, k') (a + i)%nat = Ok (t', S k') /\ poly_inv (S k') t') ->
  exists t', foldM step (seq a m) (t, k) = Ok (t', (k + m)%nat) /\ poly_inv (k + m) t'.
Proof.
  induction m; intros a k t H1 H2 I Hs; [exists t; rewrite Nat.add_0_r; auto|].
  cbn [seq foldM]. destruct (Hs 0%nat t k) as (t1 & E1 & I1); [lia|lia|auto|]. rewrite Nat.add_0_r in E1. rewrite E1. cbn [bind].
  destruct (IHm (S a) (S k) t1) as (t2 & E2 & I2); [lia|lia|auto| |].
  - intros i t' k' Hi Ek I'. destruct (Hs (S i) t' k') as (t3 & E3 & I3); [lia|lia|auto|]. exists t3. split; [|auto]. rewrite <- E3. f_equal. lia.
  - exists t2. replace (k + S m)%nat with (S k + m)%nat by lia. auto.
Qed.
End Poly.

Lemma INR_pos k : (1 <= k)%nat -> 0 < INR k.
Proof. intros. apply lt_0_INR. lia. Qed.

Lemma ring_polygon rmin rmax nr na : (1 <= nr)%nat -> (1 <= na)%nat -> let n := (2 * nr + 2 * na)%nat in
  exists t, ring_input rmin rmax nr na = Ok t /\
    ti_points t = map (fun i => Some (ring_corner_marker nr na i, fst (ring_corner rmin rmax nr na i), snd (ring_corner rmin rmax nr na i))) (seq 0 n) /\
    ti_segments t = map (fun i => Some (ring_side_marker nr na i, i, (i + 1) mod n)%nat) (seq 0 n) /\
    ti_regions t = [Some (1%Z, rmin + / 10 ^ 4, / 10 ^ 4, None)] /\ ti_holes t = [].
Proof.
  intros Hr Ha n.
  set (F := fun i => (ring_corner_marker nr na i, fst (ring_corner rmin rmax nr na i), snd (ring_corner rmin rmax nr na i))).
  set (G := fun i => (ring_side_marker nr na i, i, (i + 1) mod n)%nat).
  pose proof (INR_pos nr Hr) as Pr. pose proof (INR_pos na Ha) as Pa.
  unfold ring_input. replace (2 * (nr + 1) + 2 * (na - 1))%nat with n by (unfold n; lia).
  unfold trigen_new. rewrite (proj2 (Nat.ltb_ge n 3)) by (unfold n; lia). cbn [bind].
  set (rg := repeat None 1). set (hl := repeat None 0).
  assert (I1 : exists t, tri_point (mkTriIn (repeat None n) (repeat None n) rg hl) 0 MARKER_A rmin 0 = Ok t /\ poly_inv F G n rg hl 1 t).
  { unfold tri_point. cbn [ti_points ti_segments ti_regions ti_holes].
    assert (P0 : put (repeat None n) 0 (MARKER_A, rmin, 0) = Ok (map (fun i => Some (F i)) (seq 0 1) ++ repeat None (n - 1))).
    { rewrite <- (put_next n F 0 (MARKER_A, rmin, 0)).
      - cbn [seq map app]. now rewrite Nat.sub_0_r.
      - unfold n; lia.
      - unfold F, ring_corner_marker, ring_corner; cbn [Nat.eqb Nat.leb fst snd INR]; unfold MARKER_A; f_equal; f_equal; ring. }
    rewrite P0.
    cbn [bind]. eexists. split; [reflexivity|]. split; [reflexivity|]. split; [|auto]. cbn [ti_segments]. cbn [seq map app Nat.sub]. now rewrite Nat.sub_0_r. }
  destruct I1 as (t1 & -> & I1). cbn [bind].
  assert (Gn : forall k mk, (1 <= k < n)%nat -> ring_side_marker nr na (k - 1) = mk -> G (k - 1)%nat = (mk, k - 1, k)%nat).
  { intros k mk Hk E. unfold G. rewrite E, Nat.mod_small by lia. f_equal. lia. }
  (* y = 0 *)
  match goal with |- context [foldM ?s (seq 1 nr) _] => destruct (loop_ok F G n rg hl s nr 1 1 t1) as (t2 & E2 & I2) end; [lia|unfold n; lia|exact I1| |].
  { intros i t k Hi Ek I. subst k. cbv beta. apply (next_ok F G n rg hl); [unfold n; lia|auto| |apply Gn; [unfold n; lia|]].
    - unfold F, ring_corner_marker, ring_corner. rewrite (proj2 (Nat.leb_le (1 + i) nr)) by lia. cbn [fst snd].
      replace ((1 + i =? 0)%nat) with false by (symmetry; apply Nat.eqb_neq; lia).
      destruct (1 + i =? nr)%nat eqn:E; [reflexivity|]. apply Nat.eqb_neq in E.
      rewrite (proj2 (Nat.eqb_neq (1 + i) (nr + na))) by lia. rewrite (proj2 (Nat.eqb_neq (1 + i) (nr + na + nr))) by lia. reflexivity.
    - unfold ring_side_marker. rewrite (proj2 (Nat.ltb_lt _ nr)) by lia. reflexivity. }
  rewrite E2. cbn [bind].
  (* outer circle *)
  match goal with |- context [foldM ?s (seq 1 na) _] => destruct (loop_ok F G n rg hl s na 1 (1 + nr)%nat t2) as (t3 & E3 & I3) end; [lia|unfold n; lia|exact I2| |].
  { intros i t k Hi Ek I. subst k. cbv beta.
    assert (EF : F (1 + nr + i)%nat = ((if (1 + i =? na)%nat then MARKER_D else 0%Z), rmax * cos (0 + INR (1 + i) * ((PI / 2 - 0) / INR na)), rmax * sin (0 + INR (1 + i) * ((PI / 2 - 0) / INR na)))).
    { unfold F, ring_corner_marker, ring_corner. rewrite (proj2 (Nat.leb_gt (1 + nr + i) nr)) by lia. rewrite (proj2 (Nat.leb_le (1 + nr + i) (nr + na))) by lia.
      unfold polar. cbn [fst snd]. replace (1 + nr + i - nr)%nat with (1 + i)%nat by lia.
      replace (0 + INR (1 + i) * ((PI / 2 - 0) / INR na)) with (INR (1 + i) * (PI / 2 / INR na)) by (field; lra).
      rewrite (proj2 (Nat.eqb_neq (1 + nr + i) 0)) by lia. rewrite (proj2 (Nat.eqb_neq (1 + nr + i) nr)) by lia.
      replace (1 + nr + i =? nr + na)%nat with (1 + i =? na)%nat by (destruct (Nat.eqb_spec (1 + i) na), (Nat.eqb_spec (1 + nr + i) (nr + na)); auto; lia).
      rewrite (proj2 (Nat.eqb_neq (1 + nr + i) (nr + na + nr))) by lia. destruct (1 + i =? na)%nat; reflexivity. }
    assert (EG : G (1 + nr + i - 1)%nat = (MARKER_OUTER, (1 + nr + i - 1)%nat, (1 + nr + i)%nat)).
    { apply Gn; [unfold n; lia|]. unfold ring_side_marker. rewrite (proj2 (Nat.ltb_ge (1 + nr + i - 1) nr)) by lia. rewrite (proj2 (Nat.ltb_lt _ (nr + na))) by lia. reflexivity. }
    destruct (1 + i =? na)%nat eqn:E.
    - apply (next_ok F G n rg hl); [unfold n; lia|auto| |exact EG]. rewrite EF. apply Nat.eqb_eq in E. rewrite E.
      replace (0 + INR na * ((PI / 2 - 0) / INR na)) with (PI / 2) by (field; lra). rewrite cos_PI2, sin_PI2. f_equal; [f_equal|]; ring.
    - apply (next_ok F G n rg hl); [unfold n; lia|auto|exact EF|exact EG]. }
  rewrite E3. cbn [bind].
  (* x = 0 *)
  match goal with |- context [foldM ?s (seq 1 nr) _] => destruct (loop_ok F G n rg hl s nr 1 (1 + nr + na)%nat t3) as (t4 & E4 & I4) end; [lia|unfold n; lia|exact I3| |].
  { intros i t k Hi Ek I. subst k. cbv beta. apply (next_ok F G n rg hl); [unfold n; lia|auto| |apply Gn; [unfold n; lia|]].
    - unfold F, ring_corner_marker, ring_corner. rewrite (proj2 (Nat.leb_gt (1 + nr + na + i) nr)) by lia. rewrite (proj2 (Nat.leb_gt (1 + nr + na + i) (nr + na))) by lia.
      rewrite (proj2 (Nat.leb_le (1 + nr + na + i) (nr + na + nr))) by lia. cbn [fst snd].
      rewrite (proj2 (Nat.eqb_neq (1 + nr + na + i) 0)) by lia. rewrite (proj2 (Nat.eqb_neq (1 + nr + na + i) nr)) by lia. rewrite (proj2 (Nat.eqb_neq (1 + nr + na + i) (nr + na))) by lia.
      replace (1 + nr + na + i =? nr + na + nr)%nat with (1 + i =? nr)%nat by (destruct (Nat.eqb_spec (1 + i) nr), (Nat.eqb_spec (1 + nr + na + i) (nr + na + nr)); auto; lia).
      replace (rmax - INR (1 + nr + na + i - nr - na) * ((rmax - rmin) / INR nr)) with (rmin + INR (nr - (1 + i)) * ((rmax - rmin) / INR nr)).
      + destruct (1 + i =? nr)%nat; reflexivity.
      + rewrite minus_INR by lia. replace (1 + nr + na + i - nr - na)%nat with (1 + i)%nat by lia. field. lra.
    - unfold ring_side_marker. rewrite (proj2 (Nat.ltb_ge (1 + nr + na + i - 1) nr)) by lia. rewrite (proj2 (Nat.ltb_ge (1 + nr + na + i - 1) (nr + na))) by lia.
      rewrite (proj2 (Nat.ltb_lt _ (nr + na + nr))) by lia. reflexivity. }
  rewrite E4. cbn [bind].
  (* inner circle *)
  match goal with |- context [foldM ?s (seq 1 (na - 1)) _] => destruct (loop_ok F G n rg hl s (na - 1) 1 (1 + nr + na + nr)%nat t4) as (t5 & E5 & I5) end; [lia|unfold n; lia|exact I4| |].
  { intros i t k Hi Ek I. subst k. cbv beta. apply (next_ok F G n rg hl); [unfold n; lia|auto| |apply Gn; [unfold n; lia|]].
    - unfold F, ring_corner_marker, ring_corner. rewrite (proj2 (Nat.leb_gt (1 + nr + na + nr + i) nr)) by lia. rewrite (proj2 (Nat.leb_gt (1 + nr + na + nr + i) (nr + na))) by lia.
      rewrite (proj2 (Nat.leb_gt (1 + nr + na + nr + i) (nr + na + nr))) by lia. unfold polar. cbn [fst snd].
      rewrite (proj2 (Nat.eqb_neq (1 + nr + na + nr + i) 0)) by lia. rewrite (proj2 (Nat.eqb_neq (1 + nr + na + nr + i) nr)) by lia.
      rewrite (proj2 (Nat.eqb_neq (1 + nr + na + nr + i) (nr + na))) by lia. rewrite (proj2 (Nat.eqb_neq (1 + nr + na + nr + i) (nr + na + nr))) by lia.
      replace (nr + na + nr + na - (1 + nr + na + nr + i))%nat with (na - (1 + i))%nat by lia.
      replace (0 + INR (na - (1 + i)) * ((PI / 2 - 0) / INR na)) with (INR (na - (1 + i)) * (PI / 2 / INR na)) by (field; lra). reflexivity.
    - unfold ring_side_marker. rewrite (proj2 (Nat.ltb_ge (1 + nr + na + nr + i - 1) nr)) by lia. rewrite (proj2 (Nat.ltb_ge (1 + nr + na + nr + i - 1) (nr + na))) by lia.
      rewrite (proj2 (Nat.ltb_ge (1 + nr + na + nr + i - 1) (nr + na + nr))) by lia. reflexivity. }
  rewrite E5. cbn [bind fst snd].
  replace (1 + nr + na + nr + (na - 1))%nat with n in * by (unfold n; lia).
  pose proof (inv_length F G n rg hl n t5 (le_n n) I5) as L5. destruct I5 as (J1 & J2 & J3 & J4).
  unfold tri_segment. rewrite L5. rewrite (proj2 (Nat.ltb_lt (n - 1) n)) by (unfold n; lia). rewrite (proj2 (Nat.ltb_lt 0 n)) by (unfold n; lia). cbn [andb].
  rewrite J2, (put_next n G (n - 1)) with (a := (MARKER_INNER, n - 1, 0)%nat); [|unfold n; lia|].
  2:{ unfold G. replace (n - 1 + 1)%nat with n by (unfold n; lia). rewrite Nat.mod_same by (unfold n; lia). unfold ring_side_marker.
      rewrite (proj2 (Nat.ltb_ge (n - 1) nr)) by (unfold n; lia). rewrite (proj2 (Nat.ltb_ge (n - 1) (nr + na))) by (unfold n; lia). rewrite (proj2 (Nat.ltb_ge (n - 1) (nr + na + nr))) by (unfold n; lia). reflexivity. }
  cbn [bind]. unfold tri_region. cbn [ti_points ti_segments ti_regions ti_holes]. rewrite J3, J4. unfold rg, hl. cbn [repeat]. unfold put. cbn -[pow Rinv Rplus n F G repeat seq Nat.sub].
  eexists. split; [reflexivity|]. cbn [ti_points ti_segments ti_regions ti_holes].
  replace (S (n - 1)) with n by (unfold n; lia). rewrite Nat.sub_diag. cbn [repeat]. rewrite app_nil_r.
  rewrite J1, Nat.sub_diag. cbn [repeat]. rewrite app_nil_r. split; [reflexivity|]. split; [reflexivity|]. split; reflexivity.
Qed.
