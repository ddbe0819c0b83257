(* The setters; boxes. *)
From Coq Require Import String Reals QArith Qreals List Lia Lra Bool Arith ZArith.
From Verif Require Import Base BaseFacts TopoMaps Kind MeshModel TopoModel MeshQuerySpec ShapesModel ShapesSpec ShapesProof
  GeomModel GeomProof PadModel PadSpec PadProof PadProof2 PadProof3 PadProof4 BlockModel BlockSpec BlockProof.
Import ListNotations.
Local Open Scope list_scope.
Local Open Scope R_scope.

(* the divisions n with widths d along direction a *)
Lemma div_step_wf b a n d : wf_block b -> (a < b_ndim b)%nat -> (1 <= n)%nat -> List.length d = n -> sum d = 2 ->
  wf_block (with_div b (upd (b_ndiv b) a n) (upd (b_delta b) a d)).
Proof.
  intros W Ha Hn Ld Sd. destruct W. constructor; cbn [b_ndim b_ndiv b_delta b_ec b_fc b_em b_fm b_pad b_args with_div]; auto.
  - now rewrite upd_length.
  - now rewrite upd_length.
  - intros a' Ha'. specialize (w_widths a' Ha'). unfold widths, ndivs in *. cbn [b_delta b_ndiv with_div].
    destruct (Nat.eq_dec a a') as [<-|Ne]; [rewrite !nth_upd_same by lia; auto|rewrite !nth_upd_other by auto; auto].
  - intros a' Ha'. specialize (w_pos a' Ha'). unfold ndivs in *. cbn [b_ndiv with_div].
    destruct (Nat.eq_dec a a') as [<-|Ne]; [rewrite nth_upd_same by lia; auto|rewrite nth_upd_other by auto; auto].
  - intros a' Ha'. specialize (w_sum a' Ha'). unfold widths in *. cbn [b_delta with_div].
    destruct (Nat.eq_dec a a') as [<-|Ne]; [rewrite nth_upd_same by lia; auto|rewrite nth_upd_other by auto; auto].
Qed.

Definition div_step (ndiv : list nat) (st : res unit * block) (i : nat) : res unit * block :=
  match fst st with
  | Ok tt =>
      let b := snd st in
      match get ndiv i with
      | Ok n =>
          if (n <? 1)%nat then (Err "ndiv must be >= 1", b) else
          match set (b_ndiv b) i n, set (b_delta b) i (repeat (1 * NAT_LENGTH / INR n) n) with
          | Ok l, Ok d => (Ok tt, with_div b l d)
          | _, _ => (Panic, b)
          end
      | _ => (Panic, b)
      end
  | _ => st
  end.
Lemma set_ndiv_eq b ndiv : List.length ndiv = b_ndim b -> set_ndiv b ndiv = fold_left (div_step ndiv) (seq 0 (b_ndim b)) (Ok tt, b).
Proof. intros L. unfold set_ndiv. rewrite L, Nat.eqb_refl. reflexivity. Qed.
Lemma set_ndiv_len b ndiv : List.length ndiv <> b_ndim b -> set_ndiv b ndiv = (Err "ndiv.len() must be equal to ndim", b).
Proof. intros L. unfold set_ndiv. apply Nat.eqb_neq in L. rewrite L. reflexivity. Qed.

Lemma div_step_inv l nd st i : wf_block (snd st) -> b_ndim (snd st) = nd -> (i < nd)%nat ->
  wf_block (snd (div_step l st i)) /\ b_ndim (snd (div_step l st i)) = nd.
Proof.
  intros W E Hi. unfold div_step. destruct (fst st) as [[]| | |]; auto. destruct (get l i) as [n| | |]; auto.
  destruct (Nat.ltb_spec n 1); auto.
  rewrite !set_ok; [|rewrite (w_delta _ W); lia|rewrite (w_ndiv _ W); lia]. cbn [snd].
  split; [|exact E]. apply div_step_wf; auto; [lia|apply repeat_length|apply equal_sum; lia].
Qed.
Lemma set_ndiv_wf b l : wf_block b -> wf_block (snd (set_ndiv b l)).
Proof.
  intros W. destruct (Nat.eq_dec (List.length l) (b_ndim b)) as [L|L]; [rewrite set_ndiv_eq by auto|rewrite set_ndiv_len by auto; auto].
  set (nd := b_ndim b). assert (H : forall s, (forall i, In i s -> i < nd)%nat -> forall st, wf_block (snd st) -> b_ndim (snd st) = nd ->
    wf_block (snd (fold_left (div_step l) s st))).
  { induction s as [|i s IH]; intros HI st W0 E0; simpl; auto.
    destruct (div_step_inv l nd st i W0 E0) as (A & B); [apply HI; left; auto|]. apply IH; auto. intros j Hj. apply HI. right; auto. }
  apply H; auto. intros i Hi. apply in_seq in Hi. lia.
Qed.

(* the block after set_ndiv *)
Definition equal_widths (n : nat) : list R := repeat (1 * NAT_LENGTH / INR n) n.
Lemma len1 {A} (l : list A) : List.length l = 2%nat -> exists a b, l = [a; b].
Proof. destruct l as [|a [|b [|c l]]]; try discriminate. eauto. Qed.
Lemma len3' {A} (l : list A) : List.length l = 3%nat -> exists a b c, l = [a; b; c].
Proof. destruct l as [|a [|b [|c [|d l]]]]; try discriminate. eauto. Qed.
Lemma set_ndiv_ok b l : wf_block b -> List.length l = b_ndim b -> (forall n, In n l -> 1 <= n)%nat ->
  set_ndiv b l = (Ok tt, with_div b l (map equal_widths l)).
Proof.
  intros W L H. rewrite set_ndiv_eq by auto. pose proof (w_ndiv b W) as L1. pose proof (w_delta b W) as L2.
  destruct b as [mk nd nv dl ec fc em fm pd ag rg]. cbn in L, L1, L2 |- *. destruct (w_nd _ W) as [E|E]; cbn in E; rewrite E in L, L1, L2 |- *.
  - destruct (len1 _ L) as (a & c & ->). destruct (len1 _ L1) as (n0 & n1 & ->). destruct (len1 _ L2) as (d0 & d1 & ->).
    assert (Ha : (a <? 1)%nat = false) by (apply Nat.ltb_ge, H; simpl; auto). assert (Hc : (c <? 1)%nat = false) by (apply Nat.ltb_ge, H; simpl; auto).
    cbn [seq fold_left]. unfold div_step. cbn [fst snd get nth_error]. rewrite Ha, Hc. reflexivity.
  - destruct (len3' _ L) as (a & c & e & ->). destruct (len3' _ L1) as (n0 & n1 & n2 & ->). destruct (len3' _ L2) as (d0 & d1 & d2 & ->).
    assert (Ha : (a <? 1)%nat = false) by (apply Nat.ltb_ge, H; simpl; auto). assert (Hc : (c <? 1)%nat = false) by (apply Nat.ltb_ge, H; simpl; auto).
    assert (He : (e <? 1)%nat = false) by (apply Nat.ltb_ge, H; simpl; auto).
    cbn [seq fold_left]. unfold div_step. cbn [fst snd get nth_error]. rewrite Ha, Hc, He. reflexivity.
Qed.
(* otherwise: the directions before the first zero have been changed *)
Lemma set_ndiv_zero b l i : wf_block b -> List.length l = b_ndim b -> nth_error l i = Some 0%nat ->
  (forall j n, (j < i)%nat -> nth_error l j = Some n -> 1 <= n)%nat ->
  set_ndiv b l = (Err "ndiv must be >= 1",
    with_div b (firstn i l ++ skipn i (b_ndiv b)) (map equal_widths (firstn i l) ++ skipn i (b_delta b))).
Proof.
  intros W L Hz H. rewrite set_ndiv_eq by auto. pose proof (w_ndiv b W) as L1. pose proof (w_delta b W) as L2.
  assert (NZ : forall n, (n <? 1)%nat = (n =? 0)%nat) by (intros [|n]; reflexivity).
  destruct b as [mk nd nv dl ec fc em fm pd ag rg]. cbn in L, L1, L2 |- *. destruct (w_nd _ W) as [E|E]; cbn in E; rewrite E in L, L1, L2 |- *.
  - destruct (len1 _ L) as (a & c & ->). destruct (len1 _ L1) as (n0 & n1 & ->). destruct (len1 _ L2) as (d0 & d1 & ->).
    destruct i as [|[|i]]; cbn in Hz; [injection Hz as -> | injection Hz as -> |destruct i; discriminate].
    + reflexivity.
    + assert (Ha : (a <? 1)%nat = false) by (apply Nat.ltb_ge, (H 0%nat); auto).
      cbn [seq fold_left]. unfold div_step. cbn [fst snd get nth_error]. rewrite Ha. reflexivity.
  - destruct (len3' _ L) as (a & c & e & ->). destruct (len3' _ L1) as (n0 & n1 & n2 & ->). destruct (len3' _ L2) as (d0 & d1 & d2 & ->).
    destruct i as [|[|[|i]]]; cbn in Hz; [injection Hz as -> | injection Hz as -> | injection Hz as -> |destruct i; discriminate].
    + reflexivity.
    + assert (Ha : (a <? 1)%nat = false) by (apply Nat.ltb_ge, (H 0%nat); auto).
      cbn [seq fold_left]. unfold div_step. cbn [fst snd get nth_error]. rewrite Ha. reflexivity.
    + assert (Ha : (a <? 1)%nat = false) by (apply Nat.ltb_ge, (H 0%nat); auto).
      assert (Hc : (c <? 1)%nat = false) by (apply Nat.ltb_ge, (H 1%nat); auto).
      cbn [seq fold_left]. unfold div_step. cbn [fst snd get nth_error]. rewrite Ha, Hc. reflexivity.
Qed.
Lemma first_zero l : In 0%nat l -> exists i, nth_error l i = Some 0%nat /\ forall j n, (j < i)%nat -> nth_error l j = Some n -> (1 <= n)%nat.
Proof.
  induction l as [|x l IH]; intros H; [destruct H|]. destruct x as [|x].
  - exists 0%nat. split; auto. intros; lia.
  - destruct H as [H|H]; [discriminate|]. destruct (IH H) as (i & A & B). exists (S i). split; auto.
    intros [|j] n Hj E; [injection E as <-; lia|]. apply (B j); auto. lia.
Qed.

(* ---------------------------------------------------------------- weights *)
Lemma w2_ok b wx wy : wf_block b -> b_ndim b = 2%nat -> wx <> [] -> wy <> [] -> 1 <= sum wx -> 1 <= sum wy ->
  set_div_weights_2d b wx wy = (Ok tt, with_div b [List.length wx; List.length wy] [scaled wx; scaled wy]).
Proof.
  intros W E Nx Ny Sx Sy. pose proof (w_ndiv b W) as L1. pose proof (w_delta b W) as L2. unfold set_div_weights_2d. rewrite E in *. cbn [Nat.eqb negb].
  destruct wx as [|x wx]; [congruence|]. destruct wy as [|y wy]; [congruence|].
  change (List.length (x :: wx) <? 1)%nat with false. change (List.length (y :: wy) <? 1)%nat with false. cbn iota.
  rewrite (proj2 (Rltb_false _ _)) by (rewrite sum_w_sum; exact Sx). rewrite (proj2 (Rltb_false _ _)) by (rewrite sum_w_sum; exact Sy).
  destruct (len1 _ L1) as (n0 & n1 & ->). destruct (len1 _ L2) as (d0 & d1 & ->). reflexivity.
Qed.
Lemma w2_err b wx wy : (b_ndim b <> 2%nat \/ wx = [] \/ wy = [] \/ sum wx < 1 \/ sum wy < 1) ->
  exists msg, set_div_weights_2d b wx wy = (Err msg, b).
Proof.
  intros H. unfold set_div_weights_2d. destruct (Nat.eqb_spec (b_ndim b) 2) as [E|E]; cbn [negb]; [|eauto].
  destruct (Nat.ltb_spec (List.length wx) 1) as [A|A]; [eauto|]. destruct (Nat.ltb_spec (List.length wy) 1) as [B|B]; [eauto|].
  destruct (Rltb (sum_w wx) 1) eqn:C; [eauto|]. destruct (Rltb (sum_w wy) 1) eqn:D; [eauto|]. exfalso.
  apply Rltb_false in C, D. rewrite sum_w_sum in C, D. destruct H as [H|[->|[->|[H|H]]]]; try (simpl in *; lia); try lra.
Qed.
Lemma w3_ok b wx wy wz : wf_block b -> b_ndim b = 3%nat -> wx <> [] -> wy <> [] -> wz <> [] -> 1 <= sum wx -> 1 <= sum wy -> 1 <= sum wz ->
  set_div_weights_3d b wx wy wz =
    (Ok tt, with_div b [List.length wx; List.length wy; List.length wz] [scaled wx; scaled wy; scaled wz]).
Proof.
  intros W E Nx Ny Nz Sx Sy Sz. pose proof (w_ndiv b W) as L1. pose proof (w_delta b W) as L2. unfold set_div_weights_3d. rewrite E in *. cbn [Nat.eqb negb].
  destruct wx as [|x wx]; [congruence|]. destruct wy as [|y wy]; [congruence|]. destruct wz as [|z wz]; [congruence|].
  change (List.length (x :: wx) <? 1)%nat with false. change (List.length (y :: wy) <? 1)%nat with false.
  change (List.length (z :: wz) <? 1)%nat with false. cbn iota.
  rewrite (proj2 (Rltb_false _ _)) by (rewrite sum_w_sum; exact Sx). rewrite (proj2 (Rltb_false _ _)) by (rewrite sum_w_sum; exact Sy).
  rewrite (proj2 (Rltb_false _ _)) by (rewrite sum_w_sum; exact Sz).
  destruct (len3' _ L1) as (n0 & n1 & n2 & ->). destruct (len3' _ L2) as (d0 & d1 & d2 & ->). reflexivity.
Qed.
Lemma w3_err b wx wy wz : (b_ndim b <> 3%nat \/ wx = [] \/ wy = [] \/ wz = [] \/ sum wx < 1 \/ sum wy < 1 \/ sum wz < 1) ->
  exists msg, set_div_weights_3d b wx wy wz = (Err msg, b).
Proof.
  intros H. unfold set_div_weights_3d. destruct (Nat.eqb_spec (b_ndim b) 3) as [E|E]; cbn [negb]; [|eauto].
  destruct (Nat.ltb_spec (List.length wx) 1) as [A|A]; [eauto|]. destruct (Nat.ltb_spec (List.length wy) 1) as [B|B]; [eauto|].
  destruct (Nat.ltb_spec (List.length wz) 1) as [B'|B']; [eauto|].
  destruct (Rltb (sum_w wx) 1) eqn:C; [eauto|]. destruct (Rltb (sum_w wy) 1) eqn:D; [eauto|]. destruct (Rltb (sum_w wz) 1) eqn:F; [eauto|]. exfalso.
  apply Rltb_false in C, D, F. rewrite sum_w_sum in C, D, F. destruct H as [H|[->|[->|[->|[H|[H|H]]]]]]; try (simpl in *; lia); try lra.
Qed.

(* directions set one after the other *)
Lemma w2_wf b wx wy : wf_block b -> wf_block (snd (set_div_weights_2d b wx wy)).
Proof.
  intros W. destruct (Nat.eq_dec (b_ndim b) 2) as [E|E]; [|destruct (w2_err b wx wy) as (m & ->); auto].
  destruct wx as [|x wx]; [destruct (w2_err b [] wy) as (m & ->); auto|].
  destruct wy as [|y wy]; [destruct (w2_err b (x :: wx) []) as (m & ->); auto|].
  destruct (Rle_lt_dec 1 (sum (x :: wx))) as [Sx|Sx]; [|destruct (w2_err b (x :: wx) (y :: wy)) as (m & ->); auto].
  destruct (Rle_lt_dec 1 (sum (y :: wy))) as [Sy|Sy]; [|destruct (w2_err b (x :: wx) (y :: wy)) as (m & ->); auto 6].
  rewrite w2_ok by (auto; discriminate). cbn [snd].
  pose proof (div_step_wf b 0 (List.length (x :: wx)) (scaled (x :: wx)) W) as W1.
  assert (W1' := W1 ltac:(lia) ltac:(simpl; lia) (scaled_length _) ltac:(apply scaled_sum; rewrite sum_w_sum; auto)). clear W1.
  pose proof (div_step_wf _ 1 (List.length (y :: wy)) (scaled (y :: wy)) W1') as W2. cbn [b_ndim b_ndiv b_delta with_div] in W2.
  specialize (W2 ltac:(lia) ltac:(simpl; lia) (scaled_length _) ltac:(apply scaled_sum; rewrite sum_w_sum; auto)).
  pose proof (w_ndiv b W) as L1. pose proof (w_delta b W) as L2. rewrite E in *. destruct (len1 _ L1) as (n0 & n1 & E1). destruct (len1 _ L2) as (d0 & d1 & E2).
  rewrite E1, E2 in W2. exact W2.
Qed.
Lemma w3_wf b wx wy wz : wf_block b -> wf_block (snd (set_div_weights_3d b wx wy wz)).
Proof.
  intros W. destruct (Nat.eq_dec (b_ndim b) 3) as [E|E]; [|destruct (w3_err b wx wy wz) as (m & ->); auto].
  destruct wx as [|x wx]; [destruct (w3_err b [] wy wz) as (m & ->); auto|].
  destruct wy as [|y wy]; [destruct (w3_err b (x :: wx) [] wz) as (m & ->); auto|].
  destruct wz as [|z wz]; [destruct (w3_err b (x :: wx) (y :: wy) []) as (m & ->); auto|].
  destruct (Rle_lt_dec 1 (sum (x :: wx))) as [Sx|Sx]; [|destruct (w3_err b (x :: wx) (y :: wy) (z :: wz)) as (m & ->); auto 8].
  destruct (Rle_lt_dec 1 (sum (y :: wy))) as [Sy|Sy]; [|destruct (w3_err b (x :: wx) (y :: wy) (z :: wz)) as (m & ->); auto 8].
  destruct (Rle_lt_dec 1 (sum (z :: wz))) as [Sz|Sz]; [|destruct (w3_err b (x :: wx) (y :: wy) (z :: wz)) as (m & ->); auto 10].
  rewrite w3_ok by (auto; discriminate). cbn [snd].
  pose proof (div_step_wf b 0 (List.length (x :: wx)) (scaled (x :: wx)) W) as W1.
  assert (W1' := W1 ltac:(lia) ltac:(simpl; lia) (scaled_length _) ltac:(apply scaled_sum; rewrite sum_w_sum; auto)). clear W1.
  pose proof (div_step_wf _ 1 (List.length (y :: wy)) (scaled (y :: wy)) W1') as W2. cbn [b_ndim b_ndiv b_delta with_div] in W2.
  specialize (W2 ltac:(lia) ltac:(simpl; lia) (scaled_length _) ltac:(apply scaled_sum; rewrite sum_w_sum; auto)).
  pose proof (div_step_wf _ 2 (List.length (z :: wz)) (scaled (z :: wz)) W2) as W3. cbn [b_ndim b_ndiv b_delta with_div] in W3.
  specialize (W3 ltac:(lia) ltac:(simpl; lia) (scaled_length _) ltac:(apply scaled_sum; rewrite sum_w_sum; auto)).
  pose proof (w_ndiv b W) as L1. pose proof (w_delta b W) as L2. rewrite E in *. destruct (len3' _ L1) as (n0 & n1 & n2 & E1). destruct (len3' _ L2) as (d0 & d1 & d2 & E2).
  rewrite E1, E2 in W3. exact W3.
Qed.

(* ---------------------------------------------------------------- maps *)
Lemma mput_in {V} (m : list (nat * V)) k v k' v' : In (k', v') (mput Nat.eqb m k v) -> (k' = k /\ v' = v) \/ In (k', v') m.
Proof.
  induction m as [|[a x] m IH]; simpl; [intros [H|[]]; injection H as <- <-; auto|].
  destruct (Nat.eqb_spec a k) as [->|N]; simpl; intros [H|H]; auto. { injection H as <- <-; auto. } apply IH in H as [H|H]; auto.
Qed.
Lemma mdel_in {V} (m : list (nat * V)) k e : In e (mdel m k) <-> In e m /\ fst e <> k.
Proof. unfold mdel. rewrite filter_In, negb_true_iff, Nat.eqb_neq. reflexivity. Qed.
Lemma mget_mdel {V} (m : list (nat * V)) k k' : mget Nat.eqb (mdel m k) k' = if (k' =? k)%nat then None else mget Nat.eqb m k'.
Proof.
  induction m as [|[a x] m IH]; simpl; [destruct (k' =? k)%nat; reflexivity|].
  destruct (Nat.eqb_spec a k) as [->|N]; simpl.
  - rewrite IH. destruct (Nat.eqb_spec k' k) as [E|N]; auto. destruct (Nat.eqb_spec k k'); congruence.
  - destruct (Nat.eqb_spec a k') as [->|N'].
    + destruct (Nat.eqb_spec k' k); congruence.
    + rewrite IH. reflexivity.
Qed.

Ltac keep W := destruct W; constructor; cbn [b_ndim b_ndiv b_delta b_ec b_fc b_em b_fm b_pad b_args with_ec with_fc with_em with_fm with_ring with_marker]; auto.
Lemma marker_wf b v : wf_block b -> wf_block (set_marker b v).
Proof. intros W. unfold set_marker. keep W. Qed.
Lemma ec_wf b e c : wf_block b -> wf_block (snd (set_edge_constraint b e c)).
Proof.
  intros W. unfold set_edge_constraint. destruct (Nat.eqb_spec (b_ndim b) 2) as [E|E]; cbn [negb]; [|auto].
  destruct (Nat.ltb_spec 3 e); [auto|]. cbn [snd]. keep W; [intros; lia|].
  intros s k HI. destruct c as [c|].
  - apply mput_in in HI as [(-> & _)|HI]; [lia|eauto].
  - apply mdel_in in HI as (HI & _). eauto.
Qed.
Lemma fc_wf b e c : wf_block b -> wf_block (snd (set_face_constraint b e c)).
Proof.
  intros W. unfold set_face_constraint. destruct (Nat.eqb_spec (b_ndim b) 3) as [E|E]; cbn [negb]; [|auto].
  destruct (Nat.ltb_spec 5 e); [auto|]. cbn [snd]. keep W; [intros; lia|].
  intros s k HI. destruct c as [c|].
  - apply mput_in in HI as [(-> & _)|HI]; [lia|eauto].
  - apply mdel_in in HI as (HI & _). eauto.
Qed.
Lemma em_wf b e v : wf_block b -> wf_block (snd (set_edge_marker b e v)).
Proof.
  intros W. unfold set_edge_marker. destruct (w_nd b W) as [E|E]; rewrite E; cbn [Nat.eqb negb andb].
  - destruct (Nat.ltb_spec 3 e); [auto|]. cbn [snd]. keep W. rewrite E in *. cbn [Nat.eqb] in *.
    intros s k HI. apply mput_in in HI as [(-> & _)|HI]; [lia|eauto].
  - destruct (Nat.ltb_spec 11 e); [auto|]. cbn [snd]. keep W. rewrite E in *. cbn [Nat.eqb] in *.
    intros s k HI. apply mput_in in HI as [(-> & _)|HI]; [lia|eauto].
Qed.
Lemma fm_wf b e v : wf_block b -> wf_block (snd (set_face_marker b e v)).
Proof.
  intros W. unfold set_face_marker. destruct (Nat.eqb_spec (b_ndim b) 3) as [E|E]; cbn [negb]; [|auto].
  destruct (Nat.ltb_spec 5 e); [auto|]. cbn [snd]. keep W; [intros; lia|].
  intros s k HI. apply mput_in in HI as [(-> & _)|HI]; [lia|eauto].
Qed.
Lemma ring_cases b a : let r := set_transform_into_ring b (Some a) in
  (good_ring a /\ r = (Ok tt, with_ring b a true)) \/ (~ good_ring a /\ exists msg, r = (Err msg, b)).
Proof.
  cbn. unfold good_ring. destruct (Rleb (amax a) (amin a)) eqn:E1.
  { right. apply Rleb_iff in E1. split; [lra|eauto]. }
  destruct (Rleb (rmax a) (rmin a)) eqn:E2. { right. apply Rleb_iff in E2. split; [lra|eauto]. }
  destruct (Rleb (zmax a) (zmin a)) eqn:E3. { right. apply Rleb_iff in E3. split; [lra|eauto]. }
  apply Rleb_false in E1, E2, E3.
  destruct (Rltb (amin a) 0) eqn:E4; cbn [orb]. { right. apply Rltb_iff in E4. split; [lra|eauto]. }
  destruct (Rltb (PI / 2) (amin a)) eqn:E5; cbn [orb]. { right. apply Rltb_iff in E5. split; [lra|eauto]. }
  apply Rltb_false in E4, E5.
  destruct (Rltb (amax a) 0) eqn:E6; cbn [orb]. { right. apply Rltb_iff in E6. split; [lra|eauto]. }
  destruct (Rltb (PI / 2) (amax a)) eqn:E7; cbn [orb]. { right. apply Rltb_iff in E7. split; [lra|eauto]. }
  apply Rltb_false in E6, E7. left. split; [lra|reflexivity].
Qed.
Lemma ring_wf b a : wf_block b -> wf_block (snd (set_transform_into_ring b a)).
Proof.
  intros W. destruct a as [a|]; [|cbn; keep W].
  destruct (ring_cases b a) as [(G & ->)|(_ & m & ->)]; cbn [snd]; auto. keep W.
Qed.

Lemma made_wf zdet b : 0 <= zdet -> made zdet b -> wf_block b.
Proof.
  intros Hz H. induction H; auto using marker_wf, set_ndiv_wf, w2_wf, w3_wf, ec_wf, fc_wf, em_wf, fm_wf, ring_wf.
  eapply new_wf; eauto.
Qed.

(* ---------------------------------------------------------------- boxes *)
Definition box_2d (x0 y0 lx ly : R) : mat := [[x0; y0]; [x0 + lx; y0]; [x0 + lx; y0 + ly]; [x0; y0 + ly]].
Lemma ref_coords_qua8 : forall m, (m < 8)%nat -> ref_coords Qua8 m =
  nth m [[-1; -1]; [1; -1]; [1; 1]; [-1; 1]; [0; -1]; [1; 0]; [0; 1]; [-1; 0]] [].
Proof.
  intros m Hm. unfold ref_coords. do 8 (destruct m as [|m]; [cbn; unfold Q2R; cbn; repeat f_equal; lra|]). lia.
Qed.
Lemma box_2d_det x0 y0 lx ly d : det_center 2 (box_2d x0 y0 lx ly) d -> d = lx * ly / 4.
Proof.
  intros (p & a & W & K & S & [H1 H2] & J & ->). change (bkind 2) with Qua8 in *.
  set (A := fun i j => match i, j with 0%nat, 0%nat => lx / 2 | 1%nat, 1%nat => ly / 2 | _, _ => 0 end).
  set (b := fun i => match i with 0%nat => x0 + lx / 2 | _ => y0 + ly / 2 end).
  assert (AP : affine_pad p A b).
  { intros i m Hi Hm. rewrite S in Hi. rewrite K in Hm |- *. change (m < 8)%nat in Hm. change (kind_ndim Qua8) with 2%nat.
    rewrite ref_coords_qua8 by auto. specialize (H2 eq_refl).
    assert (C : forall q, (q < 4)%nat -> node_x p i q = nth i (nth q (box_2d x0 y0 lx ly) []) 0) by (intros q Hq; apply H1; simpl; lia).
    assert (M0 := H2 0%nat i ltac:(vm_compute; lia) Hi). assert (M1 := H2 1%nat i ltac:(vm_compute; lia) Hi).
    assert (M2 := H2 2%nat i ltac:(vm_compute; lia) Hi). assert (M3 := H2 3%nat i ltac:(vm_compute; lia) Hi).
    cbn in M0, M1, M2, M3.
    do 8 (destruct m as [|m]; [first [rewrite M0 | rewrite M1 | rewrite M2 | rewrite M3 | idtac]; rewrite !C by lia;
      destruct i as [|[|i]]; [| |lia]; unfold A, b, sum_n, box_2d; cbn; lra|]). lia. }
  assert (J' : jacobian_of p (repeat 0 2) A) by (apply (affine_jacobian p A b); auto; rewrite K; reflexivity).
  transitivity (det 2 A); [|unfold A; cbn; lra]. apply det_ext. intros i j Hi Hj. apply (jacobian_unique p (repeat 0 2)); auto; rewrite ?S, ?K; auto.
Qed.
Lemma box_2d_ok zdet x0 y0 lx ly : 0 <= zdet -> zdet < lx * ly / 4 ->
  exists p, block_new zdet 2 (box_2d x0 y0 lx ly) =
    Ok (mkBlock MARKER 2 [2; 2]%nat [[1; 1]; [1; 1]] [] [] [] [] p (mkRing 0 (PI / 2) 1 2 0 1) false) /\
  holds_nodes 2 (box_2d x0 y0 lx ly) p.
Proof.
  intros Hz H. destruct (new_fields zdet 2 (box_2d x0 y0 lx ly) Hz) as (d & D & A & _).
  { split; [left; reflexivity|left; reflexivity]. }
  { intros m Hm. simpl in Hm. do 4 (destruct m as [|m]; [reflexivity|]). lia. }
  rewrite (box_2d_det _ _ _ _ _ D) in A. destruct (A H) as (p & W & K & S & O & HN & E). exists p. split; [|auto].
  rewrite E. cbn [repeat]. unfold NAT_LENGTH. replace (2 / INR 2) with 1 by (simpl; lra). reflexivity.
Qed.
