(* The invariant of the loops of subdivide. *)
From Coq Require Import String Reals QArith Qreals List Lia Lra Bool Arith ZArith Permutation.
From Verif Require Import Base BaseFacts TopoMaps Kind MeshModel TopoModel MeshQuerySpec ShapesModel ShapesSpec ShapesProof
  GeomModel GeomProof GridModel GridSpec PropGrid PadModel PadSpec PadProof PadProof2 PadProof4
  BlockModel BlockSpec BlockProof BlockProof2 BlockProof3 BlockProof4.
From Verif Require Export PosFacts PosSpec PosProof.
Import ListNotations.
Local Open Scope list_scope.
Local Open Scope R_scope.

(* ---------------------------------------------------------------- the invariant *)
Section Inv.
Variables (b : block) (target edge_kind : geokind).
Variable sh : container -> container.
Variable shc : list (nat * nat) -> list (nat * nat).
Hypothesis Hsh : forall c, Permutation (sh c) c.
Hypothesis Hshc : forall l, Permutation (shc l) l.
Hypothesis W : wf_block b.
Hypothesis F : In target (targets (b_ndim b)).
Hypothesis Sp : spaced b target.
Notation nd := (b_ndim b).
Notation nn := (kind_nnode target).
Notation ksi := (node_ksi b target).

(* points whose coordinates are never changed after their creation *)
Definition keep (x : list R) : Prop :=
  has_constraints b = false \/ per target = 1%nat \/
  (exists idx m, valid_index b idx /\ (m < corners nd)%nat /\ x = ksi idx m) \/
  (apart b /\ b_ring b = false /\ exists s, (s < nsides nd)%nat /\ constrained b s /\ at_side nd s x).
(* when the final positions are described *)
Definition good : Prop := b_ring b = false /\ apart b.

Record inv (D : list (list nat)) (K : list (list R)) (st : sub) : Prop := {
  i_from : forall x, In x K -> exists idx m, In idx D /\ valid_index b idx /\ (m < nn)%nat /\ x = ksi idx m;
  i_nodup : NoDup K;
  i_grid : reached (repeat (-1) nd) (repeat 1 nd) None (/ 10000) (/ 100) (combine (seq 0 (List.length K)) K) (s_grid st);
  i_len : List.length (s_points st) = List.length K;
  i_pt : forall q p, nth_error (s_points st) q = Some p -> pt_id p = q /\ pt_marker p = 0%Z /\ List.length (pt_coords p) = nd;
  i_keep : forall q p x, nth_error (s_points st) q = Some p -> nth_error K q = Some x -> keep x -> exists s, place b x = Ok (s, pt_coords p);
  i_placed : forall x, In x K -> exists r, place b x = Ok r;
  i_con : forall q s, In (q, s) (s_con st) -> exists x, nth_error K q = Some x /\ b_ring b = false /\ (s < nsides nd)%nat /\ constrained b s /\ at_side nd s x /\
    exists y, place b x = Ok (Some s, y);
  i_conv : forall q x s y, nth_error K q = Some x -> place b x = Ok (Some s, y) -> In (q, s) (s_con st);
  i_pos : forall q p x, nth_error (s_points st) q = Some p -> nth_error K q = Some x ->
    (exists s, place b x = Ok (s, pt_coords p)) \/ (good -> fin b target x (pt_coords p)) }.
(* the point is where it stays *)
Definition finished (K : list (list R)) (st : sub) (q : nat) : Prop :=
  forall p x, nth_error (s_points st) q = Some p -> nth_error K q = Some x -> good -> fin b target x (pt_coords p).

Lemma in_combine_seq {A} (l : list A) : forall n q x, In (q, x) (combine (seq n (List.length l)) l) <-> (n <= q)%nat /\ nth_error l (q - n) = Some x.
Proof.
  induction l as [|y l IH]; intros n q x; simpl.
  - split; [tauto|]. intros [_ H]. destruct (q - n)%nat; discriminate.
  - rewrite (IH (S n) q x). split.
    + intros [E|[A1 B]]; [injection E as -> ->; split; [lia|rewrite Nat.sub_diag; reflexivity]|].
      split; [lia|]. replace (q - n)%nat with (S (q - S n)) by lia. exact B.
    + intros [A1 B]. destruct (Nat.eq_dec n q) as [->|N].
      * left. rewrite Nat.sub_diag in B. injection B as ->. reflexivity.
      * right. split; [lia|]. replace (q - n)%nat with (S (q - S n)) in B by lia. exact B.
Qed.
Lemma combine_snoc {A} (l : list A) x : combine (seq 0 (List.length (l ++ [x]))) (l ++ [x]) = combine (seq 0 (List.length l)) l ++ [(List.length l, x)].
Proof.
  assert (G : forall n, combine (seq n (List.length (l ++ [x]))) (l ++ [x]) = combine (seq n (List.length l)) l ++ [((n + List.length l)%nat, x)]).
  { induction l as [|y l IH]; intros n; simpl; [rewrite Nat.add_0_r; reflexivity|]. f_equal. rewrite IH. replace (n + S (List.length l))%nat with (S n + List.length l)%nat by lia. reflexivity. }
  apply (G 0%nat).
Qed.
Lemma combine_last (l : list (list R)) q x : nth_error l q = Some x -> last_insertion (combine (seq 0 (List.length l)) l) q x.
Proof.
  intros H. assert (Hin : In (q, x) (combine (seq 0 (List.length l)) l)) by (apply in_combine_seq; split; [lia|rewrite Nat.sub_0_r; auto]).
  apply in_split in Hin as (h1 & h2 & E). exists h1, h2. split; auto.
  assert (N : NoDup (map fst (combine (seq 0 (List.length l)) l))).
  { assert (G : forall n, map fst (combine (seq n (List.length l)) l) = seq n (List.length l)).
    { clear. induction l as [|y l IH]; intros n; simpl; [auto|]. f_equal; auto. }
    rewrite G. apply seq_NoDup. }
  rewrite E, map_app in N. simpl in N. apply NoDup_remove_2 in N. intros Q. apply N. apply in_app_iff. auto.
Qed.
Lemma nodup_nth {A} (l : list A) p q x : NoDup l -> nth_error l p = Some x -> nth_error l q = Some x -> p = q.
Proof.
  intros N Hp Hq. apply (proj1 (NoDup_nth_error l) N); [apply nth_error_Some; congruence|congruence].
Qed.

(* ---------------------------------------------------------------- looking up a node *)
Lemma grid_box D K st y : inv D K st -> List.length y = nd -> (forall a, (a < nd)%nat -> -1 <= nth a y 0 <= 1) -> in_box (g_xmin (s_grid st)) (g_xmax (s_grid st)) y.
Proof.
  intros I L H. eapply C14_limits_cover; [apply (i_grid _ _ _ I)|]. split; [rewrite map_length, repeat_length; auto|].
  intros i Hi. rewrite map_length, repeat_length in Hi. rewrite !(nth_map_in _ _ _ 0) by (rewrite repeat_length; auto).
  rewrite !nth_repeat_in by auto. specialize (H i Hi). lra.
Qed.
Lemma lookup D K st idx m : inv D K st -> valid_index b idx -> (m < nn)%nat ->
  (exists q, grid_search sh (s_grid st) (ksi idx m) = Ok (Some q) /\ nth_error K q = Some (ksi idx m)) \/
  (grid_search sh (s_grid st) (ksi idx m) = Ok None /\ ~ In (ksi idx m) K).
Proof.
  intros I V Hm. set (y := ksi idx m). assert (L : List.length y = nd) by apply node_ksi_length.
  assert (B : in_box (g_xmin (s_grid st)) (g_xmax (s_grid st)) y) by (apply (grid_box D K); auto; intros a Ha; apply ksi_box; auto).
  assert (Snd : forall id, grid_search sh (s_grid st) y = Ok (Some id) -> nth_error K id = Some y).
  { intros id E. destruct (C13_search_sound sh _ _ _ _ _ _ _ y id Hsh (i_grid _ _ _ I) E) as (x & X1 & X2 & X3).
    apply in_combine_seq in X1 as [_ X1]. rewrite Nat.sub_0_r in X1. rewrite X1. f_equal.
    destruct (i_from _ _ _ I x (nth_error_In _ _ X1)) as (idx' & m' & _ & V' & Hm' & ->).
    rewrite repeat_length in X3. destruct (list_eq_dec Nat.eq_dec (lattice target idx' m') (lattice target idx m)) as [Q|Q]; [apply ksi_eq; auto|].
    destruct (ksi_apart b target W F Sp idx' m' idx m V' V Hm' Hm Q) as (a & Ha & D1). exfalso.
    assert (D2 : Rabs (nth a (ksi idx' m') 0 - nth a y 0) <= GeomSpec.euclid (ksi idx' m') y).
    { apply (coord_le_euclid _ _ a); apply nth_error_nth'; rewrite ?L, ?node_ksi_length; auto. }
    unfold tol in D1. fold y in D1. lra. }
  destruct (C14_search_total sh _ _ _ _ _ _ _ y Hsh (i_grid _ _ _ I)) as [T _]. destruct (T B) as ([id|] & E).
  - left. exists id. split; auto.
  - right. split; auto. intros Hin. apply In_nth_error in Hin as (q & Hq).
    destruct (C14_search_complete sh _ _ _ _ _ _ _ q y y Hsh (i_grid _ _ _ I) (combine_last K q y Hq)) as (id' & E'); auto.
    { split; auto. intros i Hi. rewrite Rminus_diag_eq, Rabs_R0 by auto. lra. }
    congruence.
Qed.

(* centre and half widths of a cell *)
Definition cell_center (idx : list nat) : list R := map (fun a => line (widths b a) (nth a idx 0%nat) + nth (nth a idx 0%nat) (widths b a) 0 / 2) (seq 0 nd).
Definition cell_scale (idx : list nat) : list R := map (fun a => nth (nth a idx 0%nat) (widths b a) 0 / 2) (seq 0 nd).
Lemma fill_list (f : nat -> R) (g : list R -> nat -> res (list R)) : (forall l a, (a < nd)%nat -> List.length l = nd -> g l a = Ok (upd l a (f a))) ->
  foldM g (seq 0 nd) (repeat 0 nd) = Ok (map f (seq 0 nd)).
Proof.
  intros H. destruct (w_nd b W) as [E|E]; rewrite E in *; cbn [seq foldM repeat];
    repeat (rewrite H by (try reflexivity; lia); cbn [bind upd]); reflexivity.
Qed.
Lemma node_ksi_computed idx m : valid_index b idx -> (m < nn)%nat ->
  foldM (fun (ksi : list R) a =>
      let! c := get (cell_center idx) a in let! s := get (cell_scale idx) a in let! r := get (ref_coords target m) a in
      set ksi a (c + s * r)) (seq 0 nd) (repeat 0 nd) = Ok (ksi idx m).
Proof.
  intros V Hm. unfold node_ksi. apply fill_list. intros l a Ha L.
  rewrite !(get_ok _ _ 0) by (unfold cell_center, cell_scale; rewrite ?map_length, ?seq_length, ?(ref_length nd target m (w_nd b W) F Hm); auto).
  cbn [bind]. rewrite set_ok by (rewrite L; auto). do 2 f_equal. unfold cell_center, cell_scale.
  rewrite !(nth_map_in _ _ _ 0%nat) by (rewrite seq_length; auto). rewrite !seq_nth by auto. cbn [Nat.add]. field.
Qed.

Definition bad : Prop := b_ring b = false /\ exists idx m s, valid_index b idx /\ (m < nn)%nat /\
  (s < nsides nd)%nat /\ constrained b s /\ at_side nd s (ksi idx m) /\ near b s (block_map b (ksi idx m)).
Definition same_rest (s s' : sub) : Prop := s_cells s' = s_cells s /\ s_me s' = s_me s /\ s_mf s' = s_mf s.
Lemma mput_keep {V} (m : list (nat * V)) k v k' v' : k' <> k -> In (k', v') m -> In (k', v') (mput Nat.eqb m k v).
Proof.
  intros Hn. induction m as [|[a x] m IH]; simpl; [tauto|]. destruct (Nat.eqb_spec a k) as [->|Na]; simpl; intros [H|H]; auto. injection H as -> ->. congruence.
Qed.
Lemma mget_in_nat {V} (m : list (nat * V)) k v : mget Nat.eqb m k = Some v -> In (k, v) m.
Proof. induction m as [|[a x] m IH]; simpl; [discriminate|]. destruct (Nat.eqb_spec a k) as [->|Na]; [intros [= ->]; auto|auto]. Qed.
Lemma add_node_inv D K st pts idx m : inv D K st -> In idx D -> valid_index b idx -> (m < nn)%nat -> (m < List.length pts)%nat ->
  okerr bad (add_node sh b target (cell_center idx) (cell_scale idx) (st, pts) m)
    (fun r => exists K' q, inv D (K ++ K') (fst r) /\ nth_error (K ++ K') q = Some (ksi idx m) /\ snd r = upd pts m q /\ same_rest st (fst r) /\ exists ex, s_points (fst r) = s_points st ++ ex).
Proof.
  intros I Hin V Hm Hp. unfold add_node. rewrite node_ksi_computed by auto. cbn [bind fst snd].
  pose proof (lookup D K st idx m I V Hm) as LK. set (y := ksi idx m) in *. destruct LK as [(q & -> & Hq)|[-> Hq]]; cbn [bind].
  - rewrite set_ok by auto. cbn [bind]. simpl. exists [], q. rewrite app_nil_r. split; [exact I|]. split; [exact Hq|]. split; [reflexivity|]. split; [repeat split|]. exists []. rewrite app_nil_r. reflexivity.
  - assert (B : in_box (g_xmin (s_grid st)) (g_xmax (s_grid st)) y).
    { apply (grid_box D K); auto; [apply node_ksi_length|]. intros a Ha; apply ksi_box; auto. }
    destruct (C14_insert_total _ _ _ _ _ _ _ (List.length (s_points st)) y (i_grid _ _ _ I)) as [T _]. destruct (T B) as (g & -> & G). cbn [bind].
    pose proof (place_spec b y W (node_ksi_length b target idx m) (node_clear b target W F Sp idx m V Hm)) as P.
    eapply okerr_bind; [eapply okerr_mono; [exact (okerr_eq _ _ _ P)| |intros v Hv; exact Hv]|].
    { intros (R1 & s & S1 & S2 & S3 & S4). split; auto. exists idx, m, s. auto 10. }
    intros sx (E & Lx & Hx). rewrite set_ok by auto. cbn [bind]. simpl. exists [y], (List.length K). rewrite (i_len _ _ _ I).
    split; [|split; [|split; [reflexivity|split; [repeat split|eexists; reflexivity]]]].
    2:{ rewrite nth_error_app2 by lia. rewrite Nat.sub_diag. reflexivity. }
    assert (Snoc : forall (A : Type) (l : list A) x q z, nth_error (l ++ [x]) q = Some z -> (nth_error l q = Some z) \/ (q = List.length l /\ z = x)).
    { intros A l x q z Hz. destruct (lt_dec q (List.length l)) as [L|L]; [rewrite nth_error_app1 in Hz by auto; auto|].
      rewrite nth_error_app2 in Hz by lia. destruct (q - List.length l)%nat eqn:Q; [|destruct n; discriminate]. injection Hz as ->. right. split; auto. lia. }
    constructor; cbn [s_grid s_points s_con].
    + intros x Hx'. apply in_app_iff in Hx' as [Hx'|[<- |[]]]; [apply (i_from _ _ _ I); auto|]. exists idx, m. auto.
    + apply nodup_app; [apply (i_nodup _ _ _ I)|constructor; [intros []|constructor]|]. intros x H1 [<- |[]]. auto.
    + rewrite combine_snoc, <- (i_len _ _ _ I). rewrite (i_len _ _ _ I) at 1. exact G.
    + rewrite !app_length, (i_len _ _ _ I). reflexivity.
    + intros q p Hz. apply Snoc in Hz as [Hz|[-> ->]]; [apply (i_pt _ _ _ I); auto|]. cbn. rewrite (i_len _ _ _ I). auto.
    + intros q p x Hz Hk Kp. apply Snoc in Hz as [Hz|[-> ->]].
      * rewrite nth_error_app1 in Hk. 2:{ rewrite <- (i_len _ _ _ I). apply nth_error_Some. congruence. }
        apply (i_keep _ _ _ I q); auto.
      * rewrite (i_len _ _ _ I), nth_error_app2, Nat.sub_diag in Hk by lia. injection Hk as <-. cbn. exists (fst sx). rewrite E. destruct sx; reflexivity.
    + intros x Hx'. apply in_app_iff in Hx' as [Hx'|[<- |[]]]; [apply (i_placed _ _ _ I); auto|eauto].
    + intros q s Hq'. assert (Old : In (q, s) (s_con st) -> exists x, nth_error (K ++ [y]) q = Some x /\ b_ring b = false /\ (s < nsides nd)%nat /\ constrained b s /\ at_side nd s x /\ exists z, place b x = Ok (Some s, z)).
      { intros H. destruct (i_con _ _ _ I q s H) as (x & X1 & X2). exists x. split; auto. rewrite nth_error_app1; auto. apply nth_error_Some. congruence. }
      destruct (fst sx) as [side|] eqn:Es; [|auto]. apply mput_in in Hq' as [[-> ->]|Hq']; [|auto].
      exists y. split; [rewrite nth_error_app2, Nat.sub_diag by lia; reflexivity|].
      assert (Ey : exists z, place b y = Ok (Some side, z)) by (exists (snd sx); rewrite E; destruct sx; cbn in *; congruence). tauto.
    + intros q x s z Hk Ez. apply Snoc in Hk as [Hk|[-> ->]].
      * pose proof (i_conv _ _ _ I q x s z Hk Ez) as Hin'. destruct (fst sx) as [side|]; [|auto]. apply mput_keep; auto.
        assert (q < List.length K)%nat by (apply nth_error_Some; congruence). lia.
      * assert (Es : fst sx = Some s) by (rewrite E in Ez; injection Ez as ->; reflexivity). rewrite Es. apply mget_in_nat. rewrite mget_mput_same; auto. intros; apply Nat.eqb_eq.
    + intros q p x Hz Hk. apply Snoc in Hz as [Hz|[-> ->]].
      * rewrite nth_error_app1 in Hk. 2:{ rewrite <- (i_len _ _ _ I). apply nth_error_Some. congruence. }
        apply (i_pos _ _ _ I q); auto.
      * rewrite (i_len _ _ _ I), nth_error_app2, Nat.sub_diag in Hk by lia. injection Hk as <-. left. cbn. exists (fst sx). rewrite E. destruct sx; reflexivity.
Qed.

(* all nodes of a cell *)
Definition cell_nodes (K : list (list R)) (idx pts : list nat) : Prop :=
  List.length pts = nn /\ forall m, (m < nn)%nat -> exists q, nth_error pts m = Some q /\ nth_error K q = Some (ksi idx m).
Lemma nth_error_grow {A} (K K' : list A) q x : nth_error K q = Some x -> nth_error (K ++ K') q = Some x.
Proof. intros H. rewrite nth_error_app1; auto. apply nth_error_Some. congruence. Qed.
Lemma nth_error_upd {A} (l : list A) i x j : (i < List.length l)%nat -> nth_error (upd l i x) j = if (j =? i)%nat then Some x else nth_error l j.
Proof.
  revert i j. induction l as [|y l IH]; intros i j H; [simpl in H; lia|]. destruct i as [|i], j as [|j]; simpl; auto. apply IH. simpl in H. lia.
Qed.
Lemma nodes_inv D K st idx : inv D K st -> In idx D -> valid_index b idx ->
  okerr bad (foldM (add_node sh b target (cell_center idx) (cell_scale idx)) (seq 0 nn) (st, repeat 0%nat nn))
    (fun r => exists K', inv D (K ++ K') (fst r) /\ cell_nodes (K ++ K') idx (snd r) /\ same_rest st (fst r) /\ exists ex, s_points (fst r) = s_points st ++ ex).
Proof.
  intros I Hin V.
  set (J := fun (done : list nat) (r : sub * list nat) => exists K', inv D (K ++ K') (fst r) /\ (same_rest st (fst r) /\ exists ex, s_points (fst r) = s_points st ++ ex) /\ List.length (snd r) = nn /\
    forall m, In m done -> exists q, nth_error (snd r) m = Some q /\ nth_error (K ++ K') q = Some (ksi idx m)).
  eapply okerr_mono; [apply (okerr_foldM bad J _ _ [])|auto|].
  - exists []. rewrite app_nil_r. simpl. rewrite repeat_length. split; [exact I|]. split; [split; [repeat split|exists []; rewrite app_nil_r; reflexivity]|]. split; [auto|]. tauto.
  - intros done m [s pts] Hm (K' & I' & R & L & N). cbn [fst snd] in *. apply in_seq in Hm.
    eapply okerr_mono; [apply (add_node_inv D (K ++ K') s pts idx m); auto; lia|auto|].
    intros [s' pts'] (K2 & q & I2 & Q & Ep & R2 & ex2 & X2). cbn [fst snd] in *. subst pts'. rewrite <- app_assoc in I2, Q. exists (K' ++ K2). cbn [fst snd].
    split; [exact I2|]. split. { destruct R as ((A1 & A2 & A3) & ex & X), R2 as (B1 & B2 & B3). split; [repeat split; congruence|]. exists (ex ++ ex2). rewrite X2, X, app_assoc. reflexivity. }
    split; [rewrite upd_length; auto|]. intros m' Hm'. rewrite nth_error_upd by lia. destruct (Nat.eqb_spec m' m) as [->|Nm]; [eauto|].
    apply in_app_iff in Hm' as [Hm'|[<- |[]]]; [|contradiction]. destruct (N m' Hm') as (q' & Q1 & Q2). exists q'. split; auto.
    rewrite app_assoc. apply nth_error_grow; auto.
  - intros [s pts] (K' & I' & R & L & N). cbn [fst snd] in *. exists K'. split; auto. split; [split; auto; intros m Hm; apply N; apply in_seq; lia|]. exact R.
Qed.

(* ---------------------------------------------------------------- moving points *)
Lemma copy_ok (x c : list R) : List.length x = nd -> List.length c = nd -> copy_coords nd x c = Ok x.
Proof.
  intros L1 L2. unfold copy_coords. destruct (w_nd b W) as [E|E]; rewrite E in *.
  - destruct (len1 _ L1) as (a1 & a2 & ->). destruct (len1 _ L2) as (b1 & b2 & ->). reflexivity.
  - destruct (len3' _ L1) as (a1 & a2 & a3 & ->). destruct (len3' _ L2) as (b1 & b2 & b3 & ->). reflexivity.
Qed.
Lemma move_inv D K st q y x : inv D K st -> nth_error K q = Some y -> ~ keep y -> List.length x = nd -> (good -> fin b target y x) ->
  exists l, move_point nd (s_points st) q x = Ok l /\ inv D K (with_points st l) /\ finished K (with_points st l) q /\
    forall q', finished K st q' -> finished K (with_points st l) q'.
Proof.
  intros I Hq NK L Fx. assert (Hl : (q < List.length (s_points st))%nat) by (rewrite (i_len _ _ _ I); apply nth_error_Some; congruence).
  destruct (nth_error (s_points st) q) as [p|] eqn:Ep; [|apply nth_error_None in Ep; lia].
  destruct (i_pt _ _ _ I q p Ep) as (P1 & P2 & P3). unfold move_point, get. rewrite Ep. cbn [bind]. rewrite copy_ok by auto. cbn [bind].
  rewrite set_ok by auto. eexists. split; [reflexivity|]. split; [|split].
  2:{ intros p' x' Hp' Hx' G. cbn [s_points with_points] in Hp'. rewrite nth_error_upd, Nat.eqb_refl in Hp' by auto. injection Hp' as <-. cbn [pt_coords].
      assert (x' = y) by congruence. subst x'. auto. }
  2:{ intros q' Fq p' x' Hp' Hx' G. cbn [s_points with_points] in Hp'. rewrite nth_error_upd in Hp' by auto. destruct (Nat.eqb_spec q' q) as [->|_]; [|apply (Fq p' x'); auto].
      injection Hp' as <-. cbn [pt_coords]. assert (x' = y) by congruence. subst x'. auto. }
  constructor; cbn [s_grid s_points s_con with_points].
  - apply (i_from _ _ _ I). - apply (i_nodup _ _ _ I). - apply (i_grid _ _ _ I). - rewrite upd_length. apply (i_len _ _ _ I).
  - intros q' p'. rewrite nth_error_upd by auto. destruct (Nat.eqb_spec q' q) as [->|_]; [|apply (i_pt _ _ _ I)]. intros [= <-]. simpl. auto.
  - intros q' p' x'. rewrite nth_error_upd by auto. destruct (Nat.eqb_spec q' q) as [->|_]; [|apply (i_keep _ _ _ I)].
    intros _ E' Kx. exfalso. apply NK. congruence.
  - apply (i_placed _ _ _ I).
  - apply (i_con _ _ _ I).
  - apply (i_conv _ _ _ I).
  - intros q' p' x'. rewrite nth_error_upd by auto. destruct (Nat.eqb_spec q' q) as [->|_]; [|apply (i_pos _ _ _ I)].
    intros [= <-] E'. right. cbn [pt_coords]. assert (x' = y) by congruence. subst x'. auto.
Qed.

(* the nodes inside an edge with a point moved by a constraint of a side that does not contain the edge *)
Lemma mid_not_keep D K st idx e j j' pid side : inv D K st -> valid_index b idx -> has_constraints b = true -> (e < kind_nedge target)%nat ->
  (2 <= j < kind_edge_nnode target)%nat -> (j' < kind_edge_nnode target)%nat ->
  In (pid, side) (s_con st) -> nth_error K pid = Some (ksi idx (edge_node_id target e j')) -> on_side nd e side = Ok false ->
  ~ keep (ksi idx (edge_node_id target e j)).
Proof.
  intros I V HC He Hj Hj' Hcon Hpid Hon Kp.
  destruct (edge_facts nd target (w_nd b W) F e He) as (E1 & _ & _ & _ & d & Hd & E2 & E3 & E4).
  destruct Kp as [Kp|[Kp|[Kp|(Ap & Rg & s & Hs & Cs & As)]]].
  - congruence.
  - rewrite (per_edge nd target (w_nd b W) F) in Hj. lia.
  - revert Kp. apply (not_corner b target W F Sp); auto; [apply E1; lia|]. exists d. split; auto.
  - destruct (i_con _ _ _ I _ _ Hcon) as (x & X1 & _ & Hs' & Cs' & As' & _). rewrite Hpid in X1. injection X1 as <-.
    apply (at_side_node b target W F Sp) in As; auto; [|apply E1; lia]. apply (at_side_node b target W F Sp) in As'; auto.
    destruct As as [A1 A2], As' as [A3 A4].
    assert (Hx : side_axis nd s <> d). { intros Q. rewrite Q in A2. specialize (E2 j Hj). unfold end_off in A2. destruct (side_high nd s); lia. }
    pose proof (side_axis_lt nd s (w_nd b W) Hs) as Ha. rewrite E3 in A2 by (auto; lia).
    destruct (Nat.eq_dec s side) as [->|N].
    + rewrite (E4 side Hs Hx A2) in Hon. discriminate.
    + pose proof (Ap s side Hs Hs' Cs Cs' N) as X. pose proof (same_axis b W s side Hs Hs' N X) as Hh.
      rewrite <- X in A4. rewrite E3 in A4 by auto. unfold end_off in *. pose proof (per_pos target).
      destruct (side_high nd s), (side_high nd side); try congruence; lia.
Qed.
Lemma interior_not_keep idx i : valid_index b idx -> has_constraints b = true -> (2 <= per target)%nat -> (i < kind_n_interior_nodes target)%nat ->
  ~ keep (ksi idx (interior_node target i)).
Proof.
  intros V HC Hp Hi. destruct (interior_facts nd target (w_nd b W) F i Hi) as (M & O). intros [Kp|[Kp|[Kp|(Ap & Rg & s & Hs & Cs & As)]]].
  - congruence. - lia.
  - revert Kp. apply (not_corner b target W F Sp); auto. exists 0%nat. split; [destruct (w_nd b W) as [-> | ->]; lia|]. apply O. destruct (w_nd b W) as [-> | ->]; lia.
  - apply (at_side_node b target W F Sp) in As; auto. destruct As as [_ A]. specialize (O (side_axis nd s) (side_axis_lt nd s (w_nd b W) Hs)). unfold end_off in A. destruct (side_high nd s); lia.
Qed.

(* the auxiliary pads *)
Lemma aux_pad D K st k pts : inv D K st -> (kind_ndim k <= nd)%nat -> List.length pts = kind_nnode k -> (forall q, In q pts -> exists x, nth_error K q = Some x) ->
  exists p, pad_new nd k = Ok p /\ exists p', mesh_set_pad (s_mesh b st) p pts = Ok p' /\ pad_wf p' /\ p_ok p' = true /\ p_space p' = nd /\ p_kind p' = k /\
    forall a id pt i, nth_error pts a = Some id -> nth_error (s_points st) id = Some pt -> (i < nd)%nat -> node_x p' i a = nth i (pt_coords pt) 0.
Proof.
  intros I Hk L Hp. destruct (pad_new_ok nd k (w_nd b W) Hk) as (p & E & Wp & Kp & S0 & _). exists p. split; auto.
  set (c := mkCell 0 0%Z k pts). set (m := mkMesh nd (s_points st) [c] [] []).
  destruct (mesh_set_pad_ok m c p) as (p' & E' & El & O); auto.
  - split; [intros i q H; apply (i_pt _ _ _ I i q H)|]. intros i c' H. destruct i as [|i]; [|destruct i; discriminate]. injection H as <-.
    split; [auto|]. split; [exact L|]. intros q Hq. destruct (Hp q Hq) as (x & X). cbn. rewrite (i_len _ _ _ I). apply nth_error_Some. congruence.
  - intros q Hq. apply In_nth_error in Hq as (i & Hi). apply (i_pt _ _ _ I i q Hi).
  - left; reflexivity.
  - exists p'. split; [exact E'|]. destruct El as (W' & K' & S' & X'). split; [exact W'|]. split; [exact O|]. split; [exact S'|]. split; [exact K'|]. exact X'.
Qed.
End Inv.
