(* Pseudo-peripheral vertex, bandwidth, renumbering *)
From Coq Require Import String List Arith Bool Lia Sorted Permutation ZArith.
From Verif Require Import Base BaseFacts MeshModel GraphModel GraphSpec GraphVocab GraphProof GraphProof2 GraphProof3.
Import ListNotations.
Open Scope nat_scope.

(** pseudo-peripheral *)
Definition best_ok (D G : list nat) (mx k : nat) (best : option nat * option nat) : Prop :=
  match best with
  | (None, None) => forall j, j < k -> nth j D 0 <> mx
  | (Some d, Some r) => r < k /\ nth r D 0 = mx /\ nth r G 0 = d /\
       forall j, j < k -> nth j D 0 = mx -> d < nth j G 0 \/ (d = nth j G 0 /\ r <= j)
  | _ => False
  end.

Lemma skipn_cons {A} (l : list A) i x t d : skipn i l = x :: t -> nth i l d = x /\ skipn (S i) l = t /\ i < List.length l.
Proof.
  revert i. induction l as [|y l IH]; intros [|i]; simpl; intros H; try discriminate.
  - inversion H; subst. repeat split. lia.
  - destruct (IH i H) as (A1 & A2 & A3). repeat split; auto. lia.
Qed.

Lemma next_root_spec D G mx : List.length D = List.length G -> forall dist deg i best,
  dist = skipn i D -> deg = skipn i G -> i <= List.length D -> best_ok D G mx i best ->
  best_ok D G mx (List.length D) (next_root_loop i dist deg mx best).
Proof.
  intros L. induction dist as [|x dist IH]; intros deg i best HD HG Hi HB; simpl.
  - assert (List.length (skipn i D) = 0) by (rewrite <- HD; reflexivity).
    rewrite skipn_length in H. replace (List.length D) with i by lia. exact HB.
  - destruct deg as [|y deg].
    + exfalso. assert (List.length (skipn i G) = 0) by (rewrite <- HG; reflexivity).
      assert (List.length (skipn i D) > 0) by (rewrite <- HD; simpl; lia).
      rewrite skipn_length in *. lia.
    + symmetry in HD, HG. destruct (skipn_cons _ _ _ _ 0 HD) as (D1 & D2 & D3).
      destruct (skipn_cons _ _ _ _ 0 HG) as (G1 & G2 & G3).
      apply IH; auto; try lia.
      destruct (Nat.eqb_spec x mx) as [->|N].
      * destruct best as [[d|] [r|]]; simpl in HB; try contradiction; simpl.
        -- destruct HB as (B1 & B2 & B3 & B4). destruct (Nat.ltb_spec y d).
           ++ simpl. repeat split; auto. intros j Hj Hm. destruct (Nat.eq_dec j i) as [->|Hn]; [right; lia|].
              left. specialize (B4 j ltac:(lia) Hm). lia.
           ++ simpl. repeat split; auto. intros j Hj Hm. destruct (Nat.eq_dec j i) as [->|Hn]; [|apply B4; lia].
              rewrite G1. lia.
        -- repeat split; auto. intros j Hj Hm. destruct (Nat.eq_dec j i) as [->|Hn]; [right; lia|].
           exfalso. apply (HB j); auto. lia.
      * destruct best as [[d|] [r|]]; simpl in HB; try contradiction; simpl.
        -- destruct HB as (B1 & B2 & B3 & B4). repeat split; auto. intros j Hj Hm.
           destruct (Nat.eq_dec j i) as [->|Hn]; [congruence|]. apply B4; auto. lia.
        -- intros j Hj. destruct (Nat.eq_dec j i) as [->|Hn]; [congruence|]. apply HB. lia.
Qed.

Lemma maxd_attained l : l <> [] -> exists i, i < List.length l /\ nth i l 0 = maxd l.
Proof.
  intros H. destruct (fold_max l 0) as (_ & B & C). fold (maxd l) in *.
  destruct C as [C|C].
  - destruct l as [|x l]; [congruence|]. exists 0. split; [simpl; lia|]. rewrite C. specialize (B x (or_introl eq_refl)).
    simpl. lia.
  - apply (In_nth _ _ 0) in C. exact C.
Qed.

Lemma walk_sym (R : nat -> nat -> Prop) : (forall x y, R x y -> R y x) -> forall u v k, walk R u v k -> walk R v u k.
Proof.
  intros H u v k W. induction W as [|u v w k HE HW IH]; [constructor|].
  rewrite <- Nat.add_1_r. eapply walk_app; [exact IH|]. apply walk_one. auto.
Qed.
Lemma dist_sym (R : nat -> nat -> Prop) u v d : (forall x y, R x y -> R y x) -> is_dist R u v d -> is_dist R v u d.
Proof. intros H [A B]. split; [apply walk_sym; auto|]. intros k Hk. apply B, walk_sym; auto. Qed.

Lemma ecc_fun R n u e e' : is_ecc R n u e -> is_ecc R n u e' -> e = e'.
Proof.
  intros [(v & Hv & A) B] [(v' & Hv' & A') B']. specialize (B _ _ Hv' A'). specialize (B' _ _ Hv A). lia.
Qed.

Section PP.
Variable g : graph.
Hypothesis W : in_bounds (adjacency g).
Hypothesis Sym : forall u v, edge g u v -> edge g v u.
Hypothesis Con : connected (edge g) (nv g).
Hypothesis Deg : List.length (degree g) = nv g.

Lemma calc_distance_conn root mx dist : root < nv g -> calc_distance g root = Ok (mx, dist) ->
  List.length dist = nv g /\ is_ecc (edge g) (nv g) root mx /\
  (forall v, v < nv g -> is_dist (edge g) root v (nth v dist 0)) /\
  (exists v, v < nv g /\ nth v dist 0 = mx).
Proof.
  intros Hr H. destruct (calc_distance_correct g root W Hr) as (mx' & dist' & H' & L & A & _ & Ec).
  rewrite H in H'. inversion H'; subst. split; auto. split; auto.
  assert (AA : forall v, v < nv g -> is_dist (edge g) root v (nth v dist' 0)) by (intros v Hv; apply A; auto).
  split; auto. destruct Ec as [(v & Hv & Hd) _]. exists v. split; auto. eapply is_dist_fun; eauto.
Qed.

Lemma next_root_ok root mx dist : root < nv g -> calc_distance g root = Ok (mx, dist) ->
  exists r, snd (next_root_loop 0 dist (degree g) mx (None, None)) = Some r /\ r < nv g /\
    is_dist (edge g) root r mx /\
    forall v, v < nv g -> is_dist (edge g) root v mx ->
      nth r (degree g) 0 < nth v (degree g) 0 \/ (nth r (degree g) 0 = nth v (degree g) 0 /\ r <= v).
Proof.
  intros Hr H. destruct (calc_distance_conn root mx dist Hr H) as (L & Ec & A & v & Hv & Hm).
  pose proof (next_root_spec dist (degree g) mx ltac:(lia) dist (degree g) 0 (None, None) eq_refl eq_refl ltac:(lia)
     ltac:(simpl; intros; lia)) as B. rewrite L in B.
  destruct (next_root_loop 0 dist (degree g) mx (None, None)) as [[d|] [r|]]; simpl in B; try contradiction.
  - destruct B as (B1 & B2 & B3 & B4). exists r. split; [reflexivity|]. split; auto. split.
    + rewrite <- B2. auto.
    + intros w Hw Hd. rewrite B3. apply B4; auto. eapply is_dist_fun; eauto.
  - exfalso. apply (B v); auto.
Qed.

Lemma pp_loop_spec : forall it root mx dist r, root < nv g -> calc_distance g root = Ok (mx, dist) ->
  pp_loop g it root mx dist = Ok r ->
  exists u e, u < nv g /\ r < nv g /\ is_ecc (edge g) (nv g) u e /\ is_ecc (edge g) (nv g) r e /\
    is_dist (edge g) u r e /\ mx <= e /\
    forall v, v < nv g -> is_dist (edge g) u v e ->
      nth r (degree g) 0 < nth v (degree g) 0 \/ (nth r (degree g) 0 = nth v (degree g) 0 /\ r <= v).
Proof.
  induction it as [|it IH]; intros root mx dist r Hr H HP; simpl in HP; [discriminate|].
  destruct (next_root_ok root mx dist Hr H) as (r1 & E1 & L1 & D1 & M1). rewrite E1 in HP.
  destruct (calc_distance_correct g r1 W L1) as (mx1 & dist1 & H1 & _ & _ & _ & Ec1).
  rewrite H1 in HP. cbn [bind fst snd] in HP.
  destruct (calc_distance_conn root mx dist Hr H) as (_ & Ec & _ & _).
  assert (Hge : mx <= mx1) by (apply (proj2 Ec1 root); auto; apply dist_sym; auto).
  destruct (Nat.eqb_spec mx1 mx) as [->|N].
  - inversion HP; subst r1. exists root, mx. repeat (split; auto).
  - destruct (IH r1 mx1 dist1 r L1 H1 HP) as (u & e & I1 & I2 & I3 & I4 & I5 & I6 & I7).
    exists u, e. repeat (split; auto). lia.
Qed.

Lemma pp_loop_total : forall it root mx dist, root < nv g -> calc_distance g root = Ok (mx, dist) ->
  (forall v e, v < nv g -> is_ecc (edge g) (nv g) v e -> e < mx + it) ->
  exists r, pp_loop g it root mx dist = Ok r.
Proof.
  induction it as [|it IH]; intros root mx dist Hr H HB; simpl.
  - destruct (calc_distance_conn root mx dist Hr H) as (_ & Ec & _ & _). specialize (HB root mx Hr Ec). lia.
  - destruct (next_root_ok root mx dist Hr H) as (r1 & E1 & L1 & D1 & M1). rewrite E1.
    destruct (calc_distance_correct g r1 W L1) as (mx1 & dist1 & H1 & _ & _ & _ & Ec1).
    rewrite H1. cbn [bind fst snd].
    destruct (calc_distance_conn root mx dist Hr H) as (_ & Ec & _ & _).
    assert (Hge : mx <= mx1) by (apply (proj2 Ec1 root); auto; apply dist_sym; auto).
    destruct (Nat.eqb_spec mx1 mx) as [->|N]; [eauto|].
    apply (IH r1 mx1 dist1 L1 H1). intros v e Hv He. specialize (HB v e Hv He). lia.
Qed.

Lemma pp_not_panic : forall it root mx dist, root < nv g -> calc_distance g root = Ok (mx, dist) ->
  (exists r, pp_loop g it root mx dist = Ok r) \/ pp_loop g it root mx dist = Err "INTERNAL ERROR: iterations did not converge".
Proof.
  induction it as [|it IH]; intros root mx dist Hr H; simpl; [auto|].
  destruct (next_root_ok root mx dist Hr H) as (r1 & E1 & L1 & D1 & M1). rewrite E1.
  destruct (calc_distance_correct g r1 W L1) as (mx1 & dist1 & H1 & _ & _ & _ & Ec1).
  rewrite H1. cbn [bind fst snd].
  destruct (mx1 =? mx); [eauto|]. apply (IH r1 mx1 dist1 L1 H1).
Qed.

Definition start_of (start : option nat) : nat := match start with Some p => p | None => p_min_degree g end.

Lemma pseudo_peripheral_spec start r : start_of start < nv g -> pseudo_peripheral g start = Ok r ->
  r < nv g /\ exists u e, u < nv g /\ is_ecc (edge g) (nv g) u e /\ is_ecc (edge g) (nv g) r e /\
    is_dist (edge g) u r e /\ (forall es, is_ecc (edge g) (nv g) (start_of start) es -> es <= e) /\
    forall v, v < nv g -> is_dist (edge g) u v e ->
      nth r (degree g) 0 < nth v (degree g) 0 \/ (nth r (degree g) 0 = nth v (degree g) 0 /\ r <= v).
Proof.
  intros Hs H. unfold pseudo_peripheral in H. unfold nv in Deg. rewrite Deg, Nat.eqb_refl in H. cbn [negb] in H.
  fold (start_of start) in H.
  destruct (calc_distance_correct g (start_of start) W Hs) as (mx & dist & H1 & _ & _ & _ & Ec).
  rewrite H1 in H. cbn [bind fst snd] in H.
  destruct (pp_loop_spec _ _ _ _ _ Hs H1 H) as (u & e & I1 & I2 & I3 & I4 & I5 & I6 & I7).
  split; auto. exists u, e. repeat (split; auto). intros es He. rewrite (ecc_fun _ _ _ _ _ He Ec). exact I6.
Qed.

Lemma pseudo_peripheral_total start es : start_of start < nv g -> is_ecc (edge g) (nv g) (start_of start) es ->
  (forall v e, v < nv g -> is_ecc (edge g) (nv g) v e -> e <= es + 9) ->
  exists r, pseudo_peripheral g start = Ok r.
Proof.
  intros Hs He HB. unfold pseudo_peripheral. unfold nv in Deg. rewrite Deg, Nat.eqb_refl. cbn [negb].
  fold (start_of start).
  destruct (calc_distance_correct g (start_of start) W Hs) as (mx & dist & H1 & _ & _ & _ & Ec).
  rewrite H1. cbn [bind fst snd]. apply pp_loop_total; auto.
  intros v e Hv Hve. rewrite (ecc_fun _ _ _ _ _ Ec He). specialize (HB v e Hv Hve). lia.
Qed.

Lemma pseudo_peripheral_outcome start : start_of start < nv g ->
  (exists r, pseudo_peripheral g start = Ok r) \/
  pseudo_peripheral g start = Err "INTERNAL ERROR: iterations did not converge".
Proof.
  intros Hs. unfold pseudo_peripheral. unfold nv in Deg. rewrite Deg, Nat.eqb_refl. cbn [negb].
  fold (start_of start).
  destruct (calc_distance_correct g (start_of start) W Hs) as (mx & dist & H1 & _ & _ & _ & Ec).
  rewrite H1. cbn [bind fst snd]. apply pp_not_panic; auto.
Qed.
End PP.

(** bandwidth *)
Lemma band_row i row : forall b0, 1 <= b0 ->
  let b := fold_left (fun bi j => if i <? j then (let delta := (j - i) + 1 in if bi <? delta then delta else bi) else bi) row b0 in
  b0 <= b /\ (forall j, In j row -> i < j -> j - i + 1 <= b) /\ (b = b0 \/ exists j, In j row /\ i < j /\ b = j - i + 1).
Proof.
  induction row as [|x row IH]; intros b0 Hb; cbv zeta in *.
  - simpl. repeat split; auto. intros j [].
  - simpl. destruct (Nat.ltb_spec i x).
    + destruct (Nat.ltb_spec b0 (x - i + 1)).
      * destruct (IH (x - i + 1) ltac:(lia)) as (A & B & C). repeat split.
        -- lia.
        -- intros j [->|Hj] Hij; auto.
        -- right. destruct C as [->|(j & Hj & Hc)]; eauto.
      * destruct (IH b0 Hb) as (A & B & C). repeat split; auto.
        -- intros j [->|Hj] Hij; auto. lia.
        -- destruct C as [C|(j & Hj & Hc)]; eauto.
    + destruct (IH b0 Hb) as (A & B & C). repeat split; auto.
      * intros j [->|Hj] Hij; auto. lia.
      * destruct C as [C|(j & Hj & Hc)]; eauto.
Qed.

Lemma band_rows rows : forall lo b0,
  let st := fold_left (fun st row =>
     let '(i, band) := st in
     let band_i := fold_left (fun bi j =>
        if i <? j then (let delta := (j - i) + 1 in if bi <? delta then delta else bi) else bi) row 1 in
     (S i, if band <? band_i then band_i else band)) rows (lo, b0) in
  b0 <= snd st /\ (rows <> [] -> 1 <= snd st) /\
  (forall k j, k < List.length rows -> In j (nth k rows []) -> lo + k < j -> j - (lo + k) + 1 <= snd st) /\
  (snd st = b0 \/ snd st = 1 \/ exists k j, k < List.length rows /\ In j (nth k rows []) /\ lo + k < j /\ snd st = j - (lo + k) + 1).
Proof.
  induction rows as [|r rows IH]; intros lo b0; cbv zeta.
  - simpl. repeat split; auto; intros; [congruence|lia].
  - cbn [fold_left]. destruct (band_row lo r 1 (le_n 1)) as (A & B & C). cbv zeta in A, B, C.
    set (bi := fold_left (fun bi j => if lo <? j then (let delta := (j - lo) + 1 in if bi <? delta then delta else bi) else bi) r 1) in *.
    destruct (IH (S lo) (if b0 <? bi then bi else b0)) as (A' & B' & C' & D'). cbv zeta in A', B', C', D'.
    set (st := fold_left _ rows _) in *.
    assert (Hge : b0 <= snd st /\ bi <= snd st) by (destruct (Nat.ltb_spec b0 bi); lia).
    split; [lia|]. split; [intros _; lia|]. split.
    + intros [|k] j Hk Hj Hl.
      * rewrite Nat.add_0_r in *. simpl in Hj. specialize (B j Hj Hl). lia.
      * replace (lo + S k) with (S lo + k) in * by lia. apply C'; simpl in *; auto. lia.
    + destruct D' as [D'|[D'|(k & j & D1 & D2 & D3 & D4)]]; auto.
      * destruct (Nat.ltb_spec b0 bi); auto. destruct C as [C|(j & C1 & C2 & C3)]; [right; left; lia|].
        right. right. exists 0, j. rewrite Nat.add_0_r. simpl. repeat split; auto; lia.
      * right. right. exists (S k), j. replace (lo + S k) with (S lo + k) by lia. simpl. repeat split; auto. lia.
Qed.

Lemma calc_bandwidth_spec g : 0 < nv g ->
  1 <= calc_bandwidth g /\
  (forall i j, edge g i j -> i < j -> j - i + 1 <= calc_bandwidth g) /\
  (calc_bandwidth g = 1 \/ exists i j, edge g i j /\ i < j /\ calc_bandwidth g = j - i + 1).
Proof.
  intros H. unfold nv in H. destruct (band_rows (adjacency g) 0 0) as (A & B & C & D). cbv zeta in A, B, C, D.
  unfold calc_bandwidth. set (b := snd _) in *.
  assert (Hb : 1 <= b) by (apply B; destruct (adjacency g); simpl in *; [lia|congruence]).
  split; auto. split.
  - intros i j He Hij. apply (C i j); auto. destruct (lt_dec i (List.length (adjacency g))); auto.
    unfold edge, adj_edge in He. rewrite nth_overflow in He by lia. destruct He.
  - destruct D as [D|[D|(k & j & D1 & D2 & D3 & D4)]]; auto; [lia|]. right. exists k, j. auto.
Qed.

(** renumbering *)
Lemma foldM_push {A B} (f : A -> res B) (h : A -> B) l : (forall x, In x l -> f x = Ok (h x)) -> forall acc,
  foldM (fun acc x => let! y := f x in Ok (acc ++ [y])) l acc = Ok (acc ++ map h l).
Proof.
  induction l as [|x l IH]; intros H acc; simpl.
  - rewrite app_nil_r. reflexivity.
  - rewrite H by (simpl; auto). cbn [bind]. rewrite IH by (intros; apply H; simpl; auto).
    rewrite <- app_assoc. reflexivity.
Qed.

Lemma firstn_S {A} (l : list A) k d : k < List.length l -> firstn (S k) l = firstn k l ++ [nth k l d].
Proof. revert k. induction l as [|x l IH]; intros [|k] H; simpl in *; try lia; auto. rewrite IH by lia. reflexivity. Qed.
Lemma skipn_nth {A} (l : list A) k d : k < List.length l -> skipn k l = nth k l d :: skipn (S k) l.
Proof. revert k. induction l as [|x l IH]; intros [|k] H; try (simpl in *; lia); auto. apply IH. simpl in H. lia. Qed.
Lemma upd_app_mid {A} (l : list A) x y r i : i = List.length l -> upd (l ++ x :: r) i y = l ++ y :: r.
Proof. intros ->. induction l; simpl; auto. f_equal. auto. Qed.

Section Ren.
Context {T : Type}.

Lemma copy_coords_prefix (src dst : list T) : List.length src = List.length dst -> forall k, k <= List.length src ->
  foldM (fun d k => let! x := get src k in set d k x) (seq 0 k) dst = Ok (firstn k src ++ skipn k dst).
Proof.
  intros L. induction k as [|k IH]; intros Hk; [reflexivity|].
  rewrite seq_S, foldM_app, IH by lia. cbn [bind foldM plus].
  destruct src as [|d0 src0] eqn:Es; [simpl in Hk; lia|]. rewrite <- Es in *. clear Es src0.
  rewrite (get_ok _ k d0) by lia. cbn [bind].
  rewrite set_ok by (rewrite app_length, firstn_length, skipn_length; lia). cbn [bind].
  rewrite (skipn_nth dst k d0) by lia.
  rewrite upd_app_mid by (rewrite firstn_length; lia).
  rewrite (firstn_S src k d0) by lia. rewrite <- app_assoc. reflexivity.
Qed.

Lemma copy_coords_ok (src dst : list T) n : List.length src = n -> List.length dst = n -> copy_coords n src dst = Ok src.
Proof.
  intros H1 H2. unfold copy_coords. rewrite copy_coords_prefix by lia.
  rewrite firstn_all2, skipn_all2 by lia. rewrite app_nil_r. reflexivity.
Qed.

Variable m : mesh T.

Definition np := List.length (points m).

(* the point that old point [i] becomes *)
Definition moved (o2n : list nat) (d : point T) (i : nat) : point T :=
  mkPoint (nth i o2n 0) (pt_marker (nth i (points m) d)) (pt_coords (nth i (points m) d)).

Definition RInv (o2n : list nat) (d : point T) (k : nat) (st : list (point T) * list bool) : Prop :=
  List.length (fst st) = np /\ List.length (snd st) = np /\
  (forall p, In p (fst st) -> List.length (pt_coords p) = ndim m) /\
  (forall j, j < np -> nth j (snd st) true = true <-> exists i, i < k /\ nth i o2n 0 = j) /\
  (NoDup o2n -> forall i, i < k -> nth (nth i o2n 0) (fst st) d = moved o2n d i).

Lemma in_upd {A} (l : list A) : forall i x y, In y (upd l i x) -> y = x \/ In y l.
Proof.
  induction l as [|a l IH]; intros [|i] x y H; simpl in *; auto.
  - destruct H; auto.
  - destruct H as [H|H]; auto. destruct (IH _ _ _ H); auto.
Qed.

Lemma renumber_step_inv o2n d k st : well_formed m -> List.length o2n = np -> k < np -> nth k o2n 0 < np ->
  RInv o2n d k st ->
  exists st', renumber_step (ndim m) np (points m) o2n st k = Ok st' /\ RInv o2n d (S k) st'.
Proof.
  intros [_ Wf] L Hk Hn (I1 & I2 & I3 & I4 & I5). unfold renumber_step.
  rewrite (get_ok _ k 0) by lia. cbn [bind].
  destruct (Nat.leb_spec np (nth k o2n 0)); [lia|].
  rewrite (get_ok _ (nth k o2n 0) d) by lia. cbn [bind]. rewrite (get_ok _ k d) by exact Hk. cbn [bind].
  rewrite copy_coords_ok; [|apply Wf, nth_In; exact Hk|apply I3, nth_In; lia]. cbn [bind].
  rewrite set_ok by lia. cbn [bind]. rewrite set_ok by lia. cbn [bind].
  eexists. split; [reflexivity|]. unfold RInv. cbn [fst snd]. rewrite !upd_length.
  split; [exact I1|]. split; [exact I2|]. split; [|split].
  - intros p Hp. apply in_upd in Hp. destruct Hp as [->|Hp]; [|auto]. simpl. apply Wf, nth_In. exact Hk.
  - intros j Hj. rewrite nth_upd by lia. destruct (Nat.eqb_spec (nth k o2n 0) j) as [<-|N].
    + split; auto. intros _. exists k. auto.
    + rewrite I4 by exact Hj. split; intros (i & Hi & He); exists i; split; auto.
      destruct (Nat.eq_dec i k) as [->|]; [congruence|lia].
  - intros ND i Hi. rewrite nth_upd by lia. destruct (Nat.eq_dec i k) as [->|Nk].
    + rewrite Nat.eqb_refl. reflexivity.
    + destruct (Nat.eqb_spec (nth k o2n 0) (nth i o2n 0)) as [He|Hne].
      * exfalso. apply Nk. symmetry. apply (proj1 (NoDup_nth o2n 0) ND); auto; lia.
      * apply I5; auto. lia.
Qed.

Lemma renumber_fold_inv o2n d : well_formed m -> List.length o2n = np -> forall k, k <= np ->
  (forall i, i < k -> nth i o2n 0 < np) ->
  exists st, foldM (renumber_step (ndim m) np (points m) o2n) (seq 0 k) (points m, repeat false np) = Ok st /\
    RInv o2n d k st.
Proof.
  intros Wf L. induction k as [|k IH]; intros Hk HR.
  - eexists. split; [reflexivity|]. unfold RInv. cbn [fst snd]. rewrite repeat_length.
    split; [reflexivity|]. split; [reflexivity|]. split; [apply Wf|]. split.
    + intros j Hj. split.
      * intros H. rewrite (nth_indep _ true false), nth_repeat in H by (rewrite repeat_length; exact Hj). discriminate.
      * intros (i & Hi & _). lia.
    + intros; lia.
  - destruct IH as (st & E1 & I1); [lia|intros; apply HR; lia|].
    rewrite seq_S, foldM_app, E1. cbn [bind foldM plus].
    destruct (renumber_step_inv o2n d k st Wf L ltac:(lia) (HR k ltac:(lia)) I1) as (st' & E2 & I2).
    rewrite E2. cbn [bind]. eauto.
Qed.

Lemma renumber_out_of_range o2n : well_formed m -> List.length o2n = np ->
  (exists i, i < np /\ np <= nth i o2n 0) ->
  foldM (renumber_step (ndim m) np (points m) o2n) (seq 0 np) (points m, repeat false np) = Err "new point id is out of range".
Proof.
  intros Wf L (i & Hi & Hge).
  assert (exists k, k < np /\ np <= nth k o2n 0 /\ forall j, j < k -> nth j o2n 0 < np) as (k & K1 & K2 & K3).
  { revert Hi Hge. induction i as [i IH] using lt_wf_ind. intros Hi Hge.
    destruct (forallb (fun j => nth j o2n 0 <? np) (seq 0 i)) eqn:F.
    - exists i. repeat split; auto. intros j Hj. rewrite forallb_forall in F. apply Nat.ltb_lt, F, in_seq. lia.
    - assert (exists j, j < i /\ np <= nth j o2n 0) as (j & J1 & J2).
      { clear -F. induction i as [|i IHi]; [discriminate|]. rewrite seq_S, forallb_app in F. cbn [plus forallb] in F.
        destruct (forallb (fun j => nth j o2n 0 <? np) (seq 0 i)) eqn:F2.
        - exists i. split; auto. rewrite andb_true_l, andb_true_r in F. apply Nat.ltb_ge in F. exact F.
        - destruct (IHi eq_refl) as (j & J1 & J2). exists j. split; auto. }
      apply (IH j); auto. lia. }
  assert (exists d : point T, True) as (d & _).
  { unfold np in K1. destruct (points m) as [|d l]; [simpl in K1; lia|eauto]. }
  destruct (renumber_fold_inv o2n d Wf L k ltac:(lia) K3) as (st & E1 & _).
  replace np with (k + S (np - k - 1)) at 2 by lia. rewrite seq_app, foldM_app, E1. cbn [bind plus seq foldM].
  unfold renumber_step at 1. rewrite (get_ok _ k 0) by lia. cbn [bind].
  destruct (Nat.leb_spec np (nth k o2n 0)); [reflexivity|lia].
Qed.


Lemma renumber_cells_ok o2n : well_formed m -> List.length o2n = np ->
  foldM (fun acc c => let! c' := renumber_cell o2n c in Ok (acc ++ [c'])) (cells m) [] =
  Ok (map (fun c => mkCell (c_id c) (c_marker c) (c_kind c) (map (fun p => nth p o2n 0) (c_points c))) (cells m)).
Proof.
  intros [Wc _] L. rewrite (foldM_push (renumber_cell o2n)
    (fun c => mkCell (c_id c) (c_marker c) (c_kind c) (map (fun p => nth p o2n 0) (c_points c)))).
  - reflexivity.
  - intros c Hc. unfold renumber_cell.
    rewrite (foldM_push (fun old => get o2n old) (fun p => nth p o2n 0)).
    + reflexivity.
    + intros p Hp. apply get_ok. rewrite L. eapply Wc; eauto.
Qed.

Lemma surj_perm (l : list nat) n : List.length l = n -> (forall j, j < n -> In j l) -> Permutation l (seq 0 n).
Proof.
  intros L H. symmetry. apply NoDup_Permutation_bis.
  - apply seq_NoDup.
  - rewrite seq_length. lia.
  - intros j Hj. apply in_seq in Hj. apply H. lia.
Qed.

Lemma renumber_points_spec o2n : well_formed m ->
  (Permutation o2n (seq 0 np) ->
     exists m', renumber_points m o2n = Ok m' /\ renumbered m o2n m' /\
       marked_edges m' = marked_edges m /\ marked_faces m' = marked_faces m) /\
  (~ Permutation o2n (seq 0 np) -> exists msg, renumber_points m o2n = Err msg).
Proof.
  intros Wf. unfold renumber_points. fold np.
  destruct (Nat.eqb_spec (List.length o2n) np) as [L|N]; cbn [negb].
  2: { split; [|eauto]. intros P. apply Permutation_length in P. rewrite seq_length in P. lia. }
  destruct (forallb (fun j => j <? np) o2n) eqn:F.
  2: { split.
       - intros P. exfalso. assert (forallb (fun j => j <? np) o2n = true); [|congruence].
         apply forallb_forall. intros j Hj. eapply Permutation_in in Hj; [|exact P]. apply in_seq in Hj. apply Nat.ltb_lt. lia.
       - intros _. rewrite renumber_out_of_range; [cbn; eauto|exact Wf|exact L|].
         enough (exists i, i < List.length o2n /\ np <= nth i o2n 0) as (i & ? & ?) by (exists i; split; [lia|auto]). clear -F. revert F. generalize np. intros n. induction o2n as [|x l IH]; simpl; [discriminate|].
         intros F. destruct (Nat.ltb_spec x n); simpl in F.
         + destruct (IH F) as (i & I1 & I2). exists (S i). split; [lia|exact I2].
         + exists 0. split; lia. }
  rewrite forallb_forall in F.
  assert (HR : forall i, i < np -> nth i o2n 0 < np).
  { intros i Hi. apply Nat.ltb_lt, F, nth_In. lia. }
  destruct (points m) as [|d pts] eqn:Ep.
  { (* no points *)
    assert (o2n = []) by (destruct o2n; auto; unfold np in L; rewrite Ep in L; discriminate). subst o2n.
    unfold np in *. rewrite Ep in *. cbn [List.length seq foldM bind repeat snd fst forallb negb].
    pose proof (renumber_cells_ok [] Wf ltac:(unfold np; rewrite Ep; reflexivity)) as C. rewrite C. cbn [bind].
    split; [|intros H; elim H; constructor]. intros _. eexists. split; [reflexivity|].
    split; [|auto]. split; [reflexivity|]. split; [unfold np; rewrite Ep; reflexivity|]. split; [|reflexivity].
    rewrite Ep. intros [|i] p Hp; discriminate. }
  rewrite <- Ep. destruct (renumber_fold_inv o2n d Wf L np (le_n _) HR) as (st & E1 & I1 & I2 & I3 & I4 & I5).
  rewrite E1. cbn [bind].
  destruct (forallb (fun b => b) (snd st)) eqn:G; cbn [negb].
  - assert (P : Permutation o2n (seq 0 np)).
    { apply surj_perm; auto. intros j Hj. rewrite forallb_nth_true in G. rewrite I2 in G.
      destruct (proj1 (I4 j Hj) (G j Hj)) as (i & Hi & <-). apply nth_In. lia. }
    split; [|tauto]. intros _. rewrite renumber_cells_ok by assumption. cbn [bind].
    eexists. split; [reflexivity|]. split; [|auto]. split; [reflexivity|]. split; [exact I1|]. split; [|reflexivity].
    cbn [points]. intros i p Hp. apply (nth_error_nth_iff _ _ _ d) in Hp. destruct Hp as [Hi Hp].
    apply (nth_error_nth_iff _ _ _ d). rewrite I1. split; [apply HR; exact Hi|].
    rewrite I5; [|eapply Permutation_NoDup; [apply Permutation_sym; exact P|apply seq_NoDup]|exact Hi].
    unfold moved. rewrite Hp. reflexivity.
  - split; [|eauto]. intros P. exfalso.
    assert (forallb (fun b => b) (snd st) = true); [|congruence]. apply forallb_nth_true. rewrite I2.
    intros j Hj. apply I4; auto.
    assert (In j o2n) as Hin by (eapply Permutation_in; [apply Permutation_sym; exact P|apply in_seq; lia]).
    apply (In_nth _ _ 0) in Hin. destruct Hin as (i & Hi & He). exists i. split; auto. lia.
Qed.
End Ren.

(** ordering to map *)
Lemma old_to_new_perm ordering n : Permutation ordering (seq 0 n) ->
  exists o2n, get_old_to_new_map ordering = Ok o2n /\ Permutation o2n (seq 0 n) /\
    forall new, new < n -> nth (nth new ordering 0) o2n 0 = new.
Proof.
  intros P. pose proof (Permutation_length P) as L. rewrite seq_length in L.
  assert (ND : NoDup ordering) by (eapply Permutation_NoDup; [apply Permutation_sym; exact P|apply seq_NoDup]).
  assert (HR : forall i, i < n -> nth i ordering 0 < n).
  { intros i Hi. assert (In (nth i ordering 0) (seq 0 n)) as H by (eapply Permutation_in; [exact P|apply nth_In; lia]).
    apply in_seq in H. lia. }
  unfold get_old_to_new_map. rewrite L.
  assert (K : forall k, k <= n -> exists o2n, foldM (fun m new => let! old := get ordering new in set m old new) (seq 0 k) (repeat 0 n) = Ok o2n
     /\ List.length o2n = n /\ forall i, i < k -> nth (nth i ordering 0) o2n 0 = i).
  { induction k as [|k IH]; intros Hk.
    - eexists. split; [reflexivity|]. rewrite repeat_length. split; auto. intros; lia.
    - destruct IH as (o & E1 & L1 & N1); [lia|]. rewrite seq_S, foldM_app, E1. cbn [bind foldM plus].
      rewrite (get_ok _ k 0) by lia. cbn [bind]. pose proof (HR k ltac:(lia)). rewrite set_ok by lia. cbn [bind].
      eexists. split; [reflexivity|]. rewrite upd_length. split; auto. intros i Hi. rewrite nth_upd by lia.
      destruct (Nat.eqb_spec (nth k ordering 0) (nth i ordering 0)) as [He|Hne].
      + apply (proj1 (NoDup_nth ordering 0) ND); auto; lia.
      + apply N1. destruct (Nat.eq_dec i k) as [->|]; [congruence|lia]. }
  destruct (K n (le_n _)) as (o & E1 & L1 & N1). exists o. split; auto. split; [|exact N1].
  apply surj_perm; auto. intros j Hj. rewrite <- (N1 j Hj). apply nth_In. rewrite L1. auto.
Qed.

(** Cuthill-McKee on a graph *)
Lemma before_rev {A} (l : list A) x y : before l x y <-> before (rev l) y x.
Proof.
  assert (K : forall (l : list A) x y, before l x y -> before (rev l) y x).
  { clear. intros l x y (l1 & l2 & l3 & ->). exists (rev l3), (rev l2), (rev l1).
    rewrite rev_app_distr. simpl. rewrite rev_app_distr. simpl. rewrite <- !app_assoc. reflexivity. }
  split; [apply K|]. intros H. apply K in H. rewrite rev_involutive in H. exact H.
Qed.

Lemma nodup_before_irrefl (l : list nat) x : NoDup l -> ~ before l x x.
Proof.
  intros ND (l1 & l2 & l3 & ->). apply NoDup_remove_2 in ND. apply ND. rewrite !in_app_iff. simpl. auto.
Qed.

Section CM.
Variable g : graph.
Hypothesis W : in_bounds (adjacency g).
Hypothesis Con : connected (edge g) (nv g).
Hypothesis Deg : List.length (degree g) = nv g.

Lemma cm_run root : root < nv g -> exists l, cuthill_mckee g (Some root) = Ok (rev l) /\
  Permutation l (seq 0 (nv g)) /\ (exists t, l = root :: t) /\
  (forall x y dx dy, before l x y -> is_dist (edge g) root x dx -> is_dist (edge g) root y dy -> dx <= dy) /\
  (forall x, In x l -> x <> root -> exists p, before l p x /\ edge g p x) /\
  (forall x y, before l x y -> x <> root ->
     exists px py, first_neighbour (edge g) l px x /\ first_neighbour (edge g) l py y /\
       (before l px py \/ (px = py /\ before (nth px (adjacency g) []) x y))).
Proof.
  intros Hr. exists (mo (bfs (adjacency g) root)).
  assert (HC : forall v, v < List.length (adjacency g) -> reachable (adj_edge (adjacency g)) root v) by (intros v Hv; apply Con; auto).
  split; [|exact (cm_structure (adjacency g) root W Hr HC)].
  rewrite cuthill_mckee_bfs by assumption. rewrite cm_list_connected by assumption. reflexivity.
Qed.
End CM.

(** mesh renumbering *)
Lemma perm_seq_dec (l : list nat) n : {Permutation l (seq 0 n)} + {~ Permutation l (seq 0 n)}.
Proof.
  destruct (Nat.eq_dec (List.length l) n) as [L|L].
  - destruct (forallb (fun j => existsb (Nat.eqb j) l) (seq 0 n)) eqn:F.
    + left. apply surj_perm; auto. intros j Hj. rewrite forallb_forall in F.
      assert (H : In j (seq 0 n)) by (apply in_seq; lia). apply F, existsb_exists in H. destruct H as (x & Hx & He).
      apply Nat.eqb_eq in He. subst. auto.
    + right. intros P. assert (forallb (fun j => existsb (Nat.eqb j) l) (seq 0 n) = true); [|congruence].
      apply forallb_forall. intros j Hj. apply existsb_exists. exists j. split; [|apply Nat.eqb_refl].
      eapply Permutation_in; [apply Permutation_sym; exact P|exact Hj].
  - right. intros P. apply Permutation_length in P. rewrite seq_length in P. auto.
Qed.

Lemma connected_from_zero (R : nat -> nat -> Prop) n : (forall x y, R x y -> R y x) ->
  (forall v, v < n -> reachable R 0 v) -> connected R n.
Proof.
  intros S H u v Hu Hv. destruct (H u Hu) as [k Hk], (H v Hv) as [k' Hk'].
  exists (k + k'). eapply walk_app; [apply walk_sym; [exact S|exact Hk]|exact Hk'].
Qed.

Lemma renumber_mesh_spec {T} (m m' : mesh T) chk : well_formed m -> renumber_mesh m chk = Ok m' ->
  exists o2n, Permutation o2n (seq 0 (List.length (points m))) /\ renumbered m o2n m' /\
    marked_edges m' = marked_edges m /\ marked_faces m' = marked_faces m.
Proof.
  intros Wf H. unfold renumber_mesh in H.
  apply bind_ok in H. destruct H as (g & _ & H). apply bind_ok in H. destruct H as (o & _ & H).
  apply bind_ok in H. destruct H as (o2n & _ & H).
  destruct (renumber_points_spec m o2n Wf) as [A B].
  destruct (perm_seq_dec o2n (np m)) as [P|N].
  - exists o2n. split; [exact P|]. destruct (A P) as (m2 & E2 & R2). rewrite H in E2. inversion E2; subst. exact R2.
  - destruct (B N) as [msg Hm]. congruence.
Qed.
