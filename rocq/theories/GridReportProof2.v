(* Printed summaries of the grid of cells: proofs. *)
From Coq Require Import String List Arith Bool Reals ZArith Lra Lia Permutation Sorted.
From Verif Require Import Base BaseFacts Kind MeshModel MeshQuerySpec TopoModel TopoMaps TopoFeat4 SearchProof2 GeomModel GridModel GridSpec GridProof GridProof3
  GridCellsModel GridCellsSpec GridCellsProof GridCellsProof2 GridCellsProof3 GridReportModel GridReportSpec GridReportProof.
Import ListNotations.
Open Scope nat_scope.

Notation self := (fun c : list nat => c).
Lemma sadd_ne (s : list nat) x : sadd Nat.eqb s x <> [].
Proof. unfold sadd. destruct (existsb _ s) eqn:E; [destruct s; discriminate|destruct s; discriminate]. Qed.
Lemma put_tidy cs key id : tidy self cs ->
  tidy self (mput Nat.eqb cs key (sadd Nat.eqb (match mget Nat.eqb cs key with Some c => c | None => [] end) id)).
Proof.
  intros (N & T). split; [apply (mput_nodup Nat.eqb nat_eqb_eq); exact N|]. intros k c H. apply mput_in in H; [|exact N].
  destruct H as [(-> & ->)|(_ & H)]; [|apply (T k c H)]. split; [|apply sadd_ne]. apply (sadd_nodup Nat.eqb nat_eqb_eq).
  destruct (mget Nat.eqb cs key) as [c|] eqn:E; [|constructor]. apply (mget_in Nat.eqb nat_eqb_eq) in E. apply (T key c E).
Qed.
Lemma cell_tidy nd side ndiv xmin large cs ib cs' : tidy self cs -> insert_cell nd side ndiv xmin large cs ib = Ok cs' -> tidy self cs'.
Proof.
  unfold insert_cell. intros T E. destruct (existsb _ large); [now injection E as <-|]. revert cs T E.
  induction (corners nd) as [|((r, s), t) l IH]; intros cs T E; cbn [foldM] in E; [now injection E as <-|].
  destruct (corner nd (snd ib) r s t) as [x| | |]; try discriminate. cbn [bind] in E.
  destruct (calc_container_key nd side ndiv xmin x) as [key| | |]; try discriminate. cbn [bind] in E.
  eapply IH; [|exact E]. apply put_tidy. exact T.
Qed.
Lemma cells_tidy nd side ndiv xmin large : forall ibs cs cs', tidy self cs -> foldM (insert_cell nd side ndiv xmin large) ibs cs = Ok cs' -> tidy self cs'.
Proof.
  induction ibs as [|ib ibs IH]; intros cs cs' T E; cbn [foldM] in E; [now injection E as <-|].
  destruct (insert_cell nd side ndiv xmin large cs ib) as [c1| | |] eqn:E1; try discriminate. cbn [bind] in E.
  eapply IH; [|exact E]. eapply cell_tidy; eauto.
Qed.
Lemma large_nodup cutoff L : forall ibs st st', NoDup (map fst ibs) -> NoDup (fst st) -> (forall i, In i (fst st) -> ~ In i (map fst ibs)) ->
  foldM (scan_large cutoff L) ibs st = Ok st' -> NoDup (fst st').
Proof.
  induction ibs as [|(i, b) ibs IH]; intros (lg, o) st' N1 N2 D E; cbn [foldM] in E; [now injection E as <-|].
  cbn [map fst] in *. inversion N1 as [|? ? N3 N4]; subst. unfold scan_large in E at 1. cbn [fst snd] in E.
  destruct (max_list (map box_len b)) as [l| | |]; try discriminate. cbn [bind] in E.
  destruct (Rleb _ l).
  - cbn [bind] in E. eapply IH; [exact N4| | |exact E]; cbn [fst].
    + apply nodup_app; auto; [repeat constructor; intros []|]. intros x Hx [->|[]]. apply (D x Hx). left. reflexivity.
    + intros x Hx Q. apply in_app_or in Hx as [Hx|[->|[]]]; [apply (D x Hx); right; exact Q|contradiction].
  - cbn [bind] in E. eapply IH; [exact N4| | |exact E]; cbn [fst]; auto. intros x Hx Q. apply (D x Hx). right. exact Q.
Qed.
Lemma new_tidy m tol border cutoff pct g : gc_new m tol border cutoff pct = Ok g -> tidy self (gc_containers g) /\ NoDup (gc_large g).
Proof.
  intros E. unfold gc_new in E.
  destruct (Rleb _ 0) in E; [discriminate|]. destruct (Rltb _ 0) in E; [discriminate|].
  destruct (Rltb _ 0 || _)%bool in E; [discriminate|]. destruct (Rltb _ 0 || _)%bool in E; [discriminate|].
  destruct (foldM (scan_cell m) _ _) as [[[[[lo hi] bx] lg] boxes]| | |] in E; try discriminate. cbn [bind] in E.
  destruct (mapM unwrap lo) as [xmin| | |] in E; try discriminate. cbn [bind] in E.
  destruct (mapM unwrap hi) as [xmax| | |] in E; try discriminate. cbn [bind] in E.
  destruct (mapM unwrap lg) as [lgs| | |] in E; try discriminate. cbn [bind] in E.
  destruct (max_list lgs) as [L| | |] in E; try discriminate. cbn [bind] in E.
  match type of E with (bind ?r _ = _) => destruct r as [[large bl]| | |] eqn:EL; try discriminate end. cbn [bind] in E.
  match type of E with (bind ?r _ = _) => destruct r as [ndiv| | |]; try discriminate end. cbn [bind] in E.
  match type of E with (bind ?r _ = _) => destruct r as [cs| | |] eqn:EC; try discriminate end. cbn [bind] in E.
  injection E as <-. cbn [gc_containers gc_large]. split.
  - eapply cells_tidy; [|exact EC]. split; [constructor|intros k c []].
  - apply large_nodup in EL; cbn [fst] in *; [|rewrite ids_fst; apply seq_NoDup|constructor|intros i []].
    destruct (Rleb _ _); [exact EL|constructor].
Qed.

Lemma filter_nil_iff {A} (f : A -> bool) l : filter f l = [] <-> forall x, In x l -> f x = false.
Proof.
  induction l as [|a l IH]; cbn [filter In]; [split; auto; intros _ x []|]. destruct (f a) eqn:E.
  - split; [discriminate|]. intros H. rewrite (H a (or_introl eq_refl)) in E. discriminate.
  - rewrite IH. split; [intros H x [<-|I]; auto|auto].
Qed.

Section Sh.
Variable sh : list nat -> list nat.
Variable shc : list (nat * list nat) -> list (nat * list nat).
Hypothesis SH : forall l, Permutation (sh l) l.
Hypothesis SHC : forall l, Permutation (shc l) l.

Lemma key_at_covers nd side ndiv xmin x cs : (nd = 2 \/ nd = 3) -> List.length ndiv = nd -> in_all nd side ndiv xmin x cs ->
  covers ndiv xmin side (key_at nd ndiv cs) x /\ key_at nd ndiv cs < grid_size ndiv.
Proof.
  intros D LN (LC & H). split.
  - exists cs. rewrite LN. split; auto. split.
    + unfold key_at. destruct D as [->| ->]; cbn [Nat.eqb]; [|nia]. apply nlen2 in LC as (c0 & c1 & ->). cbn [nth]. nia.
    + intros i Hi. destruct (H i Hi) as (A & B & C). split; auto. destruct C as [C|(C1 & C2)]; [split; lra|].
      split; [lra|]. rewrite <- C1, plus_INR in C2. cbn [INR] in C2. lra.
  - unfold key_at. destruct D as [->| ->].
    + apply nlen2 in LN as (n0 & n1 & ->). apply nlen2 in LC as (c0 & c1 & ->).
      pose proof (H 0 ltac:(lia)) as (A & _). pose proof (H 1 ltac:(lia)) as (B & _). cbn [nth grid_size fold_right Nat.eqb] in *. nia.
    + apply nlen3 in LN as (n0 & n1 & n2 & ->). apply nlen3 in LC as (c0 & c1 & c2 & ->).
      pose proof (H 0 ltac:(lia)) as (A & _). pose proof (H 1 ltac:(lia)) as (B & _). pose proof (H 2 ltac:(lia)) as (C & _). cbn [nth grid_size fold_right Nat.eqb] in *.
      assert (c0 + c1 * n0 < n0 * n1) by nia. assert (c2 * (n0 * n1) + n0 * n1 <= n0 * n1 * n2) by nia. lia.
Qed.

(* corner of the smallest box around the points of cell number id *)
Lemma cells_report_ok m tol border cutoff pct g :
  consistent m -> coords_complete m -> ndim m = 2 \/ ndim m = 3 -> params_ok tol border cutoff pct -> gc_new m tol border cutoff pct = Ok g ->
  exists rows large, cells_report sh g = Ok (mkReport rows large (List.length (cells m)) (List.length rows) (gc_ndiv g)) /\
    listing rows /\ increasing large /\
    (forall id, id < List.length (cells m) <-> listed rows id \/ In id large) /\
    (forall id, ~ (listed rows id /\ In id large)) /\
    (forall k, In k (map fst rows) -> k < grid_size (gc_ndiv g)) /\
    (forall k ids id, In (k, ids) rows -> In id ids -> exists x,
       (List.length x = ndim m /\ forall i, i < ndim m -> exists c, nth_error (cells m) id = Some c /\
          (exists p, In p (c_points c) /\ nth i x 0%R = coordinate m p i) /\
          ((forall p, In p (c_points c) -> nth i x 0 <= coordinate m p i)%R \/ (forall p, In p (c_points c) -> coordinate m p i <= nth i x 0)%R)) /\
       covers (gc_ndiv g) (gc_xmin g) (gc_side g) k x).
Proof.
  intros M CC ND P E. pose proof (new_gwf m tol border cutoff pct g M CC ND P E) as W. destruct (new_tidy m tol border cutoff pct g E) as (T & NL).
  destruct (rows_ok sh SH self (gc_containers g) T) as (rows & ER & LR & LL & KR & IR).
  exists rows, (isort Nat.leb (sh (gc_large g))).
  (* a box corner lies in the grid *)
  assert (CORNER : forall id x, id < List.length (cells m) -> corner_pt (ndim m) (nth id (gc_boxes g) []) x ->
    exists cs, in_all (ndim m) (gc_side g) (gc_ndiv g) (gc_xmin g) x cs).
  { intros id x Hid (LX & CX). apply cells_exist; [apply (w_side m g W)|apply (w_ndiv m g W)|].
    intros i Hi. destruct (w_max m g W i Hi) as (A1 & A2). split; auto. rewrite <- A2.
    destruct (nth_error (cells m) id) as [c|] eqn:EC; [|apply nth_error_None in EC; lia].
    assert (IC : In c (cells m)) by (eapply nth_error_In; eauto).
    destruct (w_box m g W id c EC) as (_ & BX). destruct (BX i Hi) as ((B1 & B2) & _). apply in_map_iff in B1 as (p & E1 & Hp). apply in_map_iff in B2 as (q & E2 & Hq).
    destruct (CX i Hi) as [-> | ->]; [rewrite <- E1; apply (w_lim m g W c); auto|rewrite <- E2; apply (w_lim m g W c); auto]. }
  assert (HELD : forall k id, (exists ids, In (k, ids) rows /\ In id ids) <-> held (gc_containers g) k id) by (intros; apply IR).
  assert (ALL : forall id, listed rows id <-> id < List.length (cells m) /\ ~ In id (gc_large g)).
  { intros id. split.
    - intros (k & ids & I1 & I2). destruct (proj1 (w_held m g W k id)) as (A & B & _); [apply HELD; exists ids; auto|auto].
    - intros (Hid & HL).
      assert (exists x, corner_pt (ndim m) (nth id (gc_boxes g) []) x) as (x & CX).
      { exists (map (fun i => fst (nth i (nth id (gc_boxes g) []) (0,0)%R)) (seq 0 (ndim m))). split; [rewrite map_length; apply seq_length|].
        intros i Hi. left. rewrite (nth_indep _ 0%R (fst (nth 0 (nth id (gc_boxes g) []) (0,0)%R))) by (rewrite map_length, seq_length; auto).
        rewrite (map_nth (fun i => fst (nth i (nth id (gc_boxes g) []) (0,0)%R))). rewrite seq_nth by auto. reflexivity. }
      destruct (CORNER id x Hid CX) as (cs & IC).
      pose proof (key_ok (ndim m) (gc_side g) (gc_ndiv g) (gc_xmin g) x cs ND (w_side m g W) (w_ndiv m g W) (w_xmin m g W) (proj1 CX) IC) as EK.
      destruct (proj2 (HELD (key_at (ndim m) (gc_ndiv g) cs) id)) as (ids & I1 & I2).
      { apply (w_held m g W). split; auto. split; auto. exists x. auto. }
      exists (key_at (ndim m) (gc_ndiv g) cs), ids. auto. }
  unfold cells_report. rewrite ER. cbn [bind].
  split; [f_equal; f_equal; [|auto]|].
  { rewrite <- app_length. rewrite <- (seq_length (List.length (cells m)) 0). apply same_count; [|apply seq_NoDup|].
    - apply nodup_app; [apply unique_nodup|exact NL|]. intros x Hx Q. apply unique_in, ALL in Hx as (_ & Hx). contradiction.
    - intros x. rewrite in_app_iff, in_seq, unique_in, ALL. split.
      + intros [H|H]; [lia|]. apply (w_large m g W) in H. lia.
      + intros H. destruct (in_dec Nat.eq_dec x (gc_large g)) as [Q|Q]; [right; auto|left; split; auto; lia]. }
  split; auto. split; [apply (sort_lt sh SH); exact NL|]. split.
  { intros id. rewrite ALL, (sort_in sh SH). split.
    - intros H. destruct (in_dec Nat.eq_dec id (gc_large g)); auto.
    - intros [H|H]; [lia|]. apply (w_large m g W). exact H. }
  split.
  { intros id (A & B). apply ALL in A. pose proof (proj1 (sort_in sh SH _ _) B). tauto. }
  assert (ROW : forall k ids id, In (k, ids) rows -> In id ids -> exists x cs, id < List.length (cells m) /\
     corner_pt (ndim m) (nth id (gc_boxes g) []) x /\ in_all (ndim m) (gc_side g) (gc_ndiv g) (gc_xmin g) x cs /\ k = key_at (ndim m) (gc_ndiv g) cs).
  { intros k ids id I1 I2. destruct (proj1 (w_held m g W k id)) as (A & B & x & CX & EK); [apply HELD; exists ids; auto|].
    destruct (CORNER id x A CX) as (cs & IC). exists x, cs. repeat (split; auto).
    pose proof (key_ok (ndim m) (gc_side g) (gc_ndiv g) (gc_xmin g) x cs ND (w_side m g W) (w_ndiv m g W) (w_xmin m g W) (proj1 CX) IC) as EK'.
    congruence. }
  split.
  { intros k I. apply in_map_iff in I as ((k', ids) & <- & I). cbn [fst]. destruct LR as (_ & LR). destruct (LR k' ids I) as (_ & NE).
    destruct ids as [|id ids]; [contradiction|]. destruct (ROW k' (id :: ids) id I) as (x & cs & _ & _ & IC & ->); [left; auto|].
    eapply key_at_covers; eauto. apply (w_ndiv m g W). }
  intros k ids id I1 I2. destruct (ROW k ids id I1 I2) as (x & cs & A & (LX & CX) & IC & ->). exists x. split.
  - split; auto. intros i Hi. destruct (nth_error (cells m) id) as [c|] eqn:EC; [|apply nth_error_None in EC; lia]. exists c. split; auto.
    destruct (w_box m g W id c EC) as (_ & BX). destruct (BX i Hi) as ((B1 & B2) & BB). apply in_map_iff in B1 as (p & E1 & Hp). apply in_map_iff in B2 as (q & E2 & Hq).
    destruct (CX i Hi) as [-> | ->].
    + split; [exists p; split; auto; symmetry; exact E1|]. left. intros r Hr. apply (BB r Hr).
    + split; [exists q; split; auto; symmetry; exact E2|]. right. intros r Hr. apply (BB r Hr).
  - eapply key_at_covers; eauto. apply (w_ndiv m g W).
Qed.

(* ---- statistics ---- *)
Lemma rows_lens {C} (ids_of : C -> list nat) cs rows : tidy ids_of cs -> report_rows sh ids_of cs = Ok rows ->
  Permutation (map (fun r : nat * list nat => List.length (snd r)) rows) (map (fun c : nat * C => List.length (ids_of (snd c))) cs).
Proof.
  intros (N & T) E. unfold report_rows in E.
  set (len := fun k => match mget Nat.eqb cs k with Some c => List.length (ids_of c) | None => 0 end).
  assert (E1 : map (fun r : nat * list nat => List.length (snd r)) rows = map len (isort Nat.leb (sh (map fst cs)))).
  { revert rows E. induction (isort Nat.leb (sh (map fst cs))) as [|k ks IH]; intros rows E; cbn [mapM] in E; [injection E as <-; reflexivity|].
    destruct (mget Nat.eqb cs k) as [c|] eqn:EC; [|discriminate]. cbn [unwrap bind] in E.
    destruct (mapM _ ks) as [rs| | |]; try discriminate. cbn [bind] in E. injection E as <-. cbn [map snd]. f_equal; [|apply IH; reflexivity].
    unfold len. rewrite EC. apply (sort_len sh SH). }
  rewrite E1. assert (E2 : map len (map fst cs) = map (fun c : nat * C => List.length (ids_of (snd c))) cs).
  { rewrite map_map. apply map_ext_in. intros (k, c) I. cbn [fst snd]. unfold len. rewrite (in_mget Nat.eqb nat_eqb_eq cs k c N I). reflexivity. }
  rewrite <- E2. apply Permutation_map. eapply Permutation_trans; [apply isort_perm|apply SH].
Qed.
Lemma perm_filter_len {A} (f : A -> bool) l l' : Permutation l l' -> List.length (filter f l) = List.length (filter f l').
Proof. induction 1; cbn; auto; [destruct (f x); cbn; auto|destruct (f x), (f y); reflexivity|congruence]. Qed.
Lemma fold_max_ge l : forall a, a <= fold_left Nat.max l a /\ (forall x, In x l -> x <= fold_left Nat.max l a) /\
  (fold_left Nat.max l a = a \/ In (fold_left Nat.max l a) l).
Proof.
  induction l as [|y l IH]; intros a; cbn [fold_left].
  - split; auto. split; [intros x []|auto].
  - destruct (IH (Nat.max a y)) as (A & B & C). split; [lia|]. split.
    + intros x [->|H]; [lia|auto].
    + destruct C as [C|C]; [|right; right; exact C]. rewrite C. destruct (Nat.max_spec a y) as [(_ & ->)|(_ & ->)]; [right; left; reflexivity|left; reflexivity].
Qed.
Lemma count_sum (l : list nat) : forall n, (forall x, In x l -> x < n) -> total (map (fun i => List.length (filter (fun v => v =? i) l)) (seq 0 n)) = List.length l.
Proof.
  induction l as [|x l IH]; intros n H; cbn [filter List.length].
  - induction (seq 0 n) as [|i s IHs]; cbn [map total fold_right]; auto.
  - rewrite <- (IH n) by (intros y Hy; apply H; right; exact Hy). specialize (H x (or_introl eq_refl)).
    assert (G : forall s, total (map (fun i => List.length (if x =? i then x :: filter (fun v => v =? i) l else filter (fun v => v =? i) l)) s) =
      total (map (fun i => List.length (filter (fun v => v =? i) l)) s) + List.length (filter (fun i => x =? i) s)).
    { induction s as [|i s IHs]; cbn [map total fold_right filter List.length]; auto. unfold total in *. rewrite IHs. destruct (x =? i); cbn [List.length]; lia. }
    rewrite G. assert (Q : List.length (filter (fun i => x =? i) (seq 0 n)) = 1); [|lia].
    replace n with (x + S (n - S x)) by lia. rewrite seq_app, filter_app, app_length. cbn [seq plus filter]. rewrite Nat.eqb_refl. cbn [List.length].
    rewrite !(proj2 (filter_nil_iff _ _)); auto. all: intros y Hy; apply in_seq in Hy; apply Nat.eqb_neq; lia.
Qed.
Lemma cells_stat_ok m tol border cutoff pct g rep :
  consistent m -> coords_complete m -> ndim m = 2 \/ ndim m = 3 -> params_ok tol border cutoff pct -> gc_new m tol border cutoff pct = Ok g ->
  cells_report sh g = Ok rep ->
  let s := cells_stat sh shc g in let rows := rp_rows rep in
  st_ncell s = List.length (cells m) /\ st_xmin s = gc_xmin g /\ st_xmax s = gc_xmax g /\ st_side s = gc_side g /\
  st_ncontainer s = List.length rows /\
  (forall k ids, In (k, ids) rows -> List.length ids <= st_max s) /\
  (rows <> [] -> exists k ids, In (k, ids) rows /\ List.length ids = st_max s) /\
  List.length (st_hist s) = S (st_max s) /\
  (forall i, i <= st_max s -> nth i (st_hist s) 0 = List.length (filter (fun r : nat * list nat => List.length (snd r) =? i) rows)) /\
  total (st_hist s) = List.length rows.
Proof.
  intros M CC ND P E R s rows. destruct (cells_report_ok m tol border cutoff pct g M CC ND P E) as (rows' & large & ER & LR & _).
  rewrite R in ER. injection ER as ->. cbn [rp_rows] in rows. subst rows. rename rows' into rows.
  destruct (new_tidy m tol border cutoff pct g E) as (T & NL).
  destruct (rows_ok sh SH self (gc_containers g) T) as (rows' & E' & _ & LL & _).
  unfold cells_report in R. rewrite E' in R. cbn [bind] in R. injection R as -> _ CNT _.
  pose proof (rows_lens self (gc_containers g) rows T E') as PL.
  set (nums := map (fun c : nat * list nat => List.length (snd c)) (shc (gc_containers g))).
  assert (PN : Permutation (map (fun r : nat * list nat => List.length (snd r)) rows) nums).
  { eapply Permutation_trans; [exact PL|]. unfold nums. apply Permutation_map. apply Permutation_sym, SHC. }
  set (mx := fold_left Nat.max nums 0). destruct (fold_max_ge nums 0) as (_ & MB & MC). fold mx in MB, MC.
  assert (ES : s = mkStats (st_ncell s) (gc_xmin g) (gc_xmax g) (gc_side g) (List.length (gc_containers g)) mx (hist_count (seq 0 (mx + 2)) nums)) by reflexivity.
  assert (EN : st_ncell s = List.length (cells m)).
  { rewrite <- CNT. cbn [s cells_stat st_ncell]. f_equal. apply same_count; [apply (fold_sadd_nodup Nat.eqb nat_eqb_eq); constructor|apply unique_nodup|].
    intros x. rewrite unique_in, (fold_sadd_in Nat.eqb nat_eqb_eq), in_flat_map.
    destruct (rows_ok sh SH self (gc_containers g) T) as (rows2 & E2 & _ & _ & _ & IR). rewrite E' in E2. injection E2 as <-. split.
    - intros [[]|((k, c) & I1 & I2)]. cbn [snd] in I2. apply (proj1 (sh_in sh SH _ _)) in I2. apply (Permutation_in _ (SHC _)) in I1.
      destruct (proj2 (IR k x)) as (ids & J1 & J2); [exists c; split; auto; apply (in_mget Nat.eqb nat_eqb_eq); auto; apply T|]. exists k, ids. auto.
    - intros (k & ids & J1 & J2). right. destruct (proj1 (IR k x)) as (c & I1 & I2); [exists ids; auto|]. exists (k, c). split.
      + apply (Permutation_in _ (Permutation_sym (SHC _))). apply (mget_in Nat.eqb nat_eqb_eq). exact I1.
      + apply (sh_in sh SH). exact I2. }
  assert (EH : st_hist s = map (fun i => List.length (filter (fun v => v =? i) nums)) (seq 0 (S mx))).
  { rewrite ES. cbn [st_hist]. unfold hist_count. rewrite seq_length. replace (mx + 2 - 1) with (S mx) by lia. apply map_ext_in. intros i Hi. apply in_seq in Hi.
    f_equal. apply filter_ext. intros v. rewrite !seq_nth by lia. cbn [plus]. destruct (v =? i) eqn:EV.
    - apply Nat.eqb_eq in EV as ->. rewrite Nat.leb_refl. cbn [andb]. apply Nat.ltb_lt. lia.
    - apply Nat.eqb_neq in EV. destruct (i <=? v) eqn:E1; auto. apply Nat.leb_le in E1. apply Nat.ltb_ge. lia. }
  split; [exact EN|]. split; [rewrite ES; reflexivity|]. split; [rewrite ES; reflexivity|]. split; [rewrite ES; reflexivity|].
  split; [rewrite ES; symmetry; exact LL|].
  assert (EM : st_max s = mx) by (rewrite ES; reflexivity). rewrite EM, EH.
  split; [|split; [|split; [|split]]].
  - intros k ids I. apply MB. apply (Permutation_in _ PN). apply in_map_iff. exists (k, ids). auto.
  - intros NE. destruct rows as [|(k0, ids0) rows]; [contradiction|]. destruct MC as [MC|MC].
    + exists k0, ids0. split; [left; auto|]. assert (List.length ids0 <= mx); [|lia]. apply MB. apply (Permutation_in _ PN). left. reflexivity.
    + apply (Permutation_in _ (Permutation_sym PN)) in MC. apply in_map_iff in MC as ((k, ids) & Q & I). exists k, ids. auto.
  - rewrite map_length, seq_length. reflexivity.
  - intros i Hi. rewrite (nth_indep _ 0 (List.length (filter (fun v => v =? 0) nums))) by (rewrite map_length, seq_length; lia).
    rewrite (map_nth (fun i => List.length (filter (fun v => v =? i) nums))). rewrite seq_nth by lia. cbn [plus].
    rewrite <- (perm_filter_len (fun v => v =? i) _ _ PN). clear. induction rows as [|r rows IH]; cbn [map filter]; auto. destruct (_ =? i); cbn [List.length]; auto.
  - rewrite count_sum by (intros x Hx; apply MB in Hx; lia). rewrite <- (Permutation_length PN). apply map_length.
Qed.
End Sh.
