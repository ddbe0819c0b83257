(* The constructed grid, membership of a cell, and the search. *)
From Coq Require Import String List Arith Bool Reals ZArith Lra Lia Permutation.
From Verif Require Import Base BaseFacts Kind MeshModel MeshQuerySpec TopoModel TopoMaps TopoFeat6 GeomModel GeomSpec GeomProof GeomSimplex GridModel GridSpec GridProof
  GridCellsModel GridCellsSpec GridCellsProof.
Import ListNotations.
Open Scope R_scope.

Record gwf (m : mesh R) (g : gcells) : Prop := {
  w_mesh : gc_mesh g = m;
  w_ndiv : List.length (gc_ndiv g) = ndim m;
  w_xmin : List.length (gc_xmin g) = ndim m;
  w_xmax : List.length (gc_xmax g) = ndim m;
  w_side : 0 < gc_side g;
  w_max : forall i, (i < ndim m)%nat -> (1 <= nth i (gc_ndiv g) 0)%nat /\ nth i (gc_xmax g) 0 = nth i (gc_xmin g) 0 + gc_side g * INR (nth i (gc_ndiv g) 0%nat);
  w_boxes : List.length (gc_boxes g) = List.length (cells m);
  w_box : forall id c, nth_error (cells m) id = Some c -> box_for m (c_points c) (nth id (gc_boxes g) []);
  w_lim : forall c p i, In c (cells m) -> In p (c_points c) -> (i < ndim m)%nat -> nth i (gc_xmin g) 0 <= X m p i <= nth i (gc_xmax g) 0;
  w_small : forall id i, (id < List.length (cells m))%nat -> ~ In id (gc_large g) -> (i < ndim m)%nat -> box_len (nth i (nth id (gc_boxes g) []) (0,0)) < gc_side g;
  w_large : forall id, In id (gc_large g) -> (id < List.length (cells m))%nat;
  w_held : forall k id, held (gc_containers g) k id <-> (id < List.length (cells m))%nat /\ ~ In id (gc_large g) /\
             exists x, corner_pt (ndim m) (nth id (gc_boxes g) []) x /\ calc_container_key (ndim m) (gc_side g) (gc_ndiv g) (gc_xmin g) x = Ok k }.

Definition good_params (tol border cutoff pct : option R) : Prop :=
  0 < or_default tol GRID_CELLS_TOLERANCE /\ 0 <= or_default border GRID_CELLS_BORDER_TOL /\
  0 <= or_default cutoff GRID_CELLS_LARGE_CUTOFF <= 1 /\ 0 <= or_default pct GRID_CELLS_LARGE_PCT <= 1.

(* smallest and largest coordinates of the points of the cells *)
Definition extent (m : mesh R) (i : nat) (a b : R) : Prop :=
  let S := map (fun p => X m p i) (flat_map c_points (cells m)) in
  In a S /\ In b S /\ forall x, In x S -> a <= x <= b.

Lemma in_ids {A} (l : list A) d i a : In (i, a) (combine (seq 0 (List.length l)) l) <-> (i < List.length l)%nat /\ nth i l d = a.
Proof.
  assert (G : forall (l : list A) n i, In (i, a) (combine (seq n (List.length l)) l) <-> (n <= i < n + List.length l)%nat /\ nth (i - n) l d = a).
  { clear. induction l as [|x l IH]; intros n i; cbn [List.length seq combine In].
    - split; [tauto|lia].
    - rewrite IH. split.
      + intros [H|(H & E)]; [injection H as <- <-; split; [lia|now rewrite Nat.sub_diag]|]. split; [lia|].
        replace (i - n)%nat with (S (i - S n)) by lia. exact E.
      + intros (H & E). destruct (Nat.eq_dec i n) as [->|N]; [left; rewrite Nat.sub_diag in E; cbn in E; now subst|].
        right. split; [lia|]. replace (i - n)%nat with (S (i - S n)) in E by lia. exact E. }
  rewrite G, Nat.sub_0_r. split; intros (A1 & A2); split; auto; lia.
Qed.
Lemma ids_fst {A} (l : list A) : map fst (combine (seq 0 (List.length l)) l) = seq 0 (List.length l).
Proof. generalize 0%nat. induction l as [|x l IH]; intros n; cbn; auto. now rewrite IH. Qed.

Lemma gc_new_ok m tol border cutoff pct : consistent m -> coords_complete m -> ndim m = 2%nat \/ ndim m = 3%nat -> cells m <> [] ->
  good_params tol border cutoff pct ->
  exists lo hi, List.length lo = ndim m /\ List.length hi = ndim m /\ (forall i, (i < ndim m)%nat -> extent m i (nth i lo 0) (nth i hi 0)) /\
  let b := or_default border GRID_CELLS_BORDER_TOL in
  ((exists i, (i < ndim m)%nat /\ nth i hi 0 = nth i lo 0) -> b = 0 -> gc_new m tol border cutoff pct = Panic) /\
  (or_default pct GRID_CELLS_LARGE_PCT < 1 -> (forall i, (i < ndim m)%nat -> nth i lo 0 < nth i hi 0) \/ 0 < b ->
   exists g, gc_new m tol border cutoff pct = Ok g /\ gwf m g /\ (forall i, (i < ndim m)%nat -> nth i (gc_xmin g) 0 = nth i lo 0 - b /\ nth i hi 0 + b <= nth i (gc_xmax g) 0)).
Proof.
  intros M CC ND NE (T & B & (C1 & C2) & (P1 & P2)).
  set (nd := ndim m) in *. set (none := repeat (@None R) nd).
  assert (NN : forall i, nth i none None = None) by (intros i; unfold none; apply nth_repeat).
  assert (S0 : scanned m [] (none, none, repeat (0, 0) nd, none, [])).
  { assert (LN : List.length none = nd) by (unfold none; apply repeat_length).
    split; [split; [exact LN|]; split; [exact LN|]; intros i Hi; rewrite NN; cbn; auto|]. split; [apply repeat_length|]. split; [reflexivity|].
    split; [intros [|id] c Q; discriminate|]. split; [exact LN|]. intros i Hi. rewrite NN. reflexivity. }
  destruct (scan_cells m M CC (cells m) _ [] (fun c h => h) S0) as ([[[[lo hi] box] largest] boxes] & E & (L1 & L2 & L3) & SB & LB & BB & LL & LG).
  cbn [app] in *. fold nd in L1, L2, L3, SB, LL, LG.
  set (ps := flat_map c_points (cells m)) in *.
  assert (PS : ps <> []).
  { destruct (cells m) as [|c cs] eqn:EC; [congruence|]. pose proof (cell_npts m M c) as Q. rewrite EC in Q. specialize (Q (or_introl eq_refl)).
    unfold ps. cbn. destruct (c_points c); [cbn in Q; lia|discriminate]. }
  assert (ULO : exists l, mapM unwrap lo = Ok l /\ List.length l = nd /\ forall i, (i < nd)%nat -> In (nth i l 0) (map (fun p => X m p i) ps) /\ forall x, In x (map (fun p => X m p i) ps) -> nth i l 0 <= x).
  { exists (map (fun o => or_default o 0) lo). split; [|split; [now rewrite map_length|]].
    - apply mapM_total. intros o Ho. apply In_nth with (d := None) in Ho as (i & Hi & <-). rewrite L1 in Hi. destruct (L3 i Hi) as (Q & _).
      destruct (nth i lo None); [reflexivity|]. cbn in Q. apply map_eq_nil in Q. contradiction.
    - intros i Hi. rewrite (nth_map1 _ _ _ None) by lia. destruct (L3 i Hi) as (Q & _). destruct (nth i lo None); [exact Q|]. cbn in Q. apply map_eq_nil in Q. contradiction. }
  assert (UHI : exists l, mapM unwrap hi = Ok l /\ List.length l = nd /\ forall i, (i < nd)%nat -> In (nth i l 0) (map (fun p => X m p i) ps) /\ forall x, In x (map (fun p => X m p i) ps) -> x <= nth i l 0).
  { exists (map (fun o => or_default o 0) hi). split; [|split; [now rewrite map_length|]].
    - apply mapM_total. intros o Ho. apply In_nth with (d := None) in Ho as (i & Hi & <-). rewrite L2 in Hi. destruct (L3 i Hi) as (_ & Q).
      destruct (nth i hi None); [reflexivity|]. cbn in Q. apply map_eq_nil in Q. contradiction.
    - intros i Hi. rewrite (nth_map1 _ _ _ None) by lia. destruct (L3 i Hi) as (_ & Q). destruct (nth i hi None); [exact Q|]. cbn in Q. apply map_eq_nil in Q. contradiction. }
  assert (BNE : boxes <> []) by (intros ->; cbn in LB; destruct (cells m); [congruence|discriminate]).
  assert (ULG : exists l, mapM unwrap largest = Ok l /\ List.length l = nd /\ forall i b, (i < nd)%nat -> In b boxes -> box_len (nth i b (0,0)) <= nth i l 0).
  { exists (map (fun o => or_default o 0) largest). split; [|split; [now rewrite map_length|]].
    - apply mapM_total. intros o Ho. apply In_nth with (d := None) in Ho as (i & Hi & <-). rewrite LL in Hi. specialize (LG i Hi).
      destruct (nth i largest None); [reflexivity|]. cbn in LG. apply map_eq_nil in LG. contradiction.
    - intros i b Hi Hb. rewrite (nth_map1 _ _ _ None) by lia. specialize (LG i Hi). destruct (nth i largest None) as [v|].
      + destruct LG as (_ & Q). apply Q. apply in_map_iff. exists b. auto.
      + cbn in LG. apply map_eq_nil in LG. contradiction. }
  destruct ULO as (xlo & ELO & LLO & QLO). destruct UHI as (xhi & EHI & LHI & QHI). destruct ULG as (lg & ELG & LLG & QLG).
  destruct (max_list_ok lg) as (bll & EBLL & IBLL & QBLL); [intros ->; cbn in LLG; lia|].
  set (ids := combine (seq 0 (List.length boxes)) boxes).
  assert (BL : forall id, (id < List.length (cells m))%nat -> List.length (nth id boxes []) = nd).
  { intros id Hid. destruct (nth_error (cells m) id) as [c|] eqn:EC; [|apply nth_error_None in EC; lia]. destruct (BB _ _ EC) as (Q & _). exact Q. }
  assert (IDS : forall id b, In (id, b) ids <-> (id < List.length (cells m))%nat /\ nth id boxes [] = b).
  { intros id b. unfold ids. rewrite (in_ids boxes []), LB. tauto. }
  destruct (scan_large_ok (or_default cutoff GRID_CELLS_LARGE_CUTOFF) bll ids) as (large & bl & ELR & R1 & R2 & R3 & R4).
  { intros (id, b) H. apply IDS in H as (H & <-). cbn. specialize (BL id H). intros Q. rewrite Q in BL. cbn in BL. lia. }
  set (b := or_default border GRID_CELLS_BORDER_TOL) in *. set (t := or_default tol GRID_CELLS_TOLERANCE) in *.
  set (lp := or_default pct GRID_CELLS_LARGE_PCT) in *. set (cu := or_default cutoff GRID_CELLS_LARGE_CUTOFF) in *.
  exists xlo, xhi. split; auto. split; auto.
  assert (EXT : forall i, (i < nd)%nat -> extent m i (nth i xlo 0) (nth i xhi 0)).
  { intros i Hi. destruct (QLO i Hi) as (A1 & A2). destruct (QHI i Hi) as (A3 & A4). split; [exact A1|]. split; [exact A3|]. intros x Hx. split; auto. }
  split; [exact EXT|].
  set (use := Rleb (INR (List.length large) / INR (List.length (cells m))) lp).
  set (side := (if use then or_default bl f64_MIN else bll) + 2 * t).
  set (lg' := if use then large else []).
  set (xmin := if Rltb 0 b then map (fun x => x - b) xlo else xlo). set (xmax0 := if Rltb 0 b then map (fun x => x + b) xhi else xhi).
  assert (LX : List.length xmin = nd /\ List.length xmax0 = nd) by (unfold xmin, xmax0; destruct (Rltb 0 b); rewrite ?map_length; auto).
  assert (NX : forall i, (i < nd)%nat -> nth i xmin 0 = nth i xlo 0 - b /\ nth i xmax0 0 = nth i xhi 0 + b).
  { intros i Hi. unfold xmin, xmax0. destruct (Rltb 0 b) eqn:Q.
    - rewrite (nth_map1 _ _ _ 0), (nth_map1 _ _ _ 0) by lia. auto.
    - apply Rltb_false in Q. assert (b = 0) by lra. rewrite H. split; ring. }
  assert (NEW : gc_new m tol border cutoff pct =
    (let! ndiv := mapM (fun ab => if Rltb (fst ab) (snd ab) then Ok (ceil_usize ((snd ab - fst ab) / side)) else Panic) (combine xmin xmax0) in
     let xmax := zip_with (fun a n => a + side * INR n) xmin ndiv in
     let! containers := foldM (insert_cell nd side ndiv xmin lg') ids [] in
     Ok (mkGCells m ndiv xmin xmax side boxes containers lg'))).
  { unfold gc_new. fold b t lp cu nd none.
    destruct (Rleb t 0) eqn:Q1; [apply Rleb_iff in Q1; lra|]. destruct (Rltb b 0) eqn:Q2; [apply Rltb_iff in Q2; lra|].
    destruct (Rltb cu 0) eqn:Q3; [apply Rltb_iff in Q3; lra|]. destruct (Rltb 1 cu) eqn:Q4; [apply Rltb_iff in Q4; lra|].
    destruct (Rltb lp 0) eqn:Q5; [apply Rltb_iff in Q5; lra|]. destruct (Rltb 1 lp) eqn:Q6; [apply Rltb_iff in Q6; lra|].
    cbn [orb]. rewrite E. cbn [bind]. rewrite ELO. cbn [bind]. rewrite EHI. cbn [bind]. rewrite ELG. cbn [bind]. rewrite EBLL. cbn [bind].
    fold ids. rewrite ELR. cbn [bind]. reflexivity. }
  assert (EX : forall i, (i < nd)%nat -> exists ab, nth_error (combine xmin xmax0) i = Some ab /\ fst ab = nth i xlo 0 - b /\ snd ab = nth i xhi 0 + b).
  { intros i Hi. destruct (nth_error (combine xmin xmax0) i) as [ab|] eqn:Q; [|apply nth_error_None in Q; rewrite combine_length in Q; lia].
    exists ab. split; auto. destruct (NX i Hi) as (A1 & A2). rewrite <- A1, <- A2.
    apply nth_error_nth with (d := (0, 0)) in Q. rewrite combine_nth in Q by lia. subst ab. auto. }
  split.
  - intros (i & Hi & Q) B0. rewrite NEW. destruct (EX i Hi) as (ab & EAB & F1 & F2).
    replace (mapM _ _) with (@Panic (list nat)); [reflexivity|]. symmetry.
    assert (PB : (if Rltb (fst ab) (snd ab) then Ok (ceil_usize ((snd ab - fst ab) / side)) else Panic) = @Panic nat).
    { destruct (Rltb (fst ab) (snd ab)) eqn:Z; auto. apply Rltb_iff in Z. lra. }
    apply nth_error_In in EAB. clear -EAB PB. induction (combine xmin xmax0) as [|x l IH]; [destruct EAB|]. cbn [mapM].
    destruct EAB as [<-|EAB]; [rewrite PB; reflexivity|]. destruct (Rltb (fst x) (snd x)); [|reflexivity]. cbn [bind]. rewrite IH by auto. reflexivity.
  - intros LP FL. rewrite NEW.
    assert (NC : (0 < List.length (cells m))%nat) by (destruct (cells m); [congruence|cbn; lia]).
    assert (LEN0 : forall id i, (id < List.length (cells m))%nat -> (i < nd)%nat -> 0 <= box_len (nth i (nth id boxes []) (0,0))).
    { intros id i Hid Hi. destruct (nth_error (cells m) id) as [c|] eqn:EC; [|apply nth_error_None in EC; lia]. destruct (BB _ _ EC) as (_ & Q).
      destruct (Q i Hi) as (_ & Q'). pose proof (cell_npts m M c (nth_error_In _ _ EC)) as NP. destruct (c_points c) as [|p l]; [cbn in NP; lia|].
      specialize (Q' p (or_introl eq_refl)). unfold box_len. lra. }
    assert (SIDE : 0 < side /\ forall id i, (id < List.length (cells m))%nat -> ~ In id lg' -> (i < nd)%nat -> box_len (nth i (nth id boxes []) (0,0)) < side).
    { unfold side, lg'. destruct use eqn:U.
      - assert (BS : bl <> None).
        { intros Q. specialize (R4 Q). unfold ids in R4. rewrite combine_length, seq_length, Nat.min_id, LB in R4. unfold use in U. apply Rleb_iff in U. rewrite R4 in U.
          unfold Rdiv in U. rewrite Rinv_r in U by (apply not_0_INR; lia). lra. }
        destruct bl as [v|]; [|congruence]. cbn [or_default].
        assert (V0 : 0 <= v).
        { destruct (R3 v eq_refl) as ([id bx] & w & I1 & I2 & ->). apply IDS in I1 as (I1 & <-). cbn [snd] in I2.
          apply In_nth with (d := (0,0)) in I2 as (i & Hi & <-). rewrite BL in Hi by auto. apply LEN0; auto. }
        split; [lra|]. intros id i Hid N Hi. destruct (R2 (id, nth id boxes [])) as (w & EW & Q); [apply IDS; auto|exact N|]. injection EW as <-.
        cbn [snd] in Q. specialize (Q (nth i (nth id boxes []) (0,0))). rewrite <- (BL id Hid) in Hi. specialize (Q (nth_In _ _ Hi)). lra.
      - assert (G : forall id i, (id < List.length (cells m))%nat -> (i < nd)%nat -> box_len (nth i (nth id boxes []) (0,0)) <= bll).
        { intros id i Hid Hi. apply Rle_trans with (nth i lg 0); [apply QLG; auto; apply nth_In; lia|]. apply QBLL. apply nth_In. lia. }
        split; [specialize (G 0%nat 0%nat NC ltac:(lia)); specialize (LEN0 0%nat 0%nat NC ltac:(lia)); lra|]. intros id i Hid _ Hi. specialize (G id i Hid Hi). lra. }
    destruct SIDE as (SP & SM).
    set (ndiv := map (fun ab => ceil_usize ((snd ab - fst ab) / side)) (combine xmin xmax0)).
    assert (MN : mapM (fun ab => if Rltb (fst ab) (snd ab) then Ok (ceil_usize ((snd ab - fst ab) / side)) else Panic) (combine xmin xmax0) = Ok ndiv).
    { apply mapM_total. intros ab Hab. apply In_nth_error in Hab as (i & Hi). assert (Hn : (i < nd)%nat).
      { assert (Q : (i < List.length (combine xmin xmax0))%nat) by (apply nth_error_Some; congruence). rewrite combine_length in Q. lia. }
      destruct (EX i Hn) as (ab' & E' & F1 & F2). rewrite Hi in E'. injection E' as <-.
      destruct (Rltb (fst ab) (snd ab)) eqn:Z; auto. apply Rltb_false in Z. exfalso. destruct (EXT i Hn) as (A1 & A2 & A3). specialize (A3 _ A1).
      destruct FL as [FL|FL]; [specialize (FL i Hn)|]; lra. }
    rewrite MN. cbn [bind].
    assert (LN : List.length ndiv = nd) by (unfold ndiv; rewrite map_length, combine_length; lia).
    assert (NV : forall i, (i < nd)%nat -> (1 <= nth i ndiv 0)%nat /\ nth i xhi 0 + b <= nth i xmin 0 + side * INR (nth i ndiv 0%nat)).
    { intros i Hi. destruct (EX i Hi) as (ab & E' & F1 & F2). destruct (NX i Hi) as (G1 & G2).
      assert (Q : nth i ndiv 0%nat = ceil_usize ((snd ab - fst ab) / side)).
      { unfold ndiv. rewrite (nth_map1 _ _ _ (0,0)) by (rewrite combine_length; lia). apply nth_error_nth with (d := (0,0)) in E'. now rewrite E'. }
      destruct (EXT i Hi) as (A1 & A2 & A3). specialize (A3 _ A1).
      destruct (ceil_spec ((snd ab - fst ab) / side)) as (K1 & K2 & K3).
      { apply Rdiv_lt_0_compat; auto. destruct FL as [FL|FL]; [specialize (FL i Hi)|]; lra. }
      rewrite Q. split; auto. rewrite G1. set (n := INR _) in *. apply Rmult_le_compat_r with (r := side) in K2; [|lra].
      unfold Rdiv in K2. rewrite Rmult_assoc, Rinv_l in K2 by lra. lra. }
    set (xmax := zip_with (fun a n => a + side * INR n) xmin ndiv).
    assert (NM : forall i, (i < nd)%nat -> nth i xmax 0 = nth i xmin 0 + side * INR (nth i ndiv 0%nat)).
    { intros i Hi. unfold xmax. rewrite (nth_zip _ _ _ _ _ 0 0%nat) by lia. reflexivity. }
    assert (INS : forall c p i, In c (cells m) -> In p (c_points c) -> (i < nd)%nat -> nth i xmin 0 <= X m p i <= nth i xmax 0).
    { intros c p i Hc Hp Hi. rewrite NM by auto. destruct (NV i Hi) as (_ & V). destruct (NX i Hi) as (V1 & _). destruct (EXT i Hi) as (_ & _ & V2).
      specialize (V2 (X m p i)). assert (I : In (X m p i) (map (fun p => X m p i) (flat_map c_points (cells m)))).
      { apply in_map_iff. exists p. split; auto. apply in_flat_map. eauto. }
      specialize (V2 I). lra. }
    assert (GB : forall id, (id < List.length (cells m))%nat -> good_box nd side ndiv xmin (nth id boxes [])).
    { intros id Hid. split; [now apply BL|]. intros x (LXX & CX). destruct (nth_error (cells m) id) as [c|] eqn:EC; [|apply nth_error_None in EC; lia].
      destruct (BB _ _ EC) as (_ & Q). destruct (cells_exist nd side ndiv xmin x SP LN) as (cs & IA).
      - intros i Hi. split; [apply NV; auto|]. destruct (Q i Hi) as ((I1 & I2) & _). rewrite <- NM by auto.
        apply in_map_iff in I1 as (p1 & I1 & J1). apply in_map_iff in I2 as (p2 & I2 & J2).
        destruct (CX i Hi) as [W|W]; rewrite W; [rewrite <- I1|rewrite <- I2]; eapply INS; eauto using nth_error_In.
      - eexists. eapply key_ok; eauto; apply LX. }
    destruct (insert_all_ok nd side ndiv xmin lg' ND ids []) as (cs & EI & HI).
    { intros (id, bx) H. apply IDS in H as (H & <-). cbn. auto. }
    rewrite EI. cbn [bind]. eexists. split; [reflexivity|]. split.
    + constructor; cbn; auto; try apply LX; fold nd; auto.
      * unfold xmax. rewrite zip_length. lia.
      * intros i Hi. split; [apply NV; auto|apply NM; auto].
      * intros id Hid. unfold lg' in Hid. destruct use; [|destruct Hid]. specialize (R1 id Hid). unfold ids in R1. rewrite ids_fst in R1. apply in_seq in R1. lia.
      * intros k id. rewrite HI. split.
        -- intros [(c & Q & _)|(N & bx & x & I & J)]; [discriminate|]. apply IDS in I as (I & <-). split; auto. split; auto. exists x. auto.
        -- intros (I & N & x & J). right. split; auto. exists (nth id boxes []), x. split; [apply IDS; auto|auto].
    + intros i Hi. cbn. destruct (NX i Hi) as (V1 & _). split; auto. rewrite NM by auto. apply NV. auto.
Qed.

(* ---- is the point in the cell? ---- *)
Lemma wsum_bounds i lo hi : forall pts w, List.length w = List.length pts -> (forall x, In x w -> 0 <= x) ->
  (forall p, In p pts -> lo <= nth i p 0 <= hi) -> total w * lo <= wsum w pts i <= total w * hi.
Proof.
  unfold total. induction pts as [|p pts IH]; intros [|a w] L N B; try discriminate; cbn; [lra|].
  destruct (IH w) as (U & V); [now injection L|intros; apply N; right; auto|intros; apply B; right; auto|].
  pose proof (N a (or_introl eq_refl)). pose proof (B p (or_introl eq_refl)). nra.
Qed.
Lemma corner_coords_X m c i lo hi : (forall p, In p (c_points c) -> lo <= X m p i <= hi) -> forall v, In v (corner_coords m c) -> lo <= nth i v 0 <= hi.
Proof. intros H v Hv. unfold corner_coords in Hv. apply in_map_iff in Hv as (p & <- & Hp). apply (H p Hp). Qed.
Lemma contained_bounds m c x i lo hi : convex_combination (ndim m) (corner_coords m c) x -> (i < ndim m)%nat ->
  (forall p, In p (c_points c) -> lo <= X m p i <= hi) -> lo <= nth i x 0 <= hi.
Proof.
  intros (w & (L & T & W) & N) Hi H. rewrite <- (W i Hi). pose proof (wsum_bounds i lo hi _ _ L N (corner_coords_X m c i lo hi H)) as Q. rewrite T in Q. lra.
Qed.

Lemma in_bbox_ok nd box x : List.length box = nd -> List.length x = nd -> exists b, in_bbox nd box x = Ok b /\
  (b = true <-> forall i, (i < nd)%nat -> fst (nth i box (0,0)) <= nth i x 0 <= snd (nth i box (0,0))).
Proof.
  intros LB LX. unfold in_bbox.
  assert (G : forall k, (k <= nd)%nat -> exists b, foldM (fun (ok : bool) i => if ok then
    let! xi := get x i in let! b := get box i in Ok (negb (Rltb xi (fst b) || Rltb (snd b) xi)) else Ok false) (seq 0 k) true = Ok b /\
    (b = true <-> forall i, (i < k)%nat -> fst (nth i box (0,0)) <= nth i x 0 <= snd (nth i box (0,0)))).
  { induction k as [|k IH]; intros Hk; [exists true; split; auto; split; auto; intros; lia|].
    destruct IH as (b & E & Q); [lia|]. rewrite seq_S, foldM_app, E. cbn [bind Nat.add foldM]. destruct b.
    - rewrite (get_ok x k 0), (get_ok box k (0,0)) by lia. cbn [bind]. eexists. split; [reflexivity|]. rewrite negb_true_iff, orb_false_iff, !Rltb_false.
      split.
      + intros (A & B) i Hi. destruct (Nat.eq_dec i k) as [->|N]; [lra|]. apply (proj1 Q eq_refl). lia.
      + intros H. specialize (H k ltac:(lia)). lra.
    - cbn [bind]. exists false. split; auto. split; [discriminate|]. intros H. apply Q. intros i Hi. apply H. lia. }
  apply (G nd (le_n _)).
Qed.

Lemma vertex_ok m c k : consistent m -> In c (cells m) -> (k < List.length (c_points c))%nat ->
  vertex m c k = Ok (nth k (corner_coords m c) []).
Proof.
  intros M Hc Hk. destruct M as (_ & MC). apply In_nth_error in Hc as (id & E). destruct (MC _ _ E) as (_ & _ & Q).
  unfold vertex. rewrite (get_ok _ _ 0%nat) by auto. cbn [bind].
  assert (HP : In (nth k (c_points c) 0%nat) (c_points c)) by now apply nth_In.
  specialize (Q _ HP). unfold corner_coords. rewrite (nth_map1 _ _ _ 0%nat) by auto. unfold get.
  destruct (nth_error (points m) (nth k (c_points c) 0%nat)) as [pt|] eqn:EP; [reflexivity|apply nth_error_None in EP; lia].
Qed.
Lemma vertex_len m c v : consistent m -> coords_complete m -> In c (cells m) -> In v (corner_coords m c) -> List.length v = ndim m.
Proof.
  intros (_ & MC) CC Hc Hv. apply In_nth_error in Hc as (id & E). destruct (MC _ _ E) as (_ & _ & Q).
  unfold corner_coords in Hv. apply in_map_iff in Hv as (p & <- & Hp). specialize (Q p Hp).
  destruct (nth_error (points m) p) as [pt|] eqn:EP; [apply CC; eapply nth_error_In; eauto|apply nth_error_None in EP; lia].
Qed.

Section Member.
Variables (m : mesh R) (g : gcells).
Hypotheses (M : consistent m) (CC : coords_complete m) (SM : simplex_mesh m) (NDG : non_degenerate m) (W : gwf m g).
Variable x : list R.
Hypothesis LX : List.length x = ndim m.

Lemma in_cell_ok zeta id c : List.length zeta = 4%nat -> nth_error (cells m) id = Some c ->
  exists zeta' b, in_cell g zeta x id = Ok (zeta', b) /\ List.length zeta' = 4%nat /\ (b = true <-> contains m id x) /\
    skipn (ndim m + 1) zeta' = skipn (ndim m + 1) zeta /\
    (b = true -> affine_weights (ndim m) (corner_coords m c) x (firstn (ndim m + 1) zeta')).
Proof.
  intros LZ EC. assert (HC : In c (cells m)) by (eapply nth_error_In; eauto).
  assert (CT : contains m id x <-> convex_combination (ndim m) (corner_coords m c) x).
  { unfold contains. split; [intros (c' & E & H); rewrite EC in E; injection E as <-; exact H|intros H; exists c; auto]. }
  pose proof (w_box m g W id c EC) as (LB & BB).
  unfold in_cell. rewrite (w_mesh m g W).
  assert (HID : (id < List.length (gc_boxes g))%nat) by (rewrite (w_boxes m g W); apply nth_error_Some; congruence).
  rewrite (get_ok _ _ []) by exact HID. cbn [bind]. destruct (in_bbox_ok (ndim m) (nth id (gc_boxes g) []) x LB LX) as (ib & -> & IB). cbn [bind].
  destruct ib; cbn [negb].
  2: { exists zeta, false. split; auto. split; auto. split; [|split; [auto|discriminate]]. split; [discriminate|]. intros H. apply CT in H. exfalso.
       assert (Q : false = true); [|discriminate]. apply IB. intros i Hi. eapply contained_bounds; eauto. apply BB. auto. }
  unfold get at 1. rewrite EC. cbn [bind].
  pose proof M as (_ & MC). destruct (MC _ _ EC) as (_ & NP & _). pose proof (NDG c HC) as IND.
  assert (LC : List.length (corner_coords m c) = List.length (c_points c)) by (unfold corner_coords; now rewrite map_length).
  assert (LV : forall v, In v (corner_coords m c) -> List.length v = ndim m) by (intros; eapply vertex_len; eauto).
  destruct SM as [(D & K)|(D & K)]; rewrite (K c HC) in *; cbn in NP; rewrite D in *.
  - change (List.length (c_points c) = 3%nat) in NP. rewrite !vertex_ok by (auto; lia). cbn [bind].
    rewrite NP in LC. destruct (corner_coords m c) as [|va [|vb [|vc [|]]]]; try discriminate. cbn [nth].
    pose proof (LV va ltac:(cbn; auto)). pose proof (LV vb ltac:(cbn; auto)). pose proof (LV vc ltac:(cbn; auto)).
    destruct (triangle_coords_ok zeta va vb vc x) as (w & -> & AW); try lia; auto. cbn [bind].
    assert (LW : List.length w = 3%nat) by apply AW.
    destruct (in_triangle_iff w (skipn 3 zeta) LW) as (r & -> & RI). cbn [bind]. exists (w ++ skipn 3 zeta), r. split; auto.
    split; [rewrite app_length, skipn_length; lia|]. split; [rewrite RI, CT; symmetry; now apply inside_weights|].
    split; [change (2 + 1)%nat with 3%nat; rewrite <- LW at 1; rewrite skipn_app, skipn_all, Nat.sub_diag; reflexivity|].
    intros _. change (2 + 1)%nat with 3%nat. rewrite <- LW. rewrite firstn_app, firstn_all, Nat.sub_diag. cbn. now rewrite app_nil_r.
  - change (List.length (c_points c) = 4%nat) in NP. rewrite !vertex_ok by (auto; lia). cbn [bind].
    rewrite NP in LC. destruct (corner_coords m c) as [|va [|vb [|vc [|vd [|]]]]]; try discriminate. cbn [nth].
    pose proof (LV va ltac:(cbn; auto)). pose proof (LV vb ltac:(cbn; auto)). pose proof (LV vc ltac:(cbn; auto)). pose proof (LV vd ltac:(cbn; auto)).
    destruct (tetrahedron_coords_ok zeta va vb vc vd x) as (w & -> & AW); try lia; auto. cbn [bind].
    assert (LW : List.length w = 4%nat) by apply AW.
    destruct (in_tetrahedron_iff w (skipn 4 zeta) LW) as (r & -> & RI). cbn [bind]. exists (w ++ skipn 4 zeta), r. split; auto.
    split; [rewrite app_length, skipn_length; lia|]. split; [rewrite RI, CT; symmetry; now apply inside_weights|].
    split; [change (3 + 1)%nat with 4%nat; rewrite <- LW at 1; rewrite skipn_app, skipn_all, Nat.sub_diag; reflexivity|].
    intros _. change (3 + 1)%nat with 4%nat. rewrite <- LW. rewrite firstn_app, firstn_all, Nat.sub_diag. cbn. now rewrite app_nil_r.
Qed.

Definition answer (zeta zeta' : list R) (r : option nat) (ids : list nat) : Prop :=
  List.length zeta' = 4%nat /\ skipn (ndim m + 1) zeta' = skipn (ndim m + 1) zeta /\
  match r with
  | Some id => In id ids /\ contains m id x /\ (forall c, nth_error (cells m) id = Some c -> affine_weights (ndim m) (corner_coords m c) x (firstn (ndim m + 1) zeta'))
  | None => forall id, In id ids -> ~ contains m id x
  end.
Lemma first_in_ok : forall ids zeta, List.length zeta = 4%nat -> (forall id, In id ids -> (id < List.length (cells m))%nat) ->
  exists zeta' r, first_in g zeta x ids = Ok (zeta', r) /\ answer zeta zeta' r ids.
Proof.
  induction ids as [|id ids IH]; intros zeta LZ H; cbn [first_in].
  - exists zeta, None. split; [reflexivity|]. split; [exact LZ|]. split; [reflexivity|]. intros id [].
  - destruct (nth_error (cells m) id) as [c|] eqn:EC; [|apply nth_error_None in EC; specialize (H id (or_introl eq_refl)); lia].
    destruct (in_cell_ok zeta id c LZ EC) as (z1 & b & -> & L1 & B1 & S1 & W1). cbn [bind]. destruct b.
    + exists z1, (Some id). split; auto. split; auto. split; auto. split; [left; auto|]. split; [now apply B1|].
      intros c' E'. rewrite EC in E'. injection E' as <-. auto.
    + destruct (IH z1 L1) as (z2 & r & -> & L2 & S2 & A); [intros; apply H; right; auto|]. exists z2, r. split; auto. split; auto.
      split; [congruence|]. destruct r as [i|].
      * destruct A as (A1 & A2 & A3). split; [right; auto|auto].
      * intros i [<-|Hi]; [intros Q; apply B1 in Q; discriminate|auto].
Qed.

Lemma bounds_ok : exists b, foldM (fun (ok : bool) i => if ok then
      let! xi := get x i in let! lo := get (gc_xmin g) i in
      if Rltb xi lo then Ok false else
      let! hi := get (gc_xmax g) i in Ok (negb (Rltb hi xi)) else Ok false) (seq 0 (ndim m)) true = Ok b /\
  (b = true <-> forall i, (i < ndim m)%nat -> nth i (gc_xmin g) 0 <= nth i x 0 <= nth i (gc_xmax g) 0).
Proof.
  assert (G : forall k, (k <= ndim m)%nat -> exists b, foldM (fun (ok : bool) i => if ok then
      let! xi := get x i in let! lo := get (gc_xmin g) i in
      if Rltb xi lo then Ok false else
      let! hi := get (gc_xmax g) i in Ok (negb (Rltb hi xi)) else Ok false) (seq 0 k) true = Ok b /\
    (b = true <-> forall i, (i < k)%nat -> nth i (gc_xmin g) 0 <= nth i x 0 <= nth i (gc_xmax g) 0)).
  { pose proof (w_xmin m g W). pose proof (w_xmax m g W).
    induction k as [|k IH]; intros Hk; [exists true; split; auto; split; auto; intros; lia|].
    destruct IH as (b & E & Q); [lia|]. rewrite seq_S, foldM_app, E. cbn [bind Nat.add foldM]. destruct b.
    - rewrite (get_ok x k 0), (get_ok (gc_xmin g) k 0), (get_ok (gc_xmax g) k 0) by lia. cbn [bind].
      destruct (Rltb (nth k x 0) (nth k (gc_xmin g) 0)) eqn:F; cbn [bind].
      + exists false. split; auto. split; [discriminate|]. intros H1. apply Rltb_iff in F. specialize (H1 k ltac:(lia)). lra.
      + apply Rltb_false in F. eexists. split; [reflexivity|]. rewrite negb_true_iff, Rltb_false. split.
        * intros A i Hi. destruct (Nat.eq_dec i k) as [->|N]; [lra|]. apply (proj1 Q eq_refl). lia.
        * intros H1. specialize (H1 k ltac:(lia)). lra.
    - cbn [bind]. exists false. split; auto. split; [discriminate|]. intros H1. apply Q. intros i Hi. apply H1. lia. }
  apply (G _ (le_n _)).
Qed.

Lemma contains_lt id : contains m id x -> (id < List.length (cells m))%nat.
Proof. intros (c & E & _). apply nth_error_Some. congruence. Qed.
Lemma contains_inside id : contains m id x -> forall i, (i < ndim m)%nat -> nth i (gc_xmin g) 0 <= nth i x 0 <= nth i (gc_xmax g) 0.
Proof.
  intros (c & E & H) i Hi. eapply contained_bounds; eauto. intros p Hp. eapply w_lim; eauto using nth_error_In.
Qed.

(* the container of a point holds every cell (not large) around it *)
Lemma container_complete id k : contains m id x -> ~ In id (gc_large g) ->
  calc_container_key (ndim m) (gc_side g) (gc_ndiv g) (gc_xmin g) x = Ok k -> held (gc_containers g) k id.
Proof.
  intros C N EK. pose proof (contains_lt id C) as HID. pose proof (contains_inside id C) as CI.
  assert (ND : ndim m = 2%nat \/ ndim m = 3%nat) by (destruct SM as [(D & _)|(D & _)]; auto).
  destruct (cells_exist (ndim m) (gc_side g) (gc_ndiv g) (gc_xmin g) x (w_side m g W) (w_ndiv m g W)) as (cs & LCS & IA).
  { intros i Hi. destruct (w_max m g W i Hi) as (A & B). split; auto. rewrite <- B. auto. }
  destruct C as (c & EC & CV). pose proof (w_box m g W id c EC) as (LB & BB).
  set (box := nth id (gc_boxes g) []) in *.
  assert (G : forall k, (k <= ndim m)%nat -> exists y, List.length y = k /\ forall i, (i < k)%nat ->
     (nth i y 0 = fst (nth i box (0,0)) \/ nth i y 0 = snd (nth i box (0,0))) /\
     is_cell (gc_side g) (nth i (gc_xmin g) 0) (nth i (gc_ndiv g) 0%nat) (nth i y 0) (nth i cs 0%nat)).
  { induction k0 as [|k0 IH]; intros Hk; [exists []; split; auto; intros; lia|]. destruct IH as (y & LY & Y); [lia|].
    destruct (BB k0 ltac:(lia)) as ((I1 & I2) & I3).
    assert (B1 : fst (nth k0 box (0,0)) <= nth k0 x 0 <= snd (nth k0 box (0,0))) by (eapply contained_bounds; eauto; lia).
    assert (B2 : forall v, In v (map (fun p => X m p k0) (c_points c)) -> nth k0 (gc_xmin g) 0 <= v <= nth k0 (gc_xmax g) 0).
    { intros v Hv. apply in_map_iff in Hv as (p & <- & Hp). eapply w_lim; eauto using nth_error_In. }
    destruct (w_max m g W k0 ltac:(lia)) as (_ & EM).
    pose proof (w_small m g W id k0 HID N ltac:(lia)) as SML. fold box in SML. unfold box_len in SML.
    destruct (corner_1d (gc_side g) (nth k0 (gc_xmin g) 0) (nth k0 (gc_ndiv g) 0%nat) (fst (nth k0 box (0,0))) (snd (nth k0 box (0,0))) (nth k0 x 0) (nth k0 cs 0%nat)) as [Q|Q].
    - apply w_side with (m := m); auto.
    - exact SML.
    - exact B1.
    - rewrite <- EM. apply B2. exact I2.
    - apply B2. exact I1.
    - apply IA. lia.
    - exists (y ++ [fst (nth k0 box (0,0))]). split; [rewrite app_length; cbn; lia|]. intros i Hi. destruct (Nat.eq_dec i k0) as [->|NE].
      + rewrite app_nth2 by lia. rewrite LY, Nat.sub_diag. cbn [nth]. auto.
      + rewrite app_nth1 by lia. apply Y. lia.
    - exists (y ++ [snd (nth k0 box (0,0))]). split; [rewrite app_length; cbn; lia|]. intros i Hi. destruct (Nat.eq_dec i k0) as [->|NE].
      + rewrite app_nth2 by lia. rewrite LY, Nat.sub_diag. cbn [nth]. auto.
      + rewrite app_nth1 by lia. apply Y. lia. }
  destruct (G _ (le_n _)) as (y & LY & Y). apply (w_held m g W). split; auto. split; auto. exists y. split.
  - split; auto. intros i Hi. apply Y. auto.
  - rewrite <- EK.
    rewrite (key_ok (ndim m) _ _ _ x cs ND (w_side m g W) (w_ndiv m g W) (w_xmin m g W) LX (conj LCS IA)).
    apply (key_ok (ndim m) _ _ _ y cs ND (w_side m g W) (w_ndiv m g W) (w_xmin m g W) LY). split; auto. intros i Hi. apply Y. auto.
Qed.

Variable sh : list nat -> list nat.
Hypothesis SH : forall l, Permutation (sh l) l.
Lemma search_in zeta : List.length zeta = 4%nat ->
  (forall i, (i < ndim m)%nat -> nth i (gc_xmin g) 0 <= nth i x 0 <= nth i (gc_xmax g) 0) ->
  exists zeta' r, gc_search sh g zeta x = Ok (zeta', r) /\ answer zeta zeta' r (seq 0 (List.length (cells m))).
Proof.
  intros LZ IN. unfold gc_search. rewrite (w_mesh m g W), LZ, LX, !Nat.eqb_refl. cbn [negb].
  destruct bounds_ok as (b & -> & BI). rewrite (proj2 BI IN). cbn [bind negb].
  assert (SI : forall l i, In i (sh l) <-> In i l).
  { intros l i. split; intros H; [eapply Permutation_in; [apply SH|exact H]|eapply Permutation_in; [apply Permutation_sym, SH|exact H]]. }
  assert (ND : ndim m = 2%nat \/ ndim m = 3%nat) by (destruct SM as [(D & _)|(D & _)]; auto).
  destruct (first_in_ok (sh (gc_large g)) zeta LZ) as (z1 & r1 & -> & L1 & S1 & A1).
  { intros id H. apply (proj1 (SI _ _)) in H. exact (w_large m g W id H). }
  cbn [bind]. destruct r1 as [id|].
  - exists z1, (Some id). split; auto. split; auto. split; auto. destruct A1 as (I1 & A1). split; auto. apply in_seq. apply (proj1 (SI _ _)) in I1. pose proof (w_large m g W id I1). lia.
  - destruct (cells_exist (ndim m) (gc_side g) (gc_ndiv g) (gc_xmin g) x (w_side m g W) (w_ndiv m g W)) as (cs & IA).
    { intros i Hi. destruct (w_max m g W i Hi) as (A & B). split; auto. rewrite <- B. auto. }
    pose proof (key_ok (ndim m) (gc_side g) (gc_ndiv g) (gc_xmin g) x cs ND (w_side m g W) (w_ndiv m g W) (w_xmin m g W) LX IA) as EK.
    rewrite EK. cbn [bind].
    assert (CP : forall id, contains m id x -> held (gc_containers g) (key_at (ndim m) (gc_ndiv g) cs) id).
    { intros id C. eapply container_complete; eauto. intros L. apply (A1 id); auto. now apply SI. }
    destruct (mget Nat.eqb (gc_containers g) (key_at (ndim m) (gc_ndiv g) cs)) as [l|] eqn:EG.
    + destruct (first_in_ok (sh l) z1 L1) as (z2 & r2 & -> & L2 & S2 & A2).
      { intros id H. apply (proj1 (SI _ _)) in H. apply (w_held m g W (key_at (ndim m) (gc_ndiv g) cs) id). exists l. auto. }
      exists z2, r2. split; auto. split; auto. split; [congruence|]. destruct r2 as [id|].
      * destruct A2 as (I2 & A2). split; auto. apply in_seq. apply (proj1 (SI _ _)) in I2.
        assert (Q : held (gc_containers g) (key_at (ndim m) (gc_ndiv g) cs) id) by (exists l; auto). apply (w_held m g W) in Q as (Q & _). lia.
      * intros id _ C. destruct (CP id C) as (l' & E' & I'). rewrite EG in E'. injection E' as <-. apply (A2 id); auto. now apply SI.
    + exists z1, None. split; auto. split; auto. split; auto. intros id _ C. destruct (CP id C) as (l' & E' & I'). congruence.
Qed.
Lemma search_out zeta : List.length zeta = 4%nat ->
  ~ (forall i, (i < ndim m)%nat -> nth i (gc_xmin g) 0 <= nth i x 0 <= nth i (gc_xmax g) 0) ->
  exists e, gc_search sh g zeta x = Err e.
Proof.
  intros LZ IN. unfold gc_search. rewrite (w_mesh m g W), LZ, LX, !Nat.eqb_refl. cbn [negb].
  destruct bounds_ok as (b & -> & BI). destruct b; [exfalso; apply IN, BI; reflexivity|]. cbn. eauto.
Qed.
End Member.
