(* Proofs: the search grid of the features of a mesh, searches for points *)
From Coq Require Import String List Arith Bool Reals Lra Lia Permutation Sorted.
From Verif Require Import Base BaseFacts Kind MeshModel MeshQuerySpec TopoModel TopoSpec TopoMaps TopoFeat4 TopoFinal
  GeomModel GeomSpec GeomProof GridModel GridSpec GridProof GridProof2 GridProof3 PropGrid SearchModel SearchSpec.
Import ListNotations.
Open Scope R_scope.

Lemma Rleb_total : total_order Rleb.
Proof.
  split.
  - intros x y. destruct (Rle_or_lt x y); [left|right]; apply Rleb_iff; lra.
  - intros x y z. rewrite !Rleb_iff. lra.
Qed.
Lemma EPSILON_lt1 : EPSILON < 1.
Proof. unfold EPSILON. rewrite <- Rinv_1. apply Rinv_lt_contravar; [rewrite Rmult_1_l; apply pow_lt; lra|]. apply Rlt_pow_R1; [lra|lia]. Qed.

Definition coords_at (m : mesh R) (p : nat) : list R := match nth_error (points m) p with Some pt => pt_coords pt | None => [] end.
Definition hist (m : mesh R) (l : list nat) : history := map (fun p => (p, coords_at m p)) l.
Lemma hist_fst m l : map fst (hist m l) = l.
Proof. unfold hist. rewrite map_map. cbn. apply map_id. Qed.

Definition tolR (n : nat) : R := sqrt (INR n) * / 10000.

Section Grid.
Variable shp : list nat -> list nat.
Hypothesis shpP : forall l, Permutation (shp l) l.
Variable shuffle : emap -> emap.
Hypothesis shuffled : forall l, Permutation (shuffle l) l.

Lemma insert_all m l : forall g g',
  foldM (fun (g : grid) p => let! pt := get (points m) p in or_panic (grid_insert g p (pt_coords pt))) l g = Ok g' ->
  foldM (fun (g : grid) (p : nat * list R) => grid_insert g (fst p) (snd p)) (hist m l) g = Ok g' /\ forall p, In p l -> exists pt, nth_error (points m) p = Some pt.
Proof.
  induction l as [|p t IH]; intros g g' H.
  - cbn in *. split; [auto|]. intros p [].
  - cbn [foldM] in H. apply bind_ok in H as (g1 & H1 & H2). apply bind_ok in H1 as (pt & G & I).
    assert (NE : nth_error (points m) p = Some pt). { unfold get in G. destruct (nth_error (points m) p); [congruence|discriminate]. }
    destruct (grid_insert g p (pt_coords pt)) eqn:E; cbn in I; try discriminate. injection I as ->.
    destruct (IH _ _ H2) as (A & B). split.
    + cbn [hist map foldM fst snd]. unfold coords_at. rewrite NE, E. cbn [bind]. exact A.
    + intros q [<-|Hq]; eauto.
Qed.

Lemma grid_made m ft g : features_grid shp m ft = Ok g ->
  exists xmin xmax, mapM unwrap (fst (ft_limits ft)) = Ok xmin /\ mapM unwrap (snd (ft_limits ft)) = Ok xmax /\
    reached xmin xmax None (/ 10000) (/ 100) (hist m (shp (ft_points ft))) g /\ forall p, In p (ft_points ft) -> exists pt, nth_error (points m) p = Some pt.
Proof.
  unfold features_grid. intros H. apply bind_ok in H as (xmin & E1 & H). apply bind_ok in H as (xmax & E2 & H). apply bind_ok in H as (g0 & N & H).
  destruct (grid_new xmin xmax None None None) eqn:G; cbn in N; try discriminate. injection N as ->.
  destruct (insert_all m _ _ _ H) as (A & B). exists xmin, xmax. repeat split; auto.
  - exists g0. split; [exact G|exact A].
  - intros p Hp. apply B. eapply Permutation_in; [apply Permutation_sym, shpP|exact Hp].
Qed.

Lemma unwrap_nth (l : list (option R)) r j d : mapM unwrap l = Ok r -> (j < List.length l)%nat -> nth j l None = Some (nth j r d).
Proof.
  intros H Hj. apply mapM_ok in H. revert j Hj. induction H as [|x y l r E H IH]; intros j Hj; cbn in Hj; [lia|].
  destruct j as [|j]; cbn [nth]; [|apply IH; lia]. destruct x; cbn in E; congruence.
Qed.
Lemma unwrap_total (l : list (option R)) : (forall j, (j < List.length l)%nat -> nth j l None <> None) -> exists r, mapM unwrap l = Ok r.
Proof.
  induction l as [|x t IH]; intros H; cbn [mapM]; [eauto|]. destruct x as [x|]; [|exfalso; apply (H 0%nat); cbn; [lia|reflexivity]].
  cbn [unwrap bind]. destruct IH as (r & ->); [intros j Hj; apply (H (S j)); cbn; lia|]. cbn. eauto.
Qed.
Lemma unwrap_panic (l : list (option R)) j : (j < List.length l)%nat -> nth j l None = None -> mapM unwrap l = Panic.
Proof.
  revert j. induction l as [|x t IH]; intros j Hj; cbn in Hj; [lia|]. destruct j; cbn [nth]; intros E.
  - subst x. reflexivity.
  - cbn [mapM]. destruct x; [|reflexivity]. cbn. rewrite (IH j) by (auto; lia). reflexivity.
Qed.

Definition ready (m : mesh R) (ea : bool) (ft : features) : Prop :=
  consistent m /\ coords_complete m /\ (ndim m = 2 \/ ndim m = 3)%nat /\ features_new Rleb shuffle m ea = Ok ft.

Lemma coords_of_len m ea ft p c : ready m ea ft -> coords_of m p c -> List.length c = ndim m.
Proof. intros (_ & CC & _) (pt & N & <-). apply CC. eapply nth_error_In; eauto. Qed.

(* coordinates of the points are within the limits *)
Lemma in_limits m ea ft xmin xmax p c : ready m ea ft -> mapM unwrap (fst (ft_limits ft)) = Ok xmin -> mapM unwrap (snd (ft_limits ft)) = Ok xmax ->
  In p (ft_points ft) -> coords_of m p c ->
  List.length xmin = ndim m /\ List.length xmax = ndim m /\ forall j, (j < ndim m)%nat -> nth j xmin 0 <= nth j c 0 <= nth j xmax 0.
Proof.
  intros Rd E1 E2 Hp Hc. pose proof (coords_of_len _ _ _ _ _ Rd Hc) as LC. destruct Rd as (C & CC & D & F).
  destruct (points_and_limits Rleb shuffle shuffled m ea ft Rleb_total C D F) as (ND & U & L1 & L2 & L).
  split; [rewrite (mapM_length _ _ _ E1); auto|]. split; [rewrite (mapM_length _ _ _ E2); auto|]. intros j Hj. destruct (L j Hj) as (A & B).
  rewrite (unwrap_nth _ _ j 0 E1) in A by lia. rewrite (unwrap_nth _ _ j 0 E2) in B by lia.
  assert (X : exists q, ((exists a b ed, get_edge ft a b = Ok ed /\ In q (e_points ed)) \/ (exists k fc, get_face ft k = Ok fc /\ In q (f_points fc)) \/
                (exists cl, cable_or_shell m cl /\ In q (c_points cl))) /\ coord_is m q j (nth j c 0)).
  { exists p. split; [apply U; exact Hp|]. destruct Hc as (pt & N & <-). exists pt. split; [exact N|]. apply nth_error_nth'. lia. }
  split; apply Rleb_iff; [apply A|apply B]; exact X.
Qed.

(* when the grid can be made *)
Lemma grid_total m ea ft : ready m ea ft ->
  (forall j, (j < ndim m)%nat -> exists p q x y, In p (ft_points ft) /\ In q (ft_points ft) /\ coord_is m p j x /\ coord_is m q j y /\ x <> y) ->
  exists g, features_grid shp m ft = Ok g.
Proof.
  intros Rd W. pose proof Rd as (C & CC & D & F). destruct (points_and_limits Rleb shuffle shuffled m ea ft Rleb_total C D F) as (ND & U & L1 & L2 & L).
  assert (T1 : exists xmin, mapM unwrap (fst (ft_limits ft)) = Ok xmin).
  { apply unwrap_total. rewrite L1. intros j Hj E. destruct (L j Hj) as (A & _). rewrite E in A. destruct (W j Hj) as (p & q & x & y & Hp & _ & Hx & _). apply (A x). exists p. split; [apply U; auto|auto]. }
  assert (T2 : exists xmax, mapM unwrap (snd (ft_limits ft)) = Ok xmax).
  { apply unwrap_total. rewrite L2. intros j Hj E. destruct (L j Hj) as (_ & A). rewrite E in A. destruct (W j Hj) as (p & q & x & y & Hp & _ & Hx & _). apply (A x). exists p. split; [apply U; auto|auto]. }
  destruct T1 as (xmin & E1), T2 as (xmax & E2).
  assert (N1 : List.length xmin = ndim m) by (rewrite (mapM_length _ _ _ E1); auto). assert (N2 : List.length xmax = ndim m) by (rewrite (mapM_length _ _ _ E2); auto).
  assert (PT : forall p, In p (ft_points ft) -> exists pt, nth_error (points m) p = Some pt).
  { intros p Hp. destruct (W 0%nat ltac:(lia)) as (p0 & _ & x0 & _ & _ & _ & (pt0 & _) & _). clear p0 x0 pt0.
    apply U in Hp. assert (B : (p < List.length (points m))%nat); [|apply nth_error_Some in B; destruct (nth_error (points m) p); [eauto|congruence]].
    destruct Hp as [(a & b & ed & G & I)|[(k & fc & G & I)|(cl & (I & _) & J)]].
    - destruct D as [D|D].
      + destruct (TopoFeat3.edges_2d Rleb shuffle shuffled m ea ft C D F) as (_ & _ & _ & I2). destruct (I2 a b ed G) as (_ & ce & _ & (cl & H1 & _ & _ & _ & _ & H6)).
        apply (in_map Some) in I. rewrite <- H6 in I. apply in_map_iff in I. destruct I as (i & Ei & _). apply nth_error_In in Ei. apply In_nth_error in H1 as (n & H1). apply (proj2 C n cl H1). exact Ei.
      + destruct (TopoFeat3.faces_3d Rleb shuffle m ea ft C D F) as (_ & _ & _ & I1 & _ & _ & I2). destruct (I2 a b ed G) as (_ & k & fc & e & p0 & q0 & G' & _ & _ & (_ & SN)).
        apply (in_map Some) in I. rewrite <- SN in I. apply in_map_iff in I. destruct I as (i & Ei & _). apply nth_error_In in Ei.
        destruct (TopoFeat6.get_face_points Rleb shuffle m ea ft k fc C D F G') as (cf & cl & _ & H1 & _ & _ & _ & _ & _ & H6 & _).
        apply (in_map Some) in Ei. rewrite <- H6 in Ei. apply in_map_iff in Ei. destruct Ei as (i' & Ei & _). apply nth_error_In in Ei. apply In_nth_error in H1 as (n & H1). apply (proj2 C n cl H1). exact Ei.
    - destruct D as [D|D].
      + destruct (TopoFeat3.edges_2d Rleb shuffle shuffled m ea ft C D F) as (_ & NF & _). apply TopoFeat3.get_face_iff in G. rewrite NF in G. discriminate.
      + destruct (TopoFeat6.get_face_points Rleb shuffle m ea ft k fc C D F G) as (cf & cl & _ & H1 & _ & _ & _ & _ & _ & H6 & _).
        apply (in_map Some) in I. rewrite <- H6 in I. apply in_map_iff in I. destruct I as (i' & Ei & _). apply nth_error_In in Ei. apply In_nth_error in H1 as (n & H1). apply (proj2 C n cl H1). exact Ei.
    - apply In_nth_error in I as (n & H1). apply (proj2 C n cl H1). exact J. }
  assert (PO : forall j, (j < ndim m)%nat -> nth j xmin 0 < nth j xmax 0).
  { intros j Hj. destruct (W j Hj) as (p & q & x & y & Hp & Hq & (p' & Np & Hx) & (q' & Nq & Hy) & Ne).
    destruct (in_limits m ea ft xmin xmax p (pt_coords p') Rd E1 E2 Hp) as (_ & _ & B1); [exists p'; auto|].
    destruct (in_limits m ea ft xmin xmax q (pt_coords q') Rd E1 E2 Hq) as (_ & _ & B2); [exists q'; auto|].
    specialize (B1 j Hj). specialize (B2 j Hj). rewrite (nth_error_nth _ _ 0 Hx) in B1. rewrite (nth_error_nth _ _ 0 Hy) in B2. lra. }
  destruct (new_total xmin xmax None None None 0%nat) as (g0 & G0); try (rewrite N1); auto; try lia; cbn [the_tol the_border the_ndiv].
  { unfold GS_DEFAULT_NDIV. lia. } { unfold GS_DEFAULT_TOLERANCE. lra. } { unfold GS_DEFAULT_BORDER_TOL. lra. }
  { specialize (PO 0%nat ltac:(lia)). unfold GS_DEFAULT_TOLERANCE, GS_DEFAULT_NDIV, GS_DEFAULT_BORDER_TOL. replace (INR 100) with 100 by (rewrite INR_IZR_INZ; reflexivity). lra. }
  unfold features_grid. rewrite E1, E2. cbn [bind]. rewrite G0. cbn [or_panic bind].
  assert (R0 : reached xmin xmax None (/10000) (/100) [] g0) by (exists g0; split; [exact G0|reflexivity]).
  assert (K : forall l h g, (forall p, In p l -> In p (ft_points ft)) -> reached xmin xmax None (/10000) (/100) h g ->
     exists g', foldM (fun (g : grid) p => let! pt := get (points m) p in or_panic (grid_insert g p (pt_coords pt))) l g = Ok g').
  { induction l as [|p t IH]; intros h g HI R; cbn [foldM]; [eauto|].
    assert (Hp : In p (ft_points ft)) by (apply HI; left; reflexivity). destruct (PT p Hp) as (pt & NE).
    assert (G : get (points m) p = Ok pt) by (unfold get; rewrite NE; reflexivity). rewrite G. cbn [bind].
    destruct (C14_insert_total _ _ _ _ _ _ _ p (pt_coords pt) R) as (I & _). destruct I as (g' & I & R').
    - apply (C14_limits_cover _ _ _ _ _ _ _ _ R). assert (HC : coords_of m p (pt_coords pt)) by (exists pt; auto).
      destruct (in_limits m ea ft xmin xmax p (pt_coords pt) Rd E1 E2 Hp HC) as (_ & _ & B). split; [rewrite map_length, N1; eapply coords_of_len; eauto|].
      intros i Hi. rewrite map_length, N1 in Hi. rewrite !nth_map0 by lia. specialize (B i Hi). lra.
    - rewrite I. cbn [or_panic bind]. eapply IH; [|exact R']. intros q Hq. apply HI. right. exact Hq. }
  apply (K (shp (ft_points ft)) [] g0); [|exact R0]. intros p Hp. eapply Permutation_in; [apply shpP|exact Hp].
Qed.

Lemma grid_flat m ea ft j : ready m ea ft -> (j < ndim m)%nat ->
  (forall p q x y, In p (ft_points ft) -> In q (ft_points ft) -> coord_is m p j x -> coord_is m q j y -> x = y) ->
  features_grid shp m ft = Panic.
Proof.
  intros Rd Hj W. pose proof Rd as (C & CC & D & F). destruct (points_and_limits Rleb shuffle shuffled m ea ft Rleb_total C D F) as (ND & U & L1 & L2 & L).
  assert (PP : forall l : list (option R), (exists r, mapM unwrap l = Ok r) \/ mapM unwrap l = Panic).
  { induction l as [|[x|] t IH]; cbn; [eauto| |auto]. destruct IH as [(r & ->)| ->]; cbn; eauto. }
  unfold features_grid. destruct (PP (fst (ft_limits ft))) as [(xmin & E1)| ->]; [|reflexivity]. rewrite E1. cbn [bind].
  destruct (PP (snd (ft_limits ft))) as [(xmax & E2)| ->]; [|reflexivity]. rewrite E2. cbn [bind].
  assert (N1 : List.length xmin = ndim m) by (rewrite (mapM_length _ _ _ E1); auto).
  destruct (new_no_panic xmin xmax None None None) as [(g & G)|(e & G)]; [|rewrite G; reflexivity]. exfalso.
  apply new_inv in G as (_ & _ & _ & P & _). specialize (P j ltac:(lia)).
  destruct (L j Hj) as (A & B). rewrite (unwrap_nth _ _ j 0 E1) in A by lia. rewrite (unwrap_nth _ _ j 0 E2) in B by lia.
  destruct A as ((p & Hp & Hx) & _), B as ((q & Hq & Hy) & _). rewrite (W p q _ _ (proj2 (U p) Hp) (proj2 (U q) Hq) Hx Hy) in P. lra.
Qed.
End Grid.
