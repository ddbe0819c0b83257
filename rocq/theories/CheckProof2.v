(* Proofs: two points in neighbouring containers may be missed however near they are *)
From Coq Require Import String List Arith Bool Reals Lra Lia Permutation ZArith.
From Verif Require Import Base BaseFacts Kind MeshModel MeshQuerySpec TopoModel TopoSpec TopoMaps TopoFeat TopoFeat4 TopoFinal
  GeomModel GeomSpec GeomProof GridModel GridSpec GridProof GridProof2 GridProof3 PropGrid SearchProof JoinProof CheckModel CheckSpec CheckProof.
Import ListNotations.
Open Scope R_scope.

(* the items of an id first *)
Definition front (i : nat) (c : container) : container := filter (fun it => Nat.eqb (fst it) i) c ++ filter (fun it => negb (Nat.eqb (fst it) i)) c.
Lemma front_perm i c : Permutation (front i c) c.
Proof.
  unfold front. induction c as [|it c IH]; [reflexivity|]. cbn [filter]. destruct (Nat.eqb (fst it) i); cbn [negb app].
  - constructor. exact IH.
  - rewrite <- Permutation_middle. constructor. exact IH.
Qed.

(* a square with two interior points at both sides of the line x = 1/2 *)
Definition splitM (d : R) : mesh R := mkMesh 2
  [mkPoint 0 0%Z [0; 0]; mkPoint 1 0%Z [98/100; 0]; mkPoint 2 0%Z [98/100; 98/100]; mkPoint 3 0%Z [0; 98/100];
   mkPoint 4 0%Z [1/2 - d; 505/1000]; mkPoint 5 0%Z [1/2 + d; 505/1000]]
  [mkCell 0 1%Z Tri3 [0; 1; 4]%nat; mkCell 1 1%Z Tri3 [1; 2; 5]%nat] [] [].
Definition splitSh (k : option nat) (c : container) : container :=
  match k with Some k => if (k =? 50 + 51 * 100)%nat then front 4 c else front 5 c | None => c end.

Lemma splitSh_perm k c : Permutation (splitSh k c) c.
Proof. unfold splitSh. destruct k as [k|]; [|reflexivity]. destruct (k =? 50 + 51 * 100)%nat; apply front_perm. Qed.
Lemma split_valid d : valid (splitM d).
Proof.
  split; [split|split; [|left; reflexivity]].
  - intros [|[|[|[|[|[|i]]]]]] p H; cbn in H; try (injection H as <-; reflexivity). destruct i; discriminate.
  - intros [|[|i]] c H; cbn in H; try (injection H as <-; split; [reflexivity|]; split; [reflexivity|]; cbn; intros q Hq; intuition lia). destruct i; discriminate.
  - intros p [<-|[<-|[<-|[<-|[<-|[<-|[]]]]]]]; reflexivity.
Qed.
Lemma split_roomy d : roomy (splitM d) (/ 1000).
Proof.
  split.
  - intros i Hi. exists (mkPoint 0 0%Z [0; 0]), (mkPoint 2 0%Z [98/100; 98/100]). split; [left; reflexivity|]. split; [right; right; left; reflexivity|].
    cbn in Hi. destruct i as [|[|i]]; cbn; [lra|lra|lia].
  - exists 0%nat. split; [cbn; lia|]. exists (mkPoint 0 0%Z [0; 0]), (mkPoint 2 0%Z [98/100; 98/100]). split; [left; reflexivity|]. split; [right; right; left; reflexivity|]. cbn. lra.
Qed.
Lemma split_limits d xmin xmax : 0 < d <= / 2000 -> limits_of (splitM d) xmin xmax -> xmin = [0; 0] /\ xmax = [98/100; 98/100].
Proof.
  intros Hd (L1 & L2 & L). change (ndim (splitM d)) with 2%nat in *. destruct (nlen2 xmin L1) as (a0 & a1 & ->). destruct (nlen2 xmax L2) as (b0 & b1 & ->).
  assert (K : forall j, (j < 2)%nat -> nth j [a0; a1] 0 = 0 /\ nth j [b0; b1] 0 = 98/100).
  { intros j Hj. destruct (L j Hj) as ((p & Ip & Ep) & (q & Iq & Eq) & B).
    pose proof (B (mkPoint 0 0%Z [0; 0]) ltac:(left; reflexivity)) as B0. pose proof (B (mkPoint 2 0%Z [98/100; 98/100]) ltac:(right; right; left; reflexivity)) as B2. cbn [pt_coords] in B0, B2.
    assert (P : forall r, In r (points (splitM d)) -> 0 <= nth j (pt_coords r) 0 <= 98/100).
    { intros r [<-|[<-|[<-|[<-|[<-|[<-|[]]]]]]]; destruct j as [|[|j]]; try lia; cbn; lra. }
    pose proof (P p Ip). pose proof (P q Iq). assert (Z0 : nth j [0; 0] 0 = 0) by (destruct j as [|[|j]]; try lia; reflexivity).
    assert (Z1 : nth j [98/100; 98/100] 0 = 98/100) by (destruct j as [|[|j]]; try lia; reflexivity). split; lra. }
  destruct (K 0%nat ltac:(lia)) as (K1 & K2). destruct (K 1%nat ltac:(lia)) as (K3 & K4). cbn in K1, K2, K3, K4. subst. auto.
Qed.
Lemma split_grid g : grid_new [0; 0] [98/100; 98/100] None (Some (/ 1000)) None = Ok g ->
  g_ndiv g = [100; 100]%nat /\ g_xmin g = [- / 100; - / 100] /\ g_side g = / 100.
Proof.
  intros E. destruct (num_div_ok 1 100 [0; 0] [98/100; 98/100]) as (Lg & HL & _ & EN); auto; try lia. { intros [|[|i]] Hi; simpl in *; try lia; lra. }
  assert (I100 : INR 100 = 100) by (rewrite INR_IZR_INZ; reflexivity).
  assert (EN' : num_divisions 1 100 [0; 0] [98/100; 98/100] = Ok [100; 100]%nat).
  { rewrite EN. cbn [List.length seq map]. unfold chosen.
    assert (A : as_usize ((98/100 - 0) / (98/100 - 0) * INR 100) = 100%nat). { replace ((98/100 - 0) / (98/100 - 0) * INR 100) with (INR 100) by (field; lra). apply as_usize_unique. lra. }
    destruct Lg as [|[|Lg]]; [| |simpl in HL; lia]; cbn [nth Nat.eqb]; rewrite A; reflexivity. }
  unfold grid_new in E. cbn -[num_divisions side_of Rleb Rltb GS_DEFAULT_NDIV] in E. unfold GS_DEFAULT_NDIV in E. cbn [Nat.ltb Nat.leb] in E. rewrite EN' in E. cbn [bind get nth_error] in E.
  rewrite (proj2 (Rleb_false _ _)) in E by lra. unfold GS_DEFAULT_BORDER_TOL in E. rewrite (proj2 (Rltb_false _ _)) in E by lra.
  replace (Rltb 0 (/ 100)) with true in E by (symmetry; apply Rltb_iff; lra).
  unfold side_of in E. cbn [get nth_error bind seq Nat.sub foldM map] in E. rewrite I100 in E.
  replace ((98 / 100 + / 100 - (0 - / 100)) / 100) with (/ 100) in E by lra. rewrite Rmax_left in E by lra. rewrite (proj2 (Rleb_false _ _)) in E by lra. injection E as <-. cbn [g_ndiv g_xmin g_side].
  split; [reflexivity|]. split; [repeat f_equal; lra|reflexivity].
Qed.

Lemma first_front tol x i c : List.length x = 2%nat -> 0 <= tol -> (exists y, In (i, y) c) -> (forall y, In (i, y) c -> y = x) -> first_near tol x (front i c) = Ok (Some i).
Proof.
  intros L T (y & I) U. unfold front. assert (F : In (i, y) (filter (fun it => Nat.eqb (fst it) i) c)) by (apply filter_In; split; [exact I|apply Nat.eqb_refl]).
  destruct (filter (fun it => Nat.eqb (fst it) i) c) as [|(k, z) t] eqn:E; [destruct F|].
  assert (H : In (k, z) (filter (fun it => Nat.eqb (fst it) i) c)) by (rewrite E; left; reflexivity). apply filter_In in H as (H1 & H2). apply Nat.eqb_eq in H2. cbn in H2. subst k.
  rewrite (U z H1). cbn [app first_near]. rewrite (ppd_ok x x) by auto. cbn [bind].
  replace (euclid x x) with 0. { rewrite (proj2 (Rleb_iff 0 tol)) by exact T. reflexivity. }
  symmetry. unfold euclid. replace (sqdist x x) with 0; [apply sqrt_0|]. destruct (nlen2 x L) as (a & b & ->). cbn. lra.
Qed.

Lemma split_check d : 0 < d <= / 2000 -> check_overlapping_points splitSh (splitM d) (/ 1000) = Ok tt.
Proof.
  intros Hd. destruct (check_run splitSh (splitM d) (/ 1000) (split_valid d) ltac:(lra) (split_roomy d)) as (g0 & g & xmin & xmax & -> & L & G & W & EN & ET & IN & H).
  destruct (split_limits d xmin xmax Hd L) as (-> & ->). destruct (split_grid g0 G) as (Ediv & Emin & Es). change (ndim (splitM d)) with 2%nat in EN.
  pose proof (split_valid d) as V. pose proof V as (C & CC & _).
  assert (VS : forall p, In p (points (splitM d)) -> exists id q, visit splitSh g (pt_coords p) = Ok (Some id) /\ nth_error (points (splitM d)) id = Some q /\ euclid (pt_coords q) (pt_coords p) <= sqrt 2 * / 1000).
  { intros p I. destruct (visit_spec splitSh splitSh_perm (splitM d) (/ 1000) g0 g p V W EN ET IN H I) as (id & q & A & B & D). exists id, q. split; [exact A|]. split; [exact B|]. replace (INR (ndim (splitM d))) with 2 in D by (cbn; lra). exact D. }
  assert (OWN : forall i p, nth_error (points (splitM d)) i = Some p -> forall cs, locates g0 (pt_coords p) cs -> (splitSh (Some (keyof g0 cs)) = front i) -> visit splitSh g (pt_coords p) = Ok (Some i)).
  { intros i p Ni cs Hc Hs. pose proof (nth_error_In _ _ Ni) as Ip. unfold visit. rewrite (same_key g0 g) by (apply H). rewrite (key_loc g0 _ cs W Hc). rewrite Hs.
    unfold grid_search. rewrite (ndim_same g0 g (h_same _ _ _ H)), EN, (CC p Ip). cbn [ndim splitM Nat.eqb negb]. rewrite (same_key g0 g) by (apply H). rewrite (key_loc g0 _ cs W Hc). cbn [bind].
    assert (Hi : In (i, pt_coords p) (hist_of (splitM d))) by (apply hist_in; eauto).
    destruct (h_own _ _ _ H i (pt_coords p) cs (hist_last _ _ _ C Hi) Hc) as (c & Q1 & Q2). rewrite Q1.
    apply first_front.
    - apply (CC p Ip).
    - rewrite (wf_tol_dist g (h_wf _ _ _ H)). pose proof (wf_tol g (h_wf _ _ _ H)). pose proof (sqrt_pos (INR (g_ndim g))). nra.
    - exists (pt_coords p). apply (TopoMaps.mget_in Nat.eqb Nat.eqb_eq) in Q2. exact Q2.
    - intros y Iy. assert (SA : stored_at g (keyof g0 cs) i y).
      { exists c. split; [exact Q1|]. apply (TopoMaps.in_mget Nat.eqb Nat.eqb_eq); [|exact Iy]. apply (wf_ids g (h_wf _ _ _ H) (keyof g0 cs)). apply (TopoMaps.mget_in Nat.eqb Nat.eqb_eq) in Q1. exact Q1. }
      apply (h_from _ _ _ H) in SA. apply (hist_in _ i y C) in SA as (q & Nq & <-). congruence. }
  assert (I51 : INR 51 = 51) by (rewrite INR_IZR_INZ; reflexivity). assert (I50 : INR 50 = 50) by (rewrite INR_IZR_INZ; reflexivity).
  assert (V4 : visit splitSh g [1/2 - d; 505/1000] = Ok (Some 4%nat)).
  { apply (OWN 4%nat (mkPoint 4 0%Z [1/2 - d; 505/1000]) eq_refl [50; 51]%nat).
    - unfold locates. rewrite EN, Ediv, Emin, Es. split; [reflexivity|]. split; [reflexivity|]. intros [|[|i]] Hi; try lia; cbn [nth pt_coords]; unfold is_cell; repeat split; try lia; rewrite ?I50, ?I51; lra.
    - unfold keyof. rewrite Ediv. reflexivity. }
  assert (V5 : visit splitSh g [1/2 + d; 505/1000] = Ok (Some 5%nat)).
  { apply (OWN 5%nat (mkPoint 5 0%Z [1/2 + d; 505/1000]) eq_refl [51; 51]%nat).
    - unfold locates. rewrite EN, Ediv, Emin, Es. split; [reflexivity|]. split; [reflexivity|]. intros [|[|i]] Hi; try lia; cbn [nth pt_coords]; unfold is_cell; repeat split; try lia; rewrite ?I50, ?I51; lra.
    - unfold keyof. rewrite Ediv. reflexivity. }
  pose proof sqrt2_bounds as S2.
  assert (FAR : forall x y i, (i < 2)%nat -> List.length x = 2%nat -> List.length y = 2%nat -> / 10 < Rabs (nth i x 0 - nth i y 0) -> euclid x y <= sqrt 2 * / 1000 -> False).
  { intros x y i Hi Lx Ly F D. pose proof (coord_le_euclid x y i (nth i x 0) (nth i y 0) (nth_error_nth' x 0 (n := i) ltac:(lia)) (nth_error_nth' y 0 (n := i) ltac:(lia))). lra. }
  destruct (verdict_spec splitSh g (points (splitM d))) as [(A & _)|(_ & p & id & I & E & Nid)]; [|exact A|].
  { intros p I. destruct (VS p I) as (id & q & A & _). eauto. }
  exfalso. destruct (VS p I) as (id' & q & E' & Nq & D). rewrite E in E'. injection E' as <-.
  destruct I as [<-|[<-|[<-|[<-|[<-|[<-|[]]]]]]]; cbn [pt_coords pt_id] in *; [| | | |rewrite V4 in E; congruence|rewrite V5 in E; congruence];
  (destruct id as [|[|[|[|[|[|id]]]]]]; cbn in Nq; try (destruct id; discriminate); injection Nq as <-; cbn [pt_coords] in D; try congruence);
  first [refine (FAR _ _ 0%nat ltac:(lia) _ _ _ D); [reflexivity|reflexivity|cbn [nth]; unfold Rabs; destruct (Rcase_abs _); lra]|refine (FAR _ _ 1%nat ltac:(lia) _ _ _ D); [reflexivity|reflexivity|cbn [nth]; unfold Rabs; destruct (Rcase_abs _); lra]].
Qed.

Lemma check_misses eps : 0 < eps -> exists sh m tol p q, (forall k c, Permutation (sh k c) c) /\ valid m /\ 0 < tol /\ roomy m tol /\
  two_points m p q /\ euclid (pt_coords p) (pt_coords q) <= eps /\ euclid (pt_coords p) (pt_coords q) <= tol /\ check_overlapping_points sh m tol = Ok tt.
Proof.
  intros He. set (d := Rmin (eps / 2) (/ 2000)). assert (Hd : 0 < d <= / 2000 /\ d <= eps / 2) by (unfold d, Rmin; destruct (Rle_dec _ _); lra).
  exists splitSh, (splitM d), (/ 1000), (mkPoint 4 0%Z [1/2 - d; 505/1000]), (mkPoint 5 0%Z [1/2 + d; 505/1000]).
  split; [apply splitSh_perm|]. split; [apply split_valid|]. split; [lra|]. split; [apply split_roomy|]. split; [exists 4%nat, 5%nat; split; [discriminate|split; reflexivity]|].
  assert (E : euclid [1/2 - d; 505/1000] [1/2 + d; 505/1000] = 2 * d).
  { unfold euclid. cbn. match goal with |- sqrt ?e = _ => replace e with ((2 * d) * (2 * d)) by lra end. apply sqrt_square. lra. }
  cbn [pt_coords]. rewrite E. split; [lra|]. split; [lra|]. apply split_check. lra.
Qed.
