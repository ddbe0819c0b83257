(* Proofs: symmetric neighbours, lookups via faces, boundary edges, marked features, totality *)
From Coq Require Import String List Arith Bool ZArith Lia Permutation Sorted.
From Verif Require Import Base BaseFacts Kind ShapesProof ShapesTables MeshModel MeshQuerySpec TopoModel TopoSpec TopoMaps TopoProof TopoFeat TopoFeat2 TopoFeat3 TopoFeat4.
Import ListNotations.
Open Scope nat_scope.

Section More.
Context {T : Type}.
Variable leb : T -> T -> bool.
Variable shuffle : emap -> emap.
Hypothesis shuffled : forall l, Permutation (shuffle l) l.
Implicit Types (m : mesh T) (ft : @features T).

Definition fits m : Prop := forall c, In c (cells m) -> kind_ndim (c_kind c) <= ndim m.

Lemma edges_are_2d k e : kind_ndim k <= 2 -> e < kind_nedge k -> kind_ndim k = 2.
Proof. destruct k; vm_compute; intros; lia. Qed.

Lemma neighbors_iff m ea ft c r : consistent m -> fits m -> ndim m = 2 -> features_new leb shuffle m ea = Ok ft ->
  get_neighbors_2d m ft c = Ok r ->
  NoDup r /\ forall e n ne, In (e, n, ne) r <-> n <> c /\ exists a b, has_edge m a b (c, e) /\ has_edge m a b (n, ne).
Proof.
  intros C F D H G. destruct (features_2d_inv _ _ _ _ _ D H) as (em & pl & E1 & E2 & _).
  assert (X : exists cl, nth_error (cells m) c = Some cl).
  { unfold get_neighbors_2d in G. destruct (ndim m =? 2); cbn [negb] in G; [|discriminate].
    apply bind_ok in G. destruct G as (cl & G & _). apply get_iff in G. eauto. }
  destruct X as (cl & EC).
  destruct (neighbors_spec m em ft c r (nodup_ids m C) E1 E2 G cl EC) as [N S]. split; [exact N|].
  assert (IC : In cl (cells m)) by (eapply nth_error_In; exact EC).
  assert (ID : c_id cl = c) by (destruct C as [_ C]; apply (C c cl EC)).
  intros e n ne. rewrite S. split.
  - intros (He & Nc & p & q & P1 & P2 & P3). split; [exact Nc|]. exists p, q. split; [|exact P3].
    exists p, q. split; [|left; auto]. exists cl. cbn [fst snd].
    assert (K : kind_ndim (c_kind cl) = 2) by (apply (edges_are_2d _ e); [specialize (F cl IC); lia|exact He]).
    repeat split; auto.
  - intros (Nc & a & b & (p & q & (cl' & H1 & H2 & H3 & H4 & H5 & H6) & SP) & HB). cbn [fst snd] in *.
    assert (cl' = cl).
    { pose proof (cell_by_id m cl' C H1) as X. rewrite H2, EC in X. injection X as <-. reflexivity. }
    subst cl'. split; [exact H4|]. split; [exact Nc|]. exists p, q. split; [exact H5|]. split; [exact H6|].
    destruct HB as (p' & q' & HB & SP'). exists p', q'. split; [exact HB|]. unfold same_pair in *. intuition congruence.
Qed.
Lemma neighbors_total m ea ft c : consistent m -> fits m -> ndim m = 2 -> features_new leb shuffle m ea = Ok ft ->
  c < List.length (cells m) -> exists r, get_neighbors_2d m ft c = Ok r.
Proof.
  intros C F D H Hc. destruct (features_2d_inv _ _ _ _ _ D H) as (em & pl & E1 & E2 & _).
  destruct (nth_error (cells m) c) as [cl|] eqn:EC; [|apply nth_error_None in EC; lia].
  assert (IC : In cl (cells m)) by (eapply nth_error_In; exact EC).
  unfold get_neighbors_2d. rewrite D. cbn [Nat.eqb negb].
  pose proof EC as EC'. apply get_iff in EC. rewrite EC. cbn [bind].
  assert (LEN : List.length (c_points cl) = kind_nnode (c_kind cl)) by (destruct C as [_ C]; apply (C c cl EC')).
  assert (X : forall es (r0 : list (nat * nat * nat)), (forall e, In e es -> e < kind_nedge (c_kind cl)) ->
     exists r, foldM (fun (r : list (nat * nat * nat)) e =>
      let! a := get (c_points cl) (edge_node_id (c_kind cl) e 0) in
      let! b := get (c_points cl) (edge_node_id (c_kind cl) e 1) in
      let! shares := unwrap (mget ekey_eqb (ft_all_2d_edges ft) (if b <? a then (b, a) else (a, b))) in
      Ok (r ++ flat_map (fun s : nat * nat => if fst s =? c then [] else [(e, fst s, snd s)]) shares)) es r0 = Ok r).
  { induction es as [|e t IH]; intros r0 He; cbn [foldM]; [eexists; reflexivity|].
    assert (He' : e < kind_nedge (c_kind cl)) by (apply He; left; reflexivity).
    assert (N2 : 1 < kind_edge_nnode (c_kind cl)) by (revert He'; clear; destruct (c_kind cl); vm_compute; lia).
    assert (L0 : edge_node_id (c_kind cl) e 0 < List.length (c_points cl)) by (rewrite LEN; apply edge_node_lt; lia).
    assert (L1 : edge_node_id (c_kind cl) e 1 < List.length (c_points cl)) by (rewrite LEN; apply edge_node_lt; lia).
    destruct (nth_error (c_points cl) (edge_node_id (c_kind cl) e 0)) as [a|] eqn:Ea; [|apply nth_error_None in Ea; lia].
    destruct (nth_error (c_points cl) (edge_node_id (c_kind cl) e 1)) as [b|] eqn:Eb; [|apply nth_error_None in Eb; lia].
    pose proof Ea as Ea'. pose proof Eb as Eb'. apply get_iff in Ea, Eb. rewrite Ea. cbn [bind]. rewrite Eb. cbn [bind].
    assert (K : kind_ndim (c_kind cl) = 2) by (apply (edges_are_2d _ e); [specialize (F cl IC); lia|exact He']).
    assert (HE : edge_of m (c_id cl) e a b) by (exists cl; repeat split; auto).
    destruct (edge_map_spec m _ E1 (nodup_ids m C)) as (_ & SP & _).
    assert (Y : exists sh, mget ekey_eqb (ft_all_2d_edges ft) (if b <? a then (b, a) else (a, b)) = Some sh).
    { rewrite E2. destruct (Nat.ltb_spec b a) as [Lt|Le].
      - specialize (SP b a ltac:(lia)). destruct (mget ekey_eqb em (b, a)) as [sh|]; [eauto|]. exfalso.
        apply (SP (c_id cl, e)). exists a, b. split; [exact HE|]. right. auto.
      - specialize (SP a b ltac:(lia)). destruct (mget ekey_eqb em (a, b)) as [sh|]; [eauto|]. exfalso.
        apply (SP (c_id cl, e)). exists a, b. split; [exact HE|]. left. auto. }
    destruct Y as (sh & ->). cbn [unwrap bind]. apply IH. intros e' He''. apply He. right. exact He''. }
  apply X. intros e He. apply in_seq in He. lia.
Qed.

(* lookups via faces *)
Lemma map_some_inj {A} (l l' : list A) : map Some l = map Some l' -> l = l'.
Proof.
  revert l'. induction l as [|a t IH]; intros [|b t'] H; try discriminate; [reflexivity|]. cbn in H. injection H as -> H. f_equal. auto.
Qed.
Lemma has_face_once m ps c f f' : NoDup (map c_id (cells m)) ->
  (forall cl, In cl (cells m) -> NoDup (c_points cl)) ->
  has_face4 m ps (c, f) -> has_face4 m ps (c, f') -> f = f'.
Proof.
  intros ND DP (qs & (cl & H1 & H2 & H3 & H4 & H5) & P) (qs' & (cl' & H1' & H2' & H3' & H4' & H5') & P').
  cbn [fst snd] in *.
  assert (cl' = cl).
  { clear - ND H1 H2 H1' H2'. induction (cells m) as [|x t IH]; [destruct H1|]. cbn in ND. inversion ND as [|? ? N1 N2]; subst.
    destruct H1 as [->|H1], H1' as [->|H1']; auto; exfalso; apply N1.
    - rewrite <- H2'. apply in_map. exact H1'.
    - rewrite H2'. apply in_map. exact H1. }
  subst cl'. apply (two_faces (c_kind cl)); auto.
  set (is := map (face_node_id (c_kind cl) f) (seq 0 (first_four (c_kind cl)))) in *.
  set (is' := map (face_node_id (c_kind cl) f') (seq 0 (first_four (c_kind cl)))) in *.
  assert (A : map (nth_error (c_points cl)) is = map Some qs) by (unfold is; rewrite map_map; exact H5).
  assert (B : map (nth_error (c_points cl)) is' = map Some qs') by (unfold is'; rewrite map_map; exact H5').
  assert (INJ : forall i j x, nth_error (c_points cl) i = Some x -> nth_error (c_points cl) j = Some x -> i = j).
  { intros i j x Hi Hj. pose proof (proj1 (NoDup_nth_error (c_points cl)) (DP cl H1)) as N. apply N.
    - apply nth_error_Some. congruence.
    - congruence. }
  assert (PQ : Permutation (map Some qs) (map Some qs')).
  { apply Permutation_map. eapply Permutation_trans; [apply Permutation_sym; exact P|exact P']. }
  rewrite <- A, <- B in PQ. clear - PQ INJ A B.
  (* an injective map reflects permutations; all lookups succeed *)
  assert (INJ' : forall i j, In i is -> In j is' -> nth_error (c_points cl) i = nth_error (c_points cl) j -> i = j).
  { intros i j Hi _ E. apply (in_map (nth_error (c_points cl))) in Hi. rewrite A in Hi. apply in_map_iff in Hi.
    destruct Hi as (x & Hx & _). symmetry in Hx. eapply INJ; [exact Hx|congruence]. }
  clear INJ A B. clearbody is is'. revert is' PQ INJ'. induction is as [|i t IH]; intros is' PQ INJ'.
  - cbn in PQ. apply Permutation_nil in PQ. destruct is'; [apply perm_nil|discriminate].
  - cbn [map] in PQ.
    assert (Hi : In (nth_error (c_points cl) i) (map (nth_error (c_points cl)) is')) by (eapply Permutation_in; [exact PQ|left; reflexivity]).
    apply in_map_iff in Hi. destruct Hi as (j & E & Hj).
    assert (i = j) by (apply INJ'; [left; reflexivity|exact Hj|auto]). subst j.
    apply in_split in Hj. destruct Hj as (l1 & l2 & ->).
    apply Permutation_cons_app. apply IH.
    + rewrite map_app in PQ |- *. cbn [map] in PQ. apply Permutation_cons_app_inv in PQ. exact PQ.
    + intros a b Ha Hb. apply INJ'; [right; exact Ha|]. apply in_app_iff in Hb. apply in_app_iff. cbn. tauto.
Qed.

Lemma cells_via_face m fm ft fc ids : NoDup (map c_id (cells m)) -> extract_all_faces m = Ok fm ->
  ft_all_faces ft = fm -> get_cells_via_face ft fc = Ok ids ->
  exists ps, (forall c, In c ids <-> exists f, has_face4 m ps (c, f)) /\
    map (nth_error (f_points fc)) (seq 0 (if 3 <? List.length (f_points fc) then 4 else 3)) = map Some ps /\
    StronglySorted le ids /\
    ((forall cl, In cl (cells m) -> NoDup (c_points cl)) -> StronglySorted lt ids).
Proof.
  intros ND E1 E2 H. unfold get_cells_via_face in H. apply bind_ok in H. destruct H as (k & K & H).
  apply bind_ok in H. destruct H as (cs & G & H). injection H as <-. apply unwrap_ok in G. rewrite E2 in G.
  unfold face_key in K. apply bind_ok in K. destruct K as (ps & Kp & K). injection K as <-.
  apply (mapM_get_iff (f_points fc)) in Kp.
  destruct (face_map_spec4 m fm E1 ND) as (_ & SP & _). specialize (SP ps). rewrite G in SP. destruct SP as (_ & NDl & SP).
  exists ps. split; [|split; [|split]].
  - intros c. rewrite isort_in, in_map_iff. split.
    + intros ([c' e] & <- & Hin). exists e. apply SP. exact Hin.
    + intros (e & He). exists (c, e). split; [reflexivity|]. apply SP. exact He.
  - exact Kp.
  - apply isort_sorted_le.
  - intros DP. apply sorted_nodup_lt; [apply isort_sorted_le|].
    eapply Permutation_NoDup; [apply Permutation_sym, isort_perm|].
    assert (U : forall c e e', In (c, e) cs -> In (c, e') cs -> e = e').
    { intros c e e' X Y. apply SP in X, Y. eapply has_face_once; eauto. }
    clear - NDl U. induction cs as [|[c e] t IH]; cbn; [constructor|]. inversion NDl as [|? ? N1 N2]; subst. constructor.
    + intros X. apply in_map_iff in X. destruct X as ([c' e'] & E & X). cbn in E. subst c'.
      assert (e = e') by (apply (U c); [left; reflexivity|right; exact X]). subst. contradiction.
    + apply IH; [exact N2|]. intros c' e1 e2 X Y. apply (U c'); right; assumption.
Qed.

(* boundary edges *)
Lemma boundary_edges_2d m ea ft r : consistent m -> ndim m = 2 -> features_new leb shuffle m ea = Ok ft ->
  get_boundary_edges m ft = Ok r ->
  NoDup r /\ forall a b, In (a, b) r <-> a <= b /\ exists! ce, has_edge m a b ce.
Proof.
  intros C D H G. destruct (features_2d_inv _ _ _ _ _ D H) as (em & pl & E1 & E2 & _).
  unfold get_boundary_edges in G. rewrite D in G. cbn [Nat.eqb] in G. injection G as <-. rewrite E2.
  destruct (edge_map_spec m em E1 (nodup_ids m C)) as (ND & SP & SN).
  assert (IN : forall k, In k (flat_map (fun kv : ekey * list (nat * nat) => if List.length (snd kv) =? 1 then [fst kv] else []) em)
             <-> exists sh, In (k, sh) em /\ List.length sh = 1).
  { intros k. rewrite in_flat_map. split.
    - intros ([k' sh] & Hin & X). cbn in X. destruct (Nat.eqb_spec (List.length sh) 1); [|destruct X].
      destruct X as [<-|[]]. exists sh. auto.
    - intros (sh & Hin & L). exists (k, sh). split; [exact Hin|]. cbn. rewrite L. left. reflexivity. }
  split.
  - clear - ND. induction em as [|[k sh] t IH]; cbn; [constructor|]. inversion ND as [|? ? N1 N2]; subst.
    destruct (List.length sh =? 1); cbn; [|auto]. constructor; [|auto]. intros X. apply N1.
    apply in_flat_map in X. destruct X as ([k' sh'] & Hin & X). cbn in X. destruct (List.length sh' =? 1); [|destruct X].
    destruct X as [->|[]]. apply in_map_iff. exists (k, sh'). auto.
  - intros a b. rewrite IN. split.
    + intros (sh & Hin & L). pose proof (in_mget _ ekey_eqb_eq _ _ _ ND Hin) as G.
      destruct (le_lt_dec a b) as [Le|Lt]; [|rewrite (SN a b Lt) in G; discriminate].
      split; [exact Le|]. specialize (SP a b Le). rewrite G in SP. destruct SP as (_ & S1 & S2).
      apply (len1 sh _ S1 S2). apply Nat.eqb_eq. exact L.
    + intros [Le U]. specialize (SP a b Le). destruct (mget ekey_eqb em (a, b)) as [sh|] eqn:G.
      * destruct SP as (_ & S1 & S2). exists sh. split; [apply mget_in in G; [exact G|exact ekey_eqb_eq]|].
        apply Nat.eqb_eq. apply (len1 sh _ S1 S2). exact U.
      * destruct U as (x & Px & _). destruct (SP x Px).
Qed.

(* totality *)
Lemma kind_edge_some k : kind_ndim k = 2 -> exists kd, kind_edge_kind k = Some kd.
Proof. destruct k; vm_compute; intros H; try discriminate; eexists; reflexivity. Qed.
Lemma kind_face_some k : kind_ndim k = 3 -> exists kd, kind_face_kind k = Some kd /\
  kind_nnode kd = kind_face_nnode k /\ kind_ndim kd = 2.
Proof. destruct k; vm_compute; intros H; try discriminate; eexists; split; reflexivity || (split; reflexivity). Qed.

Lemma cables_total m pl : consistent m -> coords_complete m -> pl_len m pl ->
  exists pl', add_cables_shells leb m pl = Ok pl' /\ pl_len m pl'.
Proof.
  intros C CC L. unfold add_cables_shells.
  assert (X : forall cs pl, (forall c, In c cs -> In c (cells m)) -> pl_len m pl ->
    exists pl', foldM (fun (st : list nat * limits) c =>
      if is_cable c || is_shell m c then foldM (add_point leb m) (c_points c) st else Ok st) cs pl = Ok pl' /\ pl_len m pl').
  { clear pl L. induction cs as [|c t IH]; intros pl HC L; cbn [foldM]; [eexists; eauto|].
    assert (Y : exists pl1, (if is_cable c || is_shell m c then foldM (add_point leb m) (c_points c) pl else Ok pl) = Ok pl1 /\ pl_len m pl1).
    { destruct (is_cable c || is_shell m c); [|eexists; eauto]. apply add_points_total; [exact CC|exact L|].
      intros p Hp. assert (IC : In c (cells m)) by (apply HC; left; reflexivity).
      apply In_nth_error in IC. destruct IC as (i & E). destruct C as [_ C]. apply (C i c E). exact Hp. }
    destruct Y as (pl1 & -> & L1). cbn [bind]. apply IH; [intros c' Hc'; apply HC; right; exact Hc'|exact L1]. }
  apply X; auto.
Qed.
Lemma points_valid m ps : consistent m -> forall cl, In cl (cells m) -> forall (g : nat -> nat) is,
  map (fun i => nth_error (c_points cl) (g i)) is = map Some ps -> forall p, In p ps -> p < List.length (points m).
Proof.
  intros C cl IC g is E p Hp. apply (in_map Some) in Hp. rewrite <- E in Hp. apply in_map_iff in Hp.
  destruct Hp as (i & Ei & _). apply nth_error_In in Ei. apply In_nth_error in IC. destruct IC as (j & Ej).
  destruct C as [_ C]. apply (C j cl Ej). exact Ei.
Qed.
Lemma nodes_total (l : list nat) (g : nat -> nat) is : (forall i, In i is -> g i < List.length l) ->
  exists ps, mapM (fun i => get l (g i)) is = Ok ps.
Proof.
  intros H. exists (map (fun i => nth (g i) l 0) is). apply mapM_total. intros i Hi. apply get_ok. auto.
Qed.

Lemma new_total_2d m ea : consistent m -> coords_complete m -> ndim m = 2 -> exists ft, features_new leb shuffle m ea = Ok ft.
Proof.
  intros C CC D.
  assert (LEN : forall c, In c (cells m) -> List.length (c_points c) = kind_nnode (c_kind c)).
  { intros c Hc. apply In_nth_error in Hc. destruct Hc as (i & E). destruct C as [_ C]. apply (C i c E). }
  destruct (edge_map_total m D LEN) as (em & E1).
  destruct (edges_eq m em E1) as (_ & ND & _ & EQ).
  assert (NDS : NoDup (map fst (shuffle em)))
    by (eapply Permutation_NoDup; [apply Permutation_map, Permutation_sym, shuffled|exact ND]).
  assert (BT : forall kv, In kv (shuffle em) -> exists ke, build_edge m kv = Ok ke /\ forall p, In p (e_points (snd ke)) -> p < List.length (points m)).
  { intros [[a b] sh] Hin. apply (Permutation_in _ (shuffled em)) in Hin.
    pose proof (in_mget _ ekey_eqb_eq _ _ _ ND Hin) as G. rewrite EQ in G.
    destruct (ehits m (a, b)) as [|h t] eqn:EH; [discriminate|]. injection G as <-.
    assert (Hh : In h (ehits m (a, b))) by (rewrite EH; left; reflexivity).
    assert (HE : has_edge m a b h) by (apply in_ehits; [eapply ehits_le; exact Hh|exact Hh]).
    destruct HE as (p & q & (cl & H1 & H2 & H3 & H4 & _) & _).
    destruct (kind_edge_some _ H3) as (kd & EK).
    destruct (nodes_total (c_points cl) (edge_node_id (c_kind cl) (snd h)) (seq 0 (kind_edge_nnode (c_kind cl)))) as (ps & EP).
    { intros i Hi. apply in_seq in Hi. rewrite LEN by exact H1. apply edge_node_lt; [exact H4|lia]. }
    unfold build_edge. cbn [fst snd get nth_error bind].
    assert (GC : get (cells m) (fst h) = Ok cl) by (apply get_iff; rewrite <- H2; apply cell_by_id; auto).
    rewrite GC. cbn [bind]. rewrite EK. cbn [unwrap bind]. rewrite EP. cbn [bind].
    eexists. split; [reflexivity|]. cbn [snd e_points]. eapply points_valid; [exact C|exact H1|]. apply mapM_get_nodes. exact EP. }
  assert (X : exists new, mapM (build_edge m) (filter (accepted ea) (shuffle em)) = Ok new /\
     forall p, In p (flat_map (fun ke => e_points (snd ke)) new) -> p < List.length (points m)).
  { assert (Y : forall l, (forall kv, In kv l -> In kv (shuffle em)) -> exists new, mapM (build_edge m) l = Ok new /\
     forall p, In p (flat_map (fun ke => e_points (snd ke)) new) -> p < List.length (points m)).
    { induction l as [|kv t IH]; intros HL; cbn [mapM]; [eexists; split; [reflexivity|intros p []]|].
      destruct (BT kv (HL kv (or_introl eq_refl))) as (ke & -> & V). cbn [bind].
      destruct IH as (new & -> & V'); [intros kv' H'; apply HL; right; exact H'|]. cbn [bind].
      eexists. split; [reflexivity|]. intros p. cbn [flat_map]. rewrite in_app_iff. intros [Hp|Hp]; auto. }
    apply Y. intros kv Hkv. apply filter_In in Hkv. tauto. }
  destruct X as (new & EB & V).
  destruct (add_points_total leb m (flat_map (fun ke => e_points (snd ke)) new) CC ([], no_limits (ndim m))) as (pl & EP & L).
  { split; cbn; apply repeat_length. }
  { exact V. }
  assert (E2 : extract_features_2d leb m (shuffle em) ea = Ok (pl, new)).
  { unfold extract_features_2d. rewrite D. cbn [Nat.eqb negb]. apply edges_2d_eq; [exact NDS|]. exists new. split; [reflexivity|].
    split; [exact EB|]. rewrite D in EP. exact EP. }
  destruct (cables_total m pl C CC L) as (pl' & E3 & _).
  unfold features_new. rewrite D. cbn [Nat.leb Nat.eqb andb negb]. rewrite E1. cbn [bind]. rewrite E2. cbn [bind fst snd].
  rewrite E3. cbn [bind]. eexists. reflexivity.
Qed.
End More.
