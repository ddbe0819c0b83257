(* Proofs: points and limits of features, totality, lookups, neighbours *)
From Coq Require Import String List Arith Bool ZArith Lia Permutation Sorted.
From Verif Require Import Base BaseFacts Kind ShapesProof ShapesTables MeshModel MeshQuerySpec TopoModel TopoSpec TopoMaps TopoProof TopoFeat TopoFeat2 TopoFeat3.
Import ListNotations.
Open Scope nat_scope.

Section Points.
Context {T : Type}.
Variable leb : T -> T -> bool.
Hypothesis ord : total_order leb.
Variable shuffle : emap -> emap.
Hypothesis shuffled : forall l, Permutation (shuffle l) l.
Implicit Types (m : mesh T).

Lemma cables_shells_spec m P pl pl' : pl_of leb m P pl -> add_cables_shells leb m pl = Ok pl' ->
  pl_of leb m (fun p => P p \/ exists cl, cable_or_shell m cl /\ In p (c_points cl)) pl'.
Proof.
  intros L H. unfold add_cables_shells in H.
  assert (X : forall cs, (forall c, In c cs -> In c (cells m)) -> forall (P : nat -> Prop) pl pl', pl_of leb m P pl ->
    foldM (fun (st : list nat * limits) c =>
      if is_cable c || is_shell m c then foldM (add_point leb m) (c_points c) st else Ok st) cs pl = Ok pl' ->
    pl_of leb m (fun p => P p \/ exists cl, In cl cs /\ cable_or_shell m cl /\ In p (c_points cl)) pl').
  { clear P pl pl' L H. induction cs as [|c t IH]; intros HC P pl pl' L H; cbn [foldM] in H.
    - injection H as <-. eapply pl_ext; [|exact L]. intros p; cbn. split; [auto|intros [?|(cl & [] & _)]; auto].
    - apply bind_ok in H. destruct H as (pl1 & E & H).
      assert (CS : (is_cable c || is_shell m c = true) <-> cable_or_shell m c).
      { unfold is_cable, is_shell, cable_or_shell. rewrite orb_true_iff, andb_true_iff, !Nat.eqb_eq.
        split; [intros X; split; [apply HC; left; reflexivity|exact X]|tauto]. }
      assert (L1 : pl_of leb m (fun p => P p \/ (cable_or_shell m c /\ In p (c_points c))) pl1).
      { destruct (is_cable c || is_shell m c).
        - apply (add_points_spec leb ord _ _ _ _ _ L) in E. eapply pl_ext; [|exact E]. intros p; cbn. tauto.
        - injection E as <-. eapply pl_ext; [|exact L]. intros p; cbn. split; [auto|]. intros [?|[K _]]; [auto|].
          apply CS in K. discriminate. }
      specialize (IH (fun c' Hc' => HC c' (or_intror Hc')) _ _ _ L1 H). eapply pl_ext; [|exact IH].
      intros p; cbn. split.
      + intros [[?|[? ?]]|(cl & ? & ? & ?)]; [auto|right; exists c; auto|right; exists cl; auto].
      + intros [?|(cl & [<-|?] & ? & ?)]; [auto|auto|right; exists cl; auto]. }
  specialize (X (cells m) (fun c H => H) P pl pl' L H). eapply pl_ext; [|exact X]. intros p; cbn.
  split; intros [?|(cl & K)]; auto; right; exists cl; unfold cable_or_shell in *; tauto.
Qed.

Lemma points_2d m ea ft : consistent m -> ndim m = 2 -> features_new leb shuffle m ea = Ok ft ->
  pl_of leb m (fun p => (exists a b ed, get_edge ft a b = Ok ed /\ In p (e_points ed)) \/
                        exists cl, cable_or_shell m cl /\ In p (c_points cl)) (ft_points ft, ft_limits ft).
Proof.
  intros C D H. pose proof (edges_2d leb shuffle shuffled m ea ft C D H) as (NDE & _).
  destruct (features_2d_inv _ _ _ _ _ D H) as (em & pl & E1 & _ & _ & _ & E2 & E3 & _).
  destruct (edges_eq m em E1) as (_ & ND & _ & _).
  unfold extract_features_2d in E2. rewrite D in E2. cbn [Nat.eqb negb] in E2.
  assert (NDS : NoDup (map fst (shuffle em)))
    by (eapply Permutation_NoDup; [apply Permutation_map, Permutation_sym, shuffled|exact ND]).
  apply edges_2d_eq in E2; [|exact NDS]. destruct E2 as (new & E2 & _ & EP). cbn [app] in E2.
  pose proof (pl_none leb m) as P0. rewrite D in P0.
  apply (add_points_spec leb ord _ _ _ _ _ P0) in EP. apply (cables_shells_spec _ _ _ _ EP) in E3.
  eapply pl_ext; [|exact E3]. intros p; cbn. rewrite in_flat_map. split.
  - intros [[[]|([[a b] ed] & Hin & Hp)]|X]; [|auto]. left. exists a, b, ed. split; [|exact Hp]. apply get_edge_iff.
    apply in_mget; [exact ekey_eqb_eq|exact NDE|]. rewrite E2. exact Hin.
  - intros [(a & b & ed & G & Hp)|X]; [|auto]. left. right. exists ((a, b), ed). split; [|exact Hp].
    rewrite <- E2. apply (mget_in _ ekey_eqb_eq). apply get_edge_iff. exact G.
Qed.
Lemma points_3d m ea ft : consistent m -> ndim m = 3 -> features_new leb shuffle m ea = Ok ft ->
  pl_of leb m (fun p => (exists k fc, get_face ft k = Ok fc /\ In p (f_points fc)) \/
                        exists cl, cable_or_shell m cl /\ In p (c_points cl)) (ft_points ft, ft_limits ft).
Proof.
  intros C D H. pose proof (faces_3d leb shuffle m ea ft C D H) as (NDF & _).
  destruct (features_3d_inv _ _ _ _ _ D H) as (fm & pl & E1 & _ & _ & E2 & E3 & _).
  destruct (faces_eq m fm E1) as (_ & ND & _ & _).
  unfold extract_features_3d in E2. rewrite D in E2. cbn [Nat.eqb negb] in E2.
  set (ks := isort fkey_leb (map fst fm)) in *.
  assert (PK : Permutation ks (map fst fm)) by apply isort_perm.
  apply faces_3d_eq in E2.
  2: { eapply Permutation_NoDup; [apply Permutation_sym; exact PK|exact ND]. }
  2: { intros k Hk. destruct (mget fkey_eqb fm k) as [sh|] eqn:G; [eauto|]. apply mget_none in G; [|exact fkey_eqb_eq].
       exfalso. apply G. eapply Permutation_in; [exact PK|exact Hk]. }
  destruct E2 as (new & E2 & _ & EP & _). cbn [app] in E2.
  pose proof (pl_none leb m) as P0. rewrite D in P0.
  apply (add_points_spec leb ord _ _ _ _ _ P0) in EP. apply (cables_shells_spec _ _ _ _ EP) in E3.
  eapply pl_ext; [|exact E3]. intros p; cbn. rewrite in_flat_map. split.
  - intros [[[]|([k fc] & Hin & Hp)]|X]; [|auto]. left. exists k, fc. split; [|exact Hp]. apply get_face_iff.
    apply in_mget; [exact fkey_eqb_eq|exact NDF|]. rewrite E2. exact Hin.
  - intros [(k & fc & G & Hp)|X]; [|auto]. left. right. exists (k, fc). split; [|exact Hp].
    rewrite <- E2. apply (mget_in _ fkey_eqb_eq). apply get_face_iff. exact G.
Qed.
End Points.

(* maps from points to features *)
Lemma p2f_spec {F K} (eqb : K -> K -> bool) (H : forall a b, eqb a b = true <-> a = b) (pts : F -> list nat) (fs : list (K * F)) p k :
  In k (match mget Nat.eqb (fold_left (fun pm (kf : K * F) =>
      fold_left (fun pm p => maddset Nat.eqb eqb pm p (fst kf)) (pts (snd kf)) pm) fs []) p with Some l => l | None => [] end)
  <-> exists f, In (k, f) fs /\ In p (pts f).
Proof.
  assert (A : forall ps k0 pm, In k (match mget Nat.eqb (fold_left (fun pm p => maddset Nat.eqb eqb pm p k0) ps pm) p with Some l => l | None => [] end)
     <-> In k (match mget Nat.eqb pm p with Some l => l | None => [] end) \/ (k = k0 /\ In p ps)).
  { induction ps as [|q t IH]; intros k0 pm; cbn [fold_left]; [cbn; tauto|]. rewrite IH. unfold maddset.
    destruct (Nat.eqb_spec q p) as [->|N].
    - rewrite (mget_mput_same _ nat_eqb_eq). rewrite (sadd_in _ H). cbn. intuition.
    - rewrite (mget_mput_other _ nat_eqb_eq) by exact N. cbn. intuition. }
  assert (B : forall pm, In k (match mget Nat.eqb (fold_left (fun pm (kf : K * F) =>
      fold_left (fun pm p => maddset Nat.eqb eqb pm p (fst kf)) (pts (snd kf)) pm) fs pm) p with Some l => l | None => [] end)
    <-> In k (match mget Nat.eqb pm p with Some l => l | None => [] end) \/ exists f, In (k, f) fs /\ In p (pts f)).
  { induction fs as [|[k1 f1] t IH]; intros pm; cbn [fold_left].
    - split; [auto|]. intros [?|(f & [] & _)]; auto.
    - rewrite IH, A. cbn [fst snd]. split.
      + intros [[?|[-> ?]]|(f & ? & ?)]; [auto|right; exists f1; cbn; auto|right; exists f; cbn; auto].
      + intros [?|(f & [E|?] & ?)]; [auto|injection E as -> ->; auto|right; exists f; auto]. }
  rewrite B. cbn. tauto.
Qed.
Lemma point_to_edges_spec es p k : In k (match mget Nat.eqb (point_to_edges es) p with Some l => l | None => [] end)
  <-> exists ed, In (k, ed) es /\ In p (e_points ed).
Proof. apply (p2f_spec ekey_eqb ekey_eqb_eq e_points). Qed.
Lemma point_to_faces_spec fs p k : In k (match mget Nat.eqb (point_to_faces fs) p with Some l => l | None => [] end)
  <-> exists fc, In (k, fc) fs /\ In p (f_points fc).
Proof. apply (p2f_spec fkey_eqb fkey_eqb_eq f_points). Qed.

(* sorted lookups *)
Lemma isort_in (l : list nat) x : In x (isort Nat.leb l) <-> In x l.
Proof. split; apply Permutation_in; [apply isort_perm|apply Permutation_sym, isort_perm]. Qed.
Lemma sorted_nodup_lt (l : list nat) : StronglySorted le l -> NoDup l -> StronglySorted lt l.
Proof.
  induction 1 as [|a t S IH F]; intros ND; constructor; inversion ND as [|? ? N1 N2]; subst; [auto|].
  rewrite Forall_forall in F |- *. intros x Hx. specialize (F x Hx).
  assert (x <> a) by (intros ->; contradiction). lia.
Qed.
Lemma dedup_spec (l : list nat) : StronglySorted le l -> StronglySorted lt (dedup l) /\ forall x, In x (dedup l) <-> In x l.
Proof.
  induction 1 as [|a t S IH F]; [split; [constructor|cbn; tauto]|].
  destruct t as [|b t]; [split; [repeat constructor|cbn; tauto]|].
  cbn [dedup]. destruct IH as [IH1 IH2]. rewrite Forall_forall in F.
  destruct (Nat.eqb_spec a b) as [->|N].
  - split; [exact IH1|]. intros x. fold dedup. rewrite IH2. cbn. tauto.
  - split.
    + constructor; [exact IH1|]. rewrite Forall_forall. intros x Hx. apply IH2 in Hx.
      assert (AB : a <= b) by (apply F; left; reflexivity). apply StronglySorted_inv in S. destruct S as [_ F']. rewrite Forall_forall in F'.
      destruct Hx as [E|Hx]; [lia|]. specialize (F' x Hx). lia.
    + intros x. change (a = x \/ In x (dedup (b :: t)) <-> In x (a :: b :: t)). rewrite IH2. cbn. tauto.
Qed.

(* two local edges of a cell with distinct points are different *)
Definition two_edges_check k : bool :=
  forallb (fun e => forallb (fun e' => (e =? e') ||
     negb (((edge_node_id k e 0 =? edge_node_id k e' 0) && (edge_node_id k e 1 =? edge_node_id k e' 1)) ||
           ((edge_node_id k e 0 =? edge_node_id k e' 1) && (edge_node_id k e 1 =? edge_node_id k e' 0))))
     (seq 0 (kind_nedge k))) (seq 0 (kind_nedge k)).
Lemma two_edges_ok k : two_edges_check k = true.
Proof. destruct k; vm_compute; reflexivity. Qed.
Lemma two_edges k e e' : e < kind_nedge k -> e' < kind_nedge k ->
  same_pair (edge_node_id k e 0) (edge_node_id k e 1) (edge_node_id k e' 0) (edge_node_id k e' 1) -> e = e'.
Proof.
  intros H H' S. pose proof (two_edges_ok k) as X. unfold two_edges_check in X. rewrite forallb_forall in X.
  assert (I1 : In e (seq 0 (kind_nedge k))) by (apply in_seq; lia).
  assert (I2 : In e' (seq 0 (kind_nedge k))) by (apply in_seq; lia).
  specialize (X e I1). rewrite forallb_forall in X. specialize (X e' I2). apply orb_true_iff in X. destruct X as [X|X]; [apply Nat.eqb_eq; exact X|].
  exfalso. apply negb_true_iff in X. apply orb_false_iff in X. destruct X as [X1 X2].
  destruct S as [[E1 E2]|[E1 E2]]; rewrite E1, E2, !Nat.eqb_refl in *; discriminate.
Qed.

(* two local faces *)
Definition two_faces_check k : bool :=
  forallb (fun f => forallb (fun f' => (f =? f') ||
     negb (fkey_eqb (sort4 (map (face_node_id k f) (seq 0 (first_four k)))) (sort4 (map (face_node_id k f') (seq 0 (first_four k))))))
     (seq 0 (kind_nface k))) (seq 0 (kind_nface k)).
Lemma two_faces_ok k : two_faces_check k = true.
Proof. destruct k; vm_compute; reflexivity. Qed.
Lemma two_faces k f f' : f < kind_nface k -> f' < kind_nface k ->
  Permutation (map (face_node_id k f) (seq 0 (first_four k))) (map (face_node_id k f') (seq 0 (first_four k))) -> f = f'.
Proof.
  intros H H' S. pose proof (two_faces_ok k) as X. unfold two_faces_check in X. rewrite forallb_forall in X.
  assert (I1 : In f (seq 0 (kind_nface k))) by (apply in_seq; lia).
  assert (I2 : In f' (seq 0 (kind_nface k))) by (apply in_seq; lia).
  specialize (X f I1). rewrite forallb_forall in X. specialize (X f' I2). apply orb_true_iff in X.
  destruct X as [X|X]; [apply Nat.eqb_eq; exact X|]. exfalso. apply negb_true_iff in X. apply sort4_perm in S.
  rewrite (proj2 (fkey_eqb_eq _ _) S) in X. discriminate.
Qed.

Section Lookups.
Context {T : Type}.
Implicit Types (m : mesh T) (ft : @features T).

(* the points of every cell are distinct *)
Lemma has_edge_once m a b c e e' : NoDup (map c_id (cells m)) ->
  (forall cl, In cl (cells m) -> NoDup (c_points cl)) ->
  has_edge m a b (c, e) -> has_edge m a b (c, e') -> e = e'.
Proof.
  intros ND DP (p & q & (cl & H1 & H2 & H3 & H4 & H5 & H6) & S) (p' & q' & (cl' & H1' & H2' & H3' & H4' & H5' & H6') & S').
  cbn [fst snd] in *.
  assert (cl' = cl).
  { clear - ND H1 H2 H1' H2'. induction (cells m) as [|x t IH]; [destruct H1|]. cbn in ND. inversion ND as [|? ? N1 N2]; subst.
    destruct H1 as [->|H1], H1' as [->|H1']; auto; exfalso; apply N1.
    - rewrite <- H2'. apply in_map. exact H1'.
    - rewrite H2'. apply in_map. exact H1. }
  subst cl'. apply (two_edges (c_kind cl)); auto.
  assert (INJ : forall i j x, nth_error (c_points cl) i = Some x -> nth_error (c_points cl) j = Some x -> i = j).
  { intros i j x Hi Hj. pose proof (proj1 (NoDup_nth_error (c_points cl)) (DP cl H1)) as N. apply N.
    - apply nth_error_Some. congruence.
    - congruence. }
  unfold same_pair in *. destruct S as [[-> ->]|[-> ->]], S' as [[-> ->]|[-> ->]];
    [left|right|right|left]; split; eapply INJ; eauto.
Qed.

Lemma cells_via_edge m em ft ed ids : NoDup (map c_id (cells m)) -> extract_all_2d_edges m = Ok em ->
  ft_all_2d_edges ft = em -> get_cells_via_2d_edge ft ed = Ok ids ->
  exists a b, (forall c, In c ids <-> exists e, has_edge m a b (c, e)) /\
    (exists p q, nth_error (e_points ed) 0 = Some p /\ nth_error (e_points ed) 1 = Some q /\ same_pair a b p q) /\
    StronglySorted le ids /\
    ((forall cl, In cl (cells m) -> NoDup (c_points cl)) -> StronglySorted lt ids).
Proof.
  intros ND E1 E2 H. unfold get_cells_via_2d_edge in H. apply bind_ok in H. destruct H as ([a b] & K & H).
  apply bind_ok in H. destruct H as (cs & G & H). injection H as <-. apply unwrap_ok in G. rewrite E2 in G.
  unfold edge_key in K. apply bind_ok in K. destruct K as (p & Kp & K). apply bind_ok in K. destruct K as (q & Kq & K).
  apply get_iff in Kp, Kq. injection K as K. pose proof (sort2_le _ _ _ _ K) as L.
  destruct (edge_map_spec m em E1 ND) as (_ & SP & _). specialize (SP a b L). rewrite G in SP. destruct SP as (_ & NDl & SP).
  exists a, b. split; [|split; [|split]].
  - intros c. rewrite isort_in, in_map_iff. split.
    + intros ([c' e] & <- & Hin). exists e. apply SP. exact Hin.
    + intros (e & He). exists (c, e). split; [reflexivity|]. apply SP. exact He.
  - exists p, q. split; [exact Kp|]. split; [exact Kq|]. apply sort2_iff; auto.
  - apply isort_sorted_le.
  - intros DP. apply sorted_nodup_lt; [apply isort_sorted_le|].
    eapply Permutation_NoDup; [apply Permutation_sym, isort_perm|].
    assert (U : forall c e e', In (c, e) cs -> In (c, e') cs -> e = e').
    { intros c e e' X Y. apply SP in X, Y. eapply has_edge_once; eauto. }
    clear - NDl U. induction cs as [|[c e] t IH]; cbn; [constructor|]. inversion NDl as [|? ? N1 N2]; subst. constructor.
    + intros X. apply in_map_iff in X. destruct X as ([c' e'] & E & X). cbn in E. subst c'.
      assert (e = e') by (apply (U c); [left; reflexivity|right; exact X]). subst. contradiction.
    + apply IH; [exact N2|]. intros c' e1 e2 X Y. apply (U c'); right; assumption.
Qed.
Lemma concat_perm {A B} (f : A -> res (list B)) l r : mapM f l = Ok r -> forall x, In x (List.concat r) <-> exists a ids, In a l /\ f a = Ok ids /\ In x ids.
Proof.
  intros H x. apply mapM_ok in H. induction H as [|a ids l r E H IH]; cbn.
  - split; [tauto|intros (a & ids & [] & _)].
  - rewrite in_app_iff, IH. split.
    + intros [Hx|(a' & ids' & H1 & H2 & H3)]; [exists a, ids; auto|exists a', ids'; auto].
    + intros (a' & ids' & [<-|H1] & H2 & H3); [left; congruence|right; exists a', ids'; auto].
Qed.

(* neighbours *)
Lemma neighbors_spec m em ft c r : NoDup (map c_id (cells m)) -> extract_all_2d_edges m = Ok em ->
  ft_all_2d_edges ft = em -> get_neighbors_2d m ft c = Ok r ->
  forall cl, nth_error (cells m) c = Some cl ->
  NoDup r /\
  forall e n ne, In (e, n, ne) r <->
    e < kind_nedge (c_kind cl) /\ n <> c /\
    exists p q, nth_error (c_points cl) (edge_node_id (c_kind cl) e 0) = Some p /\
                nth_error (c_points cl) (edge_node_id (c_kind cl) e 1) = Some q /\ has_edge m p q (n, ne).
Proof.
  intros ND E1 E2 H cl EC. unfold get_neighbors_2d in H. destruct (ndim m =? 2); cbn [negb] in H; [|discriminate].
  apply bind_ok in H. destruct H as (cl' & G & H). apply get_iff in G. rewrite EC in G. injection G as <-.
  assert (HS : forall p q ce, has_edge m p q ce <-> has_edge m q p ce).
  { intros p q ce. unfold has_edge, same_pair. split; intros (p' & q' & X & Y); exists p', q'; tauto. }
  assert (X : forall es (r0 r : list (nat * nat * nat)), NoDup es -> NoDup r0 -> (forall x, In x r0 -> ~ In (fst (fst x)) es) ->
    foldM (fun (r : list (nat * nat * nat)) e =>
      let! a := get (c_points cl) (edge_node_id (c_kind cl) e 0) in
      let! b := get (c_points cl) (edge_node_id (c_kind cl) e 1) in
      let! shares := unwrap (mget ekey_eqb (ft_all_2d_edges ft) (if b <? a then (b, a) else (a, b))) in
      Ok (r ++ flat_map (fun s : nat * nat => if fst s =? c then [] else [(e, fst s, snd s)]) shares)) es r0 = Ok r ->
    NoDup r /\ forall e n ne, In (e, n, ne) r <-> In (e, n, ne) r0 \/
      (In e es /\ n <> c /\ exists p q, nth_error (c_points cl) (edge_node_id (c_kind cl) e 0) = Some p /\
                nth_error (c_points cl) (edge_node_id (c_kind cl) e 1) = Some q /\ has_edge m p q (n, ne))).
  { clear r H. induction es as [|e t IH]; intros r0 r NDe ND0 DJ H; cbn [foldM] in H.
    - injection H as <-. split; [exact ND0|]. intros e n ne. cbn. tauto.
    - apply bind_ok in H. destruct H as (r1 & F & H). apply bind_ok in F. destruct F as (a & Ea & F).
      apply bind_ok in F. destruct F as (b & Eb & F). apply bind_ok in F. destruct F as (sh & Es & F). injection F as <-.
      apply get_iff in Ea, Eb. apply unwrap_ok in Es. rewrite E2 in Es.
      inversion NDe as [|? ? Ne NDt]; subst.
      assert (SH : NoDup sh /\ forall ce, In ce sh <-> has_edge m a b ce).
      { destruct (edge_map_spec m _ E1 ND) as (_ & SP & _). destruct (Nat.ltb_spec b a) as [Lt|Le].
        - specialize (SP b a ltac:(lia)). rewrite Es in SP. destruct SP as (_ & S1 & S2). split; [exact S1|].
          intros ce. rewrite S2. apply HS.
        - specialize (SP a b ltac:(lia)). rewrite Es in SP. tauto. }
      destruct SH as [SH1 SH2].
      set (fm := flat_map (fun s : nat * nat => if fst s =? c then [] else [(e, fst s, snd s)]) sh) in *.
      assert (FM : forall x, In x fm <-> exists s, In s sh /\ fst s <> c /\ x = (e, fst s, snd s)).
      { intros x. unfold fm. rewrite in_flat_map. split.
        - intros (s & Hs & Hx). destruct (Nat.eqb_spec (fst s) c) as [_|N]; [destruct Hx|]. destruct Hx as [<-|[]]. exists s. auto.
        - intros (s & Hs & N & ->). exists s. split; [exact Hs|]. destruct (Nat.eqb_spec (fst s) c); [contradiction|]. left. reflexivity. }
      assert (NDf : NoDup fm).
      { unfold fm. clear - SH1. induction sh as [|[s1 s2] t IH]; cbn; [constructor|]. inversion SH1 as [|? ? N1 N2]; subst.
        destruct (s1 =? c); cbn; [auto|]. constructor; [|auto]. intros X. apply in_flat_map in X.
        destruct X as ([u1 u2] & Hu & X). cbn in X. destruct (u1 =? c); [destruct X|]. destruct X as [X|[]].
        injection X as -> ->. contradiction. }
      assert (ND1 : NoDup (r0 ++ fm)).
      { apply nodup_app; [exact ND0|exact NDf|]. intros x H1 H2. apply FM in H2. destruct H2 as (s & _ & _ & ->).
        apply (DJ _ H1). left. reflexivity. }
      assert (DJ1 : forall x, In x (r0 ++ fm) -> ~ In (fst (fst x)) t).
      { intros x Hx. apply in_app_iff in Hx. destruct Hx as [Hx|Hx].
        - intros Y. apply (DJ x Hx). right. exact Y.
        - apply FM in Hx. destruct Hx as (s & _ & _ & ->). exact Ne. }
      destruct (IH _ _ NDt ND1 DJ1 H) as [I1 I2].
      split; [exact I1|]. intros e' n ne. rewrite I2, in_app_iff, FM. split.
      + intros [[?|((s1, s2) & Hs & N & Y)]|(A & B)]; [auto| |right; split; [right; exact A|exact B]].
        cbn in Y. injection Y as -> -> ->. right. split; [left; reflexivity|]. split; [exact N|]. exists a, b.
        split; [exact Ea|]. split; [exact Eb|]. apply SH2. exact Hs.
      + intros [?|([<-|A] & B & p & q & P1 & P2 & P3)]; [auto| |right; split; [exact A|]; split; [exact B|]; exists p, q; auto].
        left. right. exists (n, ne). assert (p = a) by congruence. assert (q = b) by congruence. subst.
        split; [apply SH2; exact P3|]. split; [exact B|reflexivity]. }
  destruct (X (seq 0 (kind_nedge (c_kind cl))) [] r) as [X1 X2]; [apply seq_NoDup|constructor|intros x []|exact H|].
  split; [exact X1|]. intros e n ne. rewrite X2. cbn [In]. rewrite in_seq. split.
  - intros [[]|(A & B)]. split; [lia|exact B].
  - intros (A & B). right. split; [lia|exact B].
Qed.
End Lookups.
