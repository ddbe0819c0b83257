(* Proofs: keys of stored features, marked features, boundary edges in 3D, totality in 3D *)
From Coq Require Import String List Arith Bool ZArith Lia Permutation Sorted.
From Verif Require Import Base BaseFacts Kind ShapesProof ShapesTables MeshModel MeshQuerySpec TopoModel TopoSpec TopoMaps TopoProof TopoFeat TopoFeat2 TopoFeat3 TopoFeat4 TopoFeat5.
Import ListNotations.
Open Scope nat_scope.

Lemma foldM_total {A S} (P : S -> Prop) (f : S -> A -> res S) l :
  (forall s a, In a l -> P s -> exists s', f s a = Ok s' /\ P s') -> forall s, P s -> exists s', foldM f l s = Ok s' /\ P s'.
Proof.
  induction l as [|a t IH]; intros H s Hs; cbn [foldM]; [eexists; eauto|].
  destruct (H s a (or_introl eq_refl) Hs) as (s1 & -> & P1). cbn [bind]. apply IH; [|exact P1].
  intros s' a' Ha'. apply H. right. exact Ha'.
Qed.
Lemma nodes_nth (l : list nat) (g : nat -> nat) n ps i : map (fun i => nth_error l (g i)) (seq 0 n) = map Some ps -> i < n ->
  nth_error ps i = nth_error l (g i).
Proof.
  intros E Hi. pose proof (f_equal (fun l => nth_error l i) E) as X. cbn beta in X.
  rewrite !nth_error_map in X.
  assert (S : nth_error (seq 0 n) i = Some i).
  { rewrite (nth_error_nth' _ 0) by (rewrite seq_length; exact Hi). rewrite seq_nth by exact Hi. reflexivity. }
  rewrite S in X. cbn in X. destruct (nth_error ps i) as [p|]; cbn in X; [congruence|discriminate].
Qed.
Lemma nodes_len (l : list nat) (g : nat -> nat) n ps : map (fun i => nth_error l (g i)) (seq 0 n) = map Some ps -> List.length ps = n.
Proof. intros E. apply (f_equal (@List.length _)) in E. rewrite !map_length, seq_length in E. auto. Qed.

Lemma edge_key_of ps a b p q : a <= b -> nth_error ps 0 = Some p -> nth_error ps 1 = Some q -> same_pair a b p q ->
  forall kd mk, edge_key (mkEdge kd ps mk) = Ok (a, b).
Proof.
  intros L E0 E1 S kd mk. unfold edge_key. cbn [e_points]. apply get_iff in E0, E1. rewrite E0. cbn [bind]. rewrite E1. cbn [bind].
  f_equal. apply sort2_iff; auto.
Qed.
Lemma edge_key_eq ed a b p q : a <= b -> nth_error (e_points ed) 0 = Some p -> nth_error (e_points ed) 1 = Some q -> same_pair a b p q ->
  edge_key ed = Ok (a, b).
Proof. destruct ed. cbn. intros. eapply edge_key_of; eauto. Qed.

Lemma ekey_leb_total a b : ekey_leb a b = true \/ ekey_leb b a = true.
Proof.
  destruct a as [a1 a2], b as [b1 b2]. unfold ekey_leb; cbn [fst snd].
  destruct (lt_eq_lt_dec a1 b1) as [[L| ->]|L].
  - left. apply orb_true_iff. left. apply Nat.ltb_lt. exact L.
  - destruct (le_ge_dec a2 b2) as [X|X]; [left|right]; apply orb_true_iff; right;
      rewrite Nat.eqb_refl; apply Nat.leb_le; exact X.
  - right. apply orb_true_iff. left. apply Nat.ltb_lt. exact L.
Qed.
Lemma ekey_leb_iff a b : ekey_leb a b = true <-> fst a < fst b \/ (fst a = fst b /\ snd a <= snd b).
Proof. unfold ekey_leb. rewrite orb_true_iff, andb_true_iff, Nat.ltb_lt, Nat.eqb_eq, Nat.leb_le. tauto. Qed.
Lemma ekey_leb_trans a b c : ekey_leb a b = true -> ekey_leb b c = true -> ekey_leb a c = true.
Proof. rewrite !ekey_leb_iff. lia. Qed.
Lemma fkey_leb_trans a : forall b c, fkey_leb a b = true -> fkey_leb b c = true -> fkey_leb a c = true.
Proof.
  induction a as [|x s IH]; intros [|y t] [|z u]; cbn [fkey_leb]; auto; try discriminate.
  rewrite !orb_true_iff, !andb_true_iff, !Nat.ltb_lt, !Nat.eqb_eq.
  intros [H1|[-> H1]] [H2|[-> H2]]; [left; lia|left; lia|left; lia|right; split; [reflexivity|eauto]].
Qed.
Lemma sorted_map_fst {A B} (R : A -> A -> Prop) (l : list (A * B)) :
  StronglySorted (fun x y => R (fst x) (fst y)) l -> StronglySorted R (map fst l).
Proof.
  induction 1 as [|a t S IH F]; cbn; constructor; [exact IH|]. rewrite Forall_forall in F |- *.
  intros x Hx. apply in_map_iff in Hx. destruct Hx as (y & <- & Hy). auto.
Qed.

Section Keys.
Context {T : Type}.
Variable leb : T -> T -> bool.
Variable shuffle : emap -> emap.
Hypothesis shuffled : forall l, Permutation (shuffle l) l.
Implicit Types (m : mesh T) (ft : @features T).

Lemma edge_nnode2 k e : e < kind_nedge k -> 1 < kind_edge_nnode k.
Proof. destruct k; vm_compute; lia. Qed.
Lemma get_edge_key m ea ft a b ed : consistent m -> ndim m = 2 \/ ndim m = 3 -> features_new leb shuffle m ea = Ok ft ->
  get_edge ft a b = Ok ed -> edge_key ed = Ok (a, b) /\ a <= b.
Proof.
  intros C [D|D] H G.
  - destruct (edges_2d leb shuffle shuffled m ea ft C D H) as (_ & _ & I1 & I2).
    assert (L : a <= b) by (apply I1; exists ed; exact G). split; [|exact L].
    destruct (I2 a b ed G) as (_ & ce & [(p & q & (cl & H1 & H2 & H3 & H4 & H5 & H6) & SP) _] & (cl' & H1' & H2' & H3' & H4' & H5' & H6')).
    assert (cl' = cl).
    { pose proof (cell_by_id m cl C H1) as X. pose proof (cell_by_id m cl' C H1') as X'. rewrite H2 in X. rewrite H2' in X'. congruence. }
    subst cl'. pose proof (edge_nnode2 _ _ H4).
    apply (edge_key_eq ed a b p q L); [| |exact SP]; rewrite (nodes_nth _ _ _ _ _ H6') by lia; assumption.
  - destruct (faces_3d leb shuffle m ea ft C D H) as (_ & _ & _ & _ & _ & I1 & I2).
    assert (L : a <= b) by (apply I1; exists ed; exact G). split; [|exact L].
    destruct (I2 a b ed G) as (_ & k & fc & e & p & q & _ & (S1 & S2 & S3) & SP & (_ & S5)).
    pose proof (edge_nnode2 _ _ S1).
    apply (edge_key_eq ed a b p q L); [| |exact SP]; rewrite (nodes_nth _ _ _ _ _ S5) by lia; assumption.
Qed.
Lemma get_face_points m ea ft k fc : consistent m -> ndim m = 3 -> features_new leb shuffle m ea = Ok ft ->
  get_face ft k = Ok fc ->
  exists cf cl, first_with (has_face4 m k) cf /\ In cl (cells m) /\ c_id cl = fst cf /\ kind_ndim (c_kind cl) = 3 /\
    snd cf < kind_nface (c_kind cl) /\ kind_face_kind (c_kind cl) = Some (f_kind fc) /\ List.length (f_points fc) = kind_face_nnode (c_kind cl) /\
    map (fun i => nth_error (c_points cl) (face_node_id (c_kind cl) (snd cf) i)) (seq 0 (kind_face_nnode (c_kind cl))) = map Some (f_points fc) /\
    face_key fc = Ok k.
Proof.
  intros C D H G. destruct (faces_3d leb shuffle m ea ft C D H) as (_ & _ & I0 & I2 & _).
  pose proof (I0 k fc G) as SK. rewrite <- (sort4_sorted k SK) in G. destruct (I2 k fc G) as (_ & cf & FW & (cl & H1 & H2 & H3 & H4 & H5 & H6)).
  exists cf, cl. split; [exact FW|]. split; [exact H1|]. split; [exact H2|]. split; [exact H3|]. split; [exact H4|]. split; [exact H5|].
  pose proof (nodes_len _ _ _ _ H6) as LN. split; [exact LN|]. split; [exact H6|].
  destruct FW as [(qs & (cl' & H1' & H2' & H3' & H4' & H5') & P) _].
  assert (cl' = cl).
  { pose proof (cell_by_id m cl C H1) as X. pose proof (cell_by_id m cl' C H1') as X'. rewrite H2 in X. rewrite H2' in X'. congruence. }
  subst cl'. unfold face_key. rewrite LN, (key_nodes _ H3).
  assert (E : mapM (fun i => get (f_points fc) i) (seq 0 (first_four (c_kind cl))) = Ok qs).
  { apply (mapM_get_iff (f_points fc)). rewrite <- H5'. apply map_ext_in. intros i Hi. apply in_seq in Hi.
    apply (nodes_nth _ _ _ _ _ H6). unfold first_four in Hi. lia. }
  rewrite E. cbn [bind]. f_equal. transitivity (sort4 k); [apply sort4_perm, Permutation_sym; exact P|apply sort4_sorted; exact SK].
Qed.

(* marked features *)
Lemma mapM_pairs {A K} (key : A -> res K) l r : mapM (fun x => let! k := key x in Ok (k, x)) l = Ok r ->
  map snd r = l /\ forall k x, In (k, x) r -> key x = Ok k.
Proof.
  revert r. induction l as [|a t IH]; intros r H; cbn [mapM] in H.
  - injection H as <-. split; [reflexivity|intros k x []].
  - apply bind_ok in H. destruct H as (kx & E & H). apply bind_ok in H. destruct H as (r' & E' & H). injection H as <-.
    apply bind_ok in E. destruct E as (k0 & E & X). injection X as <-. destruct (IH _ E') as [I1 I2].
    split; [cbn; f_equal; exact I1|]. intros k x [X|X]; [injection X as -> ->; exact E|auto].
Qed.
Lemma marked_spec {A K} (kleb : K -> K -> bool) (KT : forall a b, kleb a b = true \/ kleb b a = true)
  (KTr : forall a b c, kleb a b = true -> kleb b c = true -> kleb a c = true)
  (key : A -> res K) l r : (let! ks := mapM (fun x => let! k := key x in Ok (k, x)) l in
     Ok (map snd (isort (fun a b => kleb (fst a) (fst b)) ks))) = Ok r ->
  Permutation r l /\ StronglySorted (fun x y => forall k k', key x = Ok k -> key y = Ok k' -> kleb k k' = true) r.
Proof.
  intros H. apply bind_ok in H. destruct H as (ks & E & H). injection H as <-. destruct (mapM_pairs _ _ _ E) as [E1 E2].
  pose proof (isort_perm (fun a b : K * A => kleb (fst a) (fst b)) ks) as P. split.
  - rewrite <- E1. apply Permutation_map. exact P.
  - assert (S : StronglySorted (fun x y : K * A => kleb (fst x) (fst y) = true) (isort (fun a b => kleb (fst a) (fst b)) ks)).
    { apply (isort_sorted (fun a b : K * A => kleb (fst a) (fst b)) ks); [intros x y; apply KT|intros x y z; apply KTr]. }
    assert (I : forall k x, In (k, x) (isort (fun a b => kleb (fst a) (fst b)) ks) -> key x = Ok k)
      by (intros k x Hx; apply E2; eapply Permutation_in; [exact P|exact Hx]).
    clear P. revert I S. generalize (isort (fun a b : K * A => kleb (fst a) (fst b)) ks). intros l0 I S.
    induction S as [|[k x] t S IH F]; cbn; constructor.
    + apply IH. intros k' x' Hx'. apply I. right. exact Hx'.
    + rewrite Forall_forall in F |- *. intros y Hy. apply in_map_iff in Hy. destruct Hy as ([k' y'] & <- & Hy).
      intros k1 k2 X1 X2. cbn in X2. rewrite (I k x (or_introl eq_refl)) in X1. rewrite (I k' y' (or_intror Hy)) in X2.
      injection X1 as <-. injection X2 as <-. apply (F _ Hy).
Qed.

Lemma boundary_edges_3d m ea ft r : consistent m -> ndim m = 3 -> features_new leb shuffle m ea = Ok ft ->
  get_boundary_edges m ft = Ok r ->
  NoDup r /\ forall a b, In (a, b) r <-> a <= b /\ exists k fc e p q, get_face ft k = Ok fc /\ (exists! cf, has_face4 m k cf) /\
    side_of (f_kind fc) (f_points fc) e p q /\ same_pair a b p q.
Proof.
  intros C D H G. pose proof (faces_3d leb shuffle m ea ft C D H) as (NDF & _ & I0 & _).
  destruct (features_3d_inv _ _ _ _ _ D H) as (fm & pl & E1 & E2 & _).
  destruct (face_map_spec4 m fm E1 (nodup_ids m C)) as (ND & SP & _).
  unfold get_boundary_edges in G. rewrite D in G. cbn [Nat.eqb] in G. rewrite E2 in G.
  assert (PT : forall p pt, nth_error (points m) p = Some pt -> pt_id pt = p) by (intros p pt E; destruct C as [C _]; apply (C p pt E)).
  assert (X : forall fs ks ks', (forall kf, In kf fs -> In kf (ft_faces ft)) -> NoDup ks ->
    foldM (fun (ks : list ekey) (kf : fkey * face) =>
        let! sh := unwrap (mget fkey_eqb fm (fst kf)) in
        if List.length sh =? 1 then
          foldM (fun (ks : list ekey) e =>
              let! p0 := get (f_points (snd kf)) (edge_node_id (f_kind (snd kf)) e 0) in
              let! p1 := get (f_points (snd kf)) (edge_node_id (f_kind (snd kf)) e 1) in
              let! q0 := get (points m) p0 in
              let! q1 := get (points m) p1 in
              Ok (sadd ekey_eqb ks (sort2 (pt_id q0, pt_id q1))))
            (seq 0 (kind_nedge (f_kind (snd kf)))) ks
        else Ok ks) fs ks = Ok ks' ->
    NoDup ks' /\ forall a b, In (a, b) ks' <-> In (a, b) ks \/
      (a <= b /\ exists k fc e p q, In (k, fc) fs /\ (exists! cf, has_face4 m k cf) /\
       side_of (f_kind fc) (f_points fc) e p q /\ same_pair a b p q)).
  { clear r G. induction fs as [|[k fc] t IH]; intros ks ks' HF NK G; cbn [foldM fst snd] in G.
    - injection G as <-. split; [exact NK|]. intros a b. split; [auto|intros [?|(_ & ? & ? & ? & ? & ? & [] & _)]; auto].
    - apply bind_ok in G. destruct G as (ks1 & F & G). apply bind_ok in F. destruct F as (sh & S & F). apply unwrap_ok in S.
      assert (GK : get_face ft k = Ok fc).
      { apply get_face_iff. apply in_mget; [exact fkey_eqb_eq|exact NDF|]. apply HF. left. reflexivity. }
      assert (SK : sort4 k = k) by (apply sort4_sorted, (I0 k fc GK)).
      specialize (SP k). rewrite SK, S in SP. destruct SP as (_ & SP1 & SP2).
      pose proof (len1 sh _ SP1 SP2) as L1.
      assert (Y : NoDup ks1 /\ forall a b, In (a, b) ks1 <-> In (a, b) ks \/
         (a <= b /\ (exists! cf, has_face4 m k cf) /\ exists e p q, side_of (f_kind fc) (f_points fc) e p q /\ same_pair a b p q)).
      { destruct (List.length sh =? 1) eqn:EL.
        - assert (U : exists! cf, has_face4 m k cf) by (apply L1; reflexivity).
          assert (Z : forall es ks ks1, (forall e, In e es -> e < kind_nedge (f_kind fc)) -> NoDup ks ->
             foldM (fun (ks : list ekey) e =>
              let! p0 := get (f_points fc) (edge_node_id (f_kind fc) e 0) in
              let! p1 := get (f_points fc) (edge_node_id (f_kind fc) e 1) in
              let! q0 := get (points m) p0 in
              let! q1 := get (points m) p1 in
              Ok (sadd ekey_eqb ks (sort2 (pt_id q0, pt_id q1)))) es ks = Ok ks1 ->
             NoDup ks1 /\ forall a b, In (a, b) ks1 <-> In (a, b) ks \/
               (a <= b /\ exists e p q, In e es /\ side_of (f_kind fc) (f_points fc) e p q /\ same_pair a b p q)).
          { clear ks ks1 NK F G. induction es as [|e es IHe]; intros ks ks1 HE NK F; cbn [foldM] in F.
            - injection F as <-. split; [exact NK|]. intros a b. split; [auto|intros [?|(_ & ? & ? & ? & [] & _)]; auto].
            - apply bind_ok in F. destruct F as (ks2 & F1 & F). apply bind_ok in F1. destruct F1 as (p0 & P0 & F1).
              apply bind_ok in F1. destruct F1 as (p1 & P1 & F1). apply bind_ok in F1. destruct F1 as (q0 & Q0 & F1).
              apply bind_ok in F1. destruct F1 as (q1 & Q1 & F1). injection F1 as <-. apply get_iff in P0, P1, Q0, Q1.
              rewrite (PT _ _ Q0), (PT _ _ Q1) in F.
              destruct (IHe _ _ (fun e' H' => HE e' (or_intror H')) (sadd_nodup _ ekey_eqb_eq _ _ NK) F) as [J1 J2].
              split; [exact J1|]. intros a b. rewrite J2, (sadd_in _ ekey_eqb_eq). split.
              + intros [[X|?]|(L & e' & p & q & A & B)]; [|auto|right; split; [exact L|]; exists e', p, q; split; [right; exact A|exact B]].
                right. symmetry in X. pose proof (sort2_le _ _ _ _ X) as L. split; [exact L|]. exists e, p0, p1. split; [left; reflexivity|].
                split; [split; [apply HE; left; reflexivity|auto]|]. apply sort2_iff; auto.
              + intros [?|(L & e' & p & q & [<-|A] & (B1 & B2 & B3) & SPq)]; [auto| |].
                * left. left. assert (p = p0) by congruence. assert (q = p1) by congruence. subst. symmetry. apply sort2_iff; auto.
                * right. split; [exact L|]. exists e', p, q. split; [exact A|]. split; [split; auto|exact SPq]. }
          destruct (Z (seq 0 (kind_nedge (f_kind fc))) ks ks1) as [Z1 Z2]; [intros e He; apply in_seq in He; lia|exact NK|exact F|].
          split; [exact Z1|]. intros a b. rewrite Z2. split.
          + intros [?|(L & e & p & q & A & B)]; [auto|]. right. split; [exact L|]. split; [exact U|]. exists e, p, q. exact B.
          + intros [?|(L & _ & e & p & q & B)]; [auto|]. right. split; [exact L|]. exists e, p, q. split; [|exact B].
            destruct B as [[B _] _]. apply in_seq. lia.
        - injection F as <-. split; [exact NK|]. intros a b. split; [auto|]. intros [?|(_ & U & _)]; [auto|].
          apply L1 in U. discriminate. }
      destruct Y as [Y1 Y2].
      destruct (IH _ _ (fun kf' H' => HF kf' (or_intror H')) Y1 G) as [J1 J2]. split; [exact J1|].
      intros a b. rewrite J2, Y2. split.
      + intros [[?|(L & U & e & p & q & B)]|(L & k' & fc' & e & p & q & A & B)]; [auto| |].
        * right. split; [exact L|]. exists k, fc, e, p, q. split; [left; reflexivity|]. auto.
        * right. split; [exact L|]. exists k', fc', e, p, q. split; [right; exact A|exact B].
      + intros [?|(L & k' & fc' & e & p & q & [A|A] & U & B)]; [auto| |].
        * injection A as <- <-. left. right. split; [exact L|]. split; [exact U|]. exists e, p, q. exact B.
        * right. split; [exact L|]. exists k', fc', e, p, q. split; [exact A|]. auto. }
  destruct (X (ft_faces ft) [] r (fun kf h => h) (NoDup_nil _) G) as [X1 X2]. split; [exact X1|].
  intros a b. rewrite X2. cbn [In]. split.
  - intros [[]|(L & k & fc & e & p & q & A & B)]. split; [exact L|]. exists k, fc, e, p, q. split; [|exact B].
    apply get_face_iff. apply in_mget; [exact fkey_eqb_eq|exact NDF|exact A].
  - intros (L & k & fc & e & p & q & A & B). right. split; [exact L|]. exists k, fc, e, p, q. split; [|exact B].
    apply get_face_iff in A. apply mget_in in A; [exact A|exact fkey_eqb_eq].
Qed.

Lemma edge_kind_nodes kd : kind_ndim kd = 2 -> exists ek, kind_edge_kind kd = Some ek.
Proof. apply kind_edge_some. Qed.
Lemma new_total_3d m ea : consistent m -> coords_complete m -> ndim m = 3 -> exists ft, features_new leb shuffle m ea = Ok ft.
Proof.
  intros C CC D.
  assert (LEN : forall c, In c (cells m) -> List.length (c_points c) = kind_nnode (c_kind c)).
  { intros c Hc. apply In_nth_error in Hc. destruct Hc as (i & E). destruct C as [_ C]. apply (C i c E). }
  destruct (face_map_total m D LEN) as (fm & E1).
  destruct (faces_eq m fm E1) as (_ & ND & _ & EQ).
  assert (X : exists st, extract_features_3d leb m fm ea = Ok st /\ pl_len m (fst (fst st))).
  { unfold extract_features_3d. rewrite D. cbn [Nat.eqb negb].
    apply (foldM_total (fun st => pl_len m (fst (fst st)))).
    2: { cbn [fst]. split; cbn; rewrite D; reflexivity. }
    intros [[pl es] fs] k Hk PL. cbn [fst] in PL.
    assert (HK : exists sh, mget fkey_eqb fm k = Some sh).
    { destruct (mget fkey_eqb fm k) as [sh|] eqn:G; [eauto|]. apply mget_none in G; [|exact fkey_eqb_eq].
      exfalso. apply G. eapply Permutation_in; [apply isort_perm|exact Hk]. }
    destruct HK as (sh & G). unfold add_face_3d. rewrite G. cbn [unwrap bind].
    destruct (negb (ea || (List.length sh =? 1))); [eexists; eauto|].
    rewrite EQ in G. destruct (fhits m k) as [|h t] eqn:EH; [discriminate|]. injection G as <-.
    assert (Hh : In h (fhits m k)) by (rewrite EH; left; reflexivity).
    assert (SK : sort4 k = k) by (apply sort4_sorted; eapply fhits_sorted_key; exact Hh).
    rewrite <- SK in Hh. apply in_fhits in Hh. destruct Hh as (qs & (cl & H1 & H2 & H3 & H4 & _) & _).
    cbn [get nth_error bind].
    assert (GC : get (cells m) (fst h) = Ok cl) by (apply get_iff; rewrite <- H2; apply cell_by_id; auto).
    rewrite GC. cbn [bind]. destruct (kind_face_some _ H3) as (kd & EK & KN & K2). rewrite EK. cbn [unwrap bind].
    destruct (nodes_total (c_points cl) (face_node_id (c_kind cl) (snd h)) (seq 0 (kind_face_nnode (c_kind cl)))) as (ps & EP).
    { intros i Hi. apply in_seq in Hi. rewrite LEN by exact H1. apply face_node_lt; [exact H4|lia]. }
    rewrite EP. cbn [bind]. apply mapM_get_nodes in EP.
    destruct (add_points_total leb m ps CC pl PL) as (pl' & -> & PL'); [eapply points_valid; [exact C|exact H1|exact EP]|].
    cbn [bind]. pose proof (nodes_len _ _ _ _ EP) as LP.
    assert (Y : forall mk, exists es', add_face_edges m (mkFace kd ps mk) es = Ok es').
    { intros mk. unfold add_face_edges. cbn [f_points f_kind].
      match goal with |- exists es', foldM ?f0 ?l0 ?s0 = Ok es' =>
        destruct (foldM_total (fun _ : list (ekey * edge) => True) f0 l0) with (s := s0) as (es' & Z & _); [|exact I|exists es'; exact Z] end.
      intros es0 e He _. apply in_seq in He.
      pose proof (edge_nnode2 kd e ltac:(lia)) as N2.
      rewrite (get_ok _ _ 0) by (rewrite LP, <- KN; apply edge_node_lt; lia). cbn [bind].
      rewrite (get_ok _ _ 0) by (rewrite LP, <- KN; apply edge_node_lt; lia). cbn [bind]. cbv zeta.
      match goal with |- context [mget ekey_eqb es0 ?k] => destruct (mget ekey_eqb es0 k) end; [eexists; eauto|].
      destruct (kind_edge_some _ K2) as (ek & ->). cbn [unwrap bind].
      destruct (nodes_total ps (edge_node_id kd e) (seq 0 (kind_edge_nnode kd))) as (eps & ->).
      { intros i Hi. apply in_seq in Hi. rewrite LP, <- KN. apply edge_node_lt; lia. }
      cbn [bind]. eexists; eauto. }
    edestruct Y as (es' & ->). cbn [bind]. eexists. split; [reflexivity|exact PL']. }
  destruct X as ([[pl es] fs] & E2 & PL). cbn [fst] in PL.
  destruct (cables_total leb m pl C CC PL) as (pl' & E3 & _).
  unfold features_new. rewrite D. cbn [Nat.leb Nat.eqb andb negb]. rewrite E1. cbn [bind]. rewrite E2. cbn [bind fst snd].
  rewrite E3. cbn [bind]. eexists. reflexivity.
Qed.
End Keys.
