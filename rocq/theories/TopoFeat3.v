(* Proofs: properties of Features::new *)
From Coq Require Import String List Arith Bool ZArith Lia Permutation Sorted.
From Verif Require Import Base BaseFacts Kind ShapesProof ShapesTables MeshModel MeshQuerySpec TopoModel TopoSpec TopoMaps TopoProof TopoFeat TopoFeat2.
Import ListNotations.
Open Scope nat_scope.

Lemma mapM_get_nodes {A} (l : list A) (g : nat -> nat) is ps :
  mapM (fun i => get l (g i)) is = Ok ps <-> map (fun i => nth_error l (g i)) is = map Some ps.
Proof. rewrite (mapM_map (get l) g). rewrite mapM_get_iff. rewrite map_map. reflexivity. Qed.

(* edges of faces *)
Section FaceEdges.
Context {T : Type}.
Implicit Types (m : mesh T).

Definition es_ok m (S : nat -> nat -> Prop) (B : nat -> nat -> geokind -> list nat -> Prop) (es : list (ekey * edge)) : Prop :=
  NoDup (map fst es) /\
  (forall a b, In (a, b) (map fst es) <-> S a b) /\
  (forall a b ed, mget ekey_eqb es (a, b) = Some ed -> B a b (e_kind ed) (e_points ed) /\
     e_marker ed = unwrap_or_0 (mget ekey_eqb (marked_edges_map m) (a, b))).
Lemma es_ext m S S' (B B' : nat -> nat -> geokind -> list nat -> Prop) es : (forall a b, S a b <-> S' a b) -> (forall a b k p, B a b k p -> B' a b k p) ->
  es_ok m S B es -> es_ok m S' B' es.
Proof.
  intros E F (X & Y & Z). split; [exact X|]. split; [intros a b; rewrite Y; apply E|].
  intros a b ed H. destruct (Z a b ed H). auto.
Qed.
Definition side_key (fc : face) (e a b : nat) : Prop :=
  a <= b /\ exists p q, side_of (f_kind fc) (f_points fc) e p q /\ same_pair a b p q.
Definition side_built (fc : face) (a b : nat) (kd : geokind) (ps : list nat) : Prop :=
  exists e, side_key fc e a b /\ side_nodes (f_kind fc) (f_points fc) e kd ps.

Lemma add_face_edges_spec m fc (S : nat -> nat -> Prop) (B : nat -> nat -> geokind -> list nat -> Prop) es es' : es_ok m S B es -> add_face_edges m fc es = Ok es' ->
  es_ok m (fun a b => S a b \/ exists e, side_key fc e a b) (fun a b k p => B a b k p \/ side_built fc a b k p) es'.
Proof.
  intros I H. unfold add_face_edges in H.
  assert (X : forall el, (forall e, In e el -> e < kind_nedge (f_kind fc)) -> forall (S : nat -> nat -> Prop) (B : nat -> nat -> geokind -> list nat -> Prop) es es', es_ok m S B es ->
    foldM (fun (edges : list (ekey * edge)) e =>
      let! a := get (f_points fc) (edge_node_id (f_kind fc) e 0) in
      let! b := get (f_points fc) (edge_node_id (f_kind fc) e 1) in
      let key := sort2 (a, b) in
      match mget ekey_eqb edges key with
      | Some _ => Ok edges
      | None =>
          let! kd := unwrap (kind_edge_kind (f_kind fc)) in
          let! ps := mapM (fun i => get (f_points fc) (edge_node_id (f_kind fc) e i))
                       (seq 0 (kind_edge_nnode (f_kind fc))) in
          Ok (mput ekey_eqb edges key (mkEdge kd ps (unwrap_or_0 (mget ekey_eqb (marked_edges_map m) key))))
      end) el es = Ok es' ->
    es_ok m (fun a b => S a b \/ exists e, In e el /\ side_key fc e a b) (fun a b k p => B a b k p \/ side_built fc a b k p) es').
  { clear. induction el as [|e t IH]; intros HE S B es es' I H; cbn [foldM] in H.
    - injection H as <-. eapply es_ext; [| |exact I]; [|auto]. intros a b. split; [auto|intros [?|(e & [] & _)]; auto].
    - apply bind_ok in H. destruct H as (es1 & E & H).
      apply bind_ok in E. destruct E as (p & Ep & E). apply bind_ok in E. destruct E as (q & Eq & E).
      apply get_iff in Ep, Eq. cbv zeta in E. destruct (sort2 (p, q)) as [a0 b0] eqn:ES.
      pose proof (sort2_le _ _ _ _ ES) as L0.
      assert (SK : forall a b, side_key fc e a b <-> (a = a0 /\ b = b0)).
      { intros a b. split.
        - intros (L & p' & q' & (_ & P1 & P2) & SP). assert (p' = p) by congruence. assert (q' = q) by congruence. subst.
          apply (sort2_iff a b p q L) in SP. rewrite ES in SP. injection SP as -> ->. auto.
        - intros [-> ->]. split; [exact L0|]. exists p, q. split; [|apply sort2_iff; auto].
          split; [apply HE; left; reflexivity|]. auto. }
      assert (I1 : es_ok m (fun a b => S a b \/ side_key fc e a b) (fun a b k p => B a b k p \/ side_built fc a b k p) es1).
      { destruct I as (I1 & I2 & I3). destruct (mget ekey_eqb es (a0, b0)) as [ed0|] eqn:EG.
        - injection E as <-. split; [exact I1|]. split.
          + intros a b. rewrite I2. split; [auto|]. intros [?|K]; [auto|]. apply SK in K. destruct K as [-> ->]. apply I2.
            apply mget_in in EG; [|exact ekey_eqb_eq]. apply in_map_iff. exists (a0, b0, ed0). auto.
          + intros a b ed G. destruct (I3 a b ed G). auto.
        - apply bind_ok in E. destruct E as (kd & E1 & E). apply bind_ok in E. destruct E as (ps & E2 & E).
          injection E as <-. apply unwrap_ok in E1. apply mapM_get_nodes in E2.
          pose proof (proj1 (mget_none _ ekey_eqb_eq _ _) EG) as NK.
          split; [apply mput_nodup; [exact ekey_eqb_eq|exact I1]|]. split.
          + intros a b. rewrite (mput_new _ ekey_eqb_eq) by exact NK. rewrite map_app, in_app_iff. cbn [map In fst].
            rewrite I2, SK. split; [intros [?|[X|[]]]; [auto|injection X as <- <-; auto]|intros [?|[-> ->]]; auto].
          + intros a b ed G. destruct (ekey_eqb (a0, b0) (a, b)) eqn:EK.
            * apply ekey_eqb_eq in EK. injection EK as <- <-. rewrite (mget_mput_same _ ekey_eqb_eq) in G. injection G as <-. cbn.
              split; [|reflexivity]. right. exists e. split; [apply SK; auto|]. split; assumption.
            * rewrite (mget_mput_other _ ekey_eqb_eq) in G by (intros X; apply ekey_eqb_eq in X; congruence).
              destruct (I3 a b ed G). auto. }
      specialize (IH (fun e' He' => HE e' (or_intror He')) _ _ _ _ I1 H).
      eapply es_ext; [| |exact IH].
      + intros a b. cbn. split.
        * intros [[?|?]|(e' & ? & ?)]; [auto|right; exists e; auto|right; exists e'; auto].
        * intros [?|(e' & [<-|?] & ?)]; [auto|auto|right; exists e'; auto].
      + cbn. tauto. }
  specialize (X (seq 0 (kind_nedge (f_kind fc)))). 
  assert (HE : forall e, In e (seq 0 (kind_nedge (f_kind fc))) -> e < kind_nedge (f_kind fc)) by (intros e He; apply in_seq in He; lia).
  specialize (X HE S B es es' I H). eapply es_ext; [| |exact X]; [|auto].
  intros a b. cbn. split; intros [?|K]; auto; right.
  - destruct K as (e & _ & K). exists e. exact K.
  - destruct K as (e & K). exists e. split; [|exact K]. destruct K as (_ & p & q & (K & _) & _). apply in_seq. lia.
Qed.
Lemma all_face_edges_spec m fs : forall (S : nat -> nat -> Prop) (B : nat -> nat -> geokind -> list nat -> Prop) es es', es_ok m S B es ->
  foldM (fun es (kf : fkey * face) => add_face_edges m (snd kf) es) fs es = Ok es' ->
  es_ok m (fun a b => S a b \/ exists kf e, In kf fs /\ side_key (snd kf) e a b)
          (fun a b k p => B a b k p \/ exists kf, In kf fs /\ side_built (snd kf) a b k p) es'.
Proof.
  induction fs as [|kf t IH]; intros S B es es' I H; cbn [foldM] in H.
  - injection H as <-. eapply es_ext; [| |exact I]; [|auto]. intros a b. split; [auto|intros [?|(kf & e & [] & _)]; auto].
  - apply bind_ok in H. destruct H as (es1 & E & H). apply (add_face_edges_spec _ _ _ _ _ _ I) in E.
    specialize (IH _ _ _ _ E H). eapply es_ext; [| |exact IH].
    + intros a b; cbn. split.
      * intros [[?|(e & ?)]|(kf' & e & ? & ?)]; [auto|right; exists kf, e; auto|right; exists kf', e; auto].
      * intros [?|(kf' & e & [<-|?] & ?)]; [auto|left; right; exists e; auto|right; exists kf', e; auto].
    + cbn. intros a b k p [[?|?]|(kf' & ? & ?)]; [auto|right; exists kf; auto|right; exists kf'; auto].
Qed.
End FaceEdges.

Lemma len1 {A} (l : list A) (P : A -> Prop) : NoDup l -> (forall x, In x l <-> P x) ->
  ((List.length l =? 1) = true <-> exists! x, P x).
Proof.
  intros ND H. rewrite Nat.eqb_eq. split.
  - destruct l as [|x [|y t]]; try discriminate. intros _. exists x. split; [apply H; left; reflexivity|].
    intros y Hy. apply H in Hy. destruct Hy as [->|[]]. reflexivity.
  - intros (x & Px & U). destruct l as [|y t].
    + exfalso. apply H in Px. destruct Px.
    + destruct t as [|z t]; [reflexivity|]. exfalso.
      assert (y = x) by (symmetry; apply U, H; left; reflexivity).
      assert (z = x) by (symmetry; apply U, H; right; left; reflexivity).
      subst. inversion ND as [|? ? N _]; subst. apply N. left. reflexivity.
Qed.
Lemma sorted_first (h : nat * nat) t (P : nat * nat -> Prop) : StronglySorted lex (h :: t) -> (forall x, In x (h :: t) <-> P x) ->
  first_with P h.
Proof.
  intros S H. split; [apply H; left; reflexivity|]. intros y Hy. apply H in Hy. destruct Hy as [->|Hy]; [auto|].
  right. inversion S as [|? ? _ F]; subst. rewrite Forall_forall in F. apply F. exact Hy.
Qed.
Lemma perm_mget {K V} (eqb : K -> K -> bool) (H : forall a b, eqb a b = true <-> a = b) (m m' : list (K * V)) k :
  NoDup (map fst m) -> Permutation m' m -> mget eqb m' k = mget eqb m k.
Proof.
  intros ND P.
  assert (ND' : NoDup (map fst m')) by (eapply Permutation_NoDup; [apply Permutation_map, Permutation_sym; exact P|exact ND]).
  destruct (mget eqb m k) as [v|] eqn:E.
  - apply in_mget; [exact H|exact ND'|]. apply mget_in in E; [|exact H]. eapply Permutation_in; [apply Permutation_sym; exact P|exact E].
  - apply mget_none in E; [|exact H]. apply mget_none; [exact H|]. intros X. apply E.
    eapply Permutation_in; [apply Permutation_map; exact P|exact X].
Qed.

Section New.
Context {T : Type}.
Variable leb : T -> T -> bool.
Variable shuffle : emap -> emap.
Hypothesis shuffled : forall l, Permutation (shuffle l) l.
Implicit Types (m : mesh T).

Lemma features_2d_inv m ea ft : ndim m = 2 -> features_new leb shuffle m ea = Ok ft ->
  exists em pl, extract_all_2d_edges m = Ok em /\ ft_all_2d_edges ft = em /\ ft_all_faces ft = [] /\ ft_faces ft = [] /\
    extract_features_2d leb m (shuffle em) ea = Ok (pl, ft_edges ft) /\
    add_cables_shells leb m pl = Ok (ft_points ft, ft_limits ft) /\
    ft_point_to_edges ft = point_to_edges (ft_edges ft) /\ ft_point_to_faces ft = point_to_faces (ft_faces ft).
Proof.
  intros D. unfold features_new. rewrite D. cbn [Nat.leb Nat.eqb andb negb]. intros H.
  apply bind_ok in H. destruct H as (r & E & H). apply bind_ok in E. destruct E as (em & E1 & E).
  apply bind_ok in E. destruct E as ([pl es] & E2 & E). injection E as <-. cbn [fst snd] in H.
  apply bind_ok in H. destruct H as ([pts lim] & E3 & H). injection H as <-.
  exists em, pl. cbn. auto 10.
Qed.
Lemma features_3d_inv m ea ft : ndim m = 3 -> features_new leb shuffle m ea = Ok ft ->
  exists fm pl, extract_all_faces m = Ok fm /\ ft_all_faces ft = fm /\ ft_all_2d_edges ft = [] /\
    extract_features_3d leb m fm ea = Ok (pl, ft_edges ft, ft_faces ft) /\
    add_cables_shells leb m pl = Ok (ft_points ft, ft_limits ft) /\
    ft_point_to_edges ft = point_to_edges (ft_edges ft) /\ ft_point_to_faces ft = point_to_faces (ft_faces ft).
Proof.
  intros D. unfold features_new. rewrite D. cbn [Nat.leb Nat.eqb andb negb]. intros H.
  apply bind_ok in H. destruct H as (r & E & H). apply bind_ok in E. destruct E as (em & E1 & E).
  apply bind_ok in E. destruct E as ([[pl es] fs] & E2 & E). injection E as <-. cbn [fst snd] in H.
  apply bind_ok in H. destruct H as ([pts lim] & E3 & H). injection H as <-.
  exists em, pl. cbn. auto 10.
Qed.

Lemma get_edge_iff (ft : @features T) a b ed : get_edge ft a b = Ok ed <-> mget ekey_eqb (ft_edges ft) (a, b) = Some ed.
Proof. unfold get_edge. apply unwrap_ok. Qed.
Lemma get_face_iff (ft : @features T) k fc : get_face ft k = Ok fc <-> mget fkey_eqb (ft_faces ft) k = Some fc.
Proof. unfold get_face. apply unwrap_ok. Qed.

Lemma edges_2d m ea ft : consistent m -> ndim m = 2 -> features_new leb shuffle m ea = Ok ft ->
  NoDup (map fst (ft_edges ft)) /\ ft_faces ft = [] /\
  (forall a b, (exists ed, get_edge ft a b = Ok ed) <-> a <= b /\ wanted ea (has_edge m a b)) /\
  (forall a b ed, get_edge ft a b = Ok ed ->
     edge_marker m a b (e_marker ed) /\
     exists ce, first_with (has_edge m a b) ce /\ edge_nodes m (fst ce) (snd ce) (e_kind ed) (e_points ed)).
Proof.
  intros C D H. destruct (features_2d_inv _ _ _ D H) as (em & pl & E1 & _ & _ & F & E2 & _).
  destruct (edges_eq m em E1) as (_ & ND & _ & EQ).
  unfold extract_features_2d in E2. rewrite D in E2. cbn [Nat.eqb negb] in E2.
  assert (NDS : NoDup (map fst (shuffle em)))
    by (eapply Permutation_NoDup; [apply Permutation_map, Permutation_sym, shuffled|exact ND]).
  apply edges_2d_eq in E2; [|exact NDS].
  destruct E2 as (new & E2 & EB & _). cbn [app] in E2.
  assert (KEY : map fst new = map fst (filter (accepted ea) (shuffle em))).
  { apply mapM_ok in EB. clear - EB. induction EB as [|x y l r E _ IH]; cbn; [reflexivity|]. f_equal; [|exact IH].
    eapply build_edge_key. exact E. }
  assert (NDE : NoDup (map fst (ft_edges ft))).
  { rewrite E2, KEY. clear - NDS. induction (shuffle em) as [|x t IH]; cbn in *; [constructor|].
    inversion NDS as [|? ? N1 N2]; subst. destruct (accepted ea x); cbn; [|auto]. constructor; [|auto].
    intros X. apply N1. apply in_map_iff in X. destruct X as (y & <- & Hy). apply filter_In in Hy. apply in_map. tauto. }
  assert (HITS : forall a b sh, In ((a, b), sh) (shuffle em) -> a <= b /\ sh = ehits m (a, b) /\ sh <> []).
  { intros a b sh Hin. apply (Permutation_in _ (shuffled em)) in Hin.
    assert (G : mget ekey_eqb em (a, b) = Some sh) by (apply in_mget; [exact ekey_eqb_eq|exact ND|exact Hin]).
    rewrite EQ in G. destruct (ehits m (a, b)) as [|h t] eqn:EH; [discriminate|]. injection G as <-.
    split; [|split; [reflexivity|discriminate]]. apply (ehits_le m a b h). rewrite EH. left. reflexivity. }
  assert (ACC : forall a b, a <= b -> ehits m (a, b) <> [] ->
     (accepted ea ((a, b), ehits m (a, b)) = true <-> wanted ea (has_edge m a b))).
  { intros a b L NE. unfold accepted, wanted. cbn [snd]. destruct ea; cbn [orb].
    - split; [intros _|reflexivity]. destruct (ehits m (a, b)) as [|h t] eqn:EH; [contradiction|]. exists h.
      apply in_ehits; [exact L|]. rewrite EH. left. reflexivity.
    - apply len1; [apply hits_nodup; [exact ekey_eqb_eq|apply nodup_ids, C]|]. intros x. apply in_ehits. exact L. }
  split; [exact NDE|]. split; [exact F|]. split.
  - intros a b. split.
    + intros (ed & G). apply get_edge_iff in G. apply mget_in in G; [|exact ekey_eqb_eq].
      assert (K : In (a, b) (map fst (filter (accepted ea) (shuffle em)))).
      { rewrite <- KEY, <- E2. apply in_map_iff. exists ((a, b), ed). auto. }
      apply in_map_iff in K. destruct K as ([k sh] & EK & K). cbn in EK. subst k. apply filter_In in K. destruct K as [K A].
      destruct (HITS _ _ _ K) as (L & -> & NE). split; [exact L|]. apply ACC; auto.
    + intros [L W].
      assert (NE : ehits m (a, b) <> []).
      { assert (X : exists x, has_edge m a b x) by (unfold wanted in W; destruct ea; [exact W|destruct W as (x & Px & _); exists x; exact Px]).
        destruct X as (x & Px). apply (in_ehits m a b x L) in Px. intros Z. rewrite Z in Px. destruct Px. }
      assert (K : In (a, b) (map fst (ft_edges ft))).
      { rewrite E2, KEY. apply in_map_iff. exists ((a, b), ehits m (a, b)). split; [reflexivity|]. apply filter_In.
        split; [|apply ACC; auto]. eapply Permutation_in; [apply Permutation_sym, shuffled|].
        apply (mget_in _ ekey_eqb_eq). rewrite EQ. destruct (ehits m (a, b)); [contradiction|reflexivity]. }
      destruct (mget ekey_eqb (ft_edges ft) (a, b)) as [ed|] eqn:G; [exists ed; apply get_edge_iff; exact G|].
      apply mget_none in G; [|exact ekey_eqb_eq]. contradiction.
  - intros a b ed G. apply get_edge_iff in G. apply mget_in in G; [|exact ekey_eqb_eq]. rewrite E2 in G.
    apply (mapM_in _ _ _ _ EB) in G. destruct G as ([k sh] & K & B). apply filter_In in K. destruct K as [K A].
    pose proof (build_edge_key _ _ _ B) as KK. cbn in KK. subst k.
    destruct (HITS _ _ _ K) as (L & -> & NE).
    unfold build_edge in B. cbn [fst snd] in B. apply bind_ok in B. destruct B as (ce & B1 & B).
    apply bind_ok in B. destruct B as (cl & B2 & B). apply bind_ok in B. destruct B as (kd & B3 & B).
    apply bind_ok in B. destruct B as (ps & B4 & B). injection B as <-. cbn [e_marker e_kind e_points].
    split; [apply edge_marker_spec; exact L|].
    destruct (ehits m (a, b)) as [|h t] eqn:EH; [contradiction|]. cbn in B1. injection B1 as <-.
    exists h.
    assert (FW : first_with (has_edge m a b) h).
    { apply (sorted_first h t); [rewrite <- EH; apply hits_sorted; [exact ekey_eqb_eq|apply sorted_ids, C]|].
      intros x. rewrite <- EH. apply in_ehits. exact L. }
    split; [exact FW|]. destruct FW as [(p & q & (cl' & H1 & H2 & H3 & H4 & _) & _) _].
    exists cl'. split; [exact H1|]. split; [exact H2|]. split; [exact H3|]. split; [exact H4|].
    apply get_iff in B2. pose proof (cell_by_id m cl' C H1) as X. rewrite H2 in X. rewrite X in B2. injection B2 as ->.
    split; [apply unwrap_ok; exact B3|]. apply mapM_get_nodes. exact B4.
Qed.

Lemma fkey_leb_total a : forall b, fkey_leb a b = true \/ fkey_leb b a = true.
Proof.
  induction a as [|x s IH]; intros [|y t]; cbn [fkey_leb]; auto.
  destruct (lt_eq_lt_dec x y) as [[L|E]|L].
  - left. apply orb_true_iff. left. apply Nat.ltb_lt. exact L.
  - subst. destruct (IH t) as [E|E]; [left|right]; rewrite Nat.eqb_refl, E, orb_true_r; reflexivity.
  - right. apply orb_true_iff. left. apply Nat.ltb_lt. exact L.
Qed.

Lemma faces_3d m ea ft : consistent m -> ndim m = 3 -> features_new leb shuffle m ea = Ok ft ->
  NoDup (map fst (ft_faces ft)) /\
  (forall ps, (exists fc, get_face ft (sort4 ps) = Ok fc) <-> wanted ea (has_face4 m ps)) /\
  (forall k fc, get_face ft k = Ok fc -> StronglySorted le k) /\
  (forall ps fc, get_face ft (sort4 ps) = Ok fc ->
     face_marker m ps (f_marker fc) /\
     exists cf, first_with (has_face4 m ps) cf /\ face_nodes m (fst cf) (snd cf) (f_kind fc) (f_points fc)) /\
  NoDup (map fst (ft_edges ft)) /\
  (forall a b, (exists ed, get_edge ft a b = Ok ed) <->
     a <= b /\ exists k fc e p q, get_face ft k = Ok fc /\ side_of (f_kind fc) (f_points fc) e p q /\ same_pair a b p q) /\
  (forall a b ed, get_edge ft a b = Ok ed ->
     edge_marker m a b (e_marker ed) /\
     exists k fc e p q, get_face ft k = Ok fc /\ side_of (f_kind fc) (f_points fc) e p q /\ same_pair a b p q /\
       side_nodes (f_kind fc) (f_points fc) e (e_kind ed) (e_points ed)).
Proof.
  intros C D H. destruct (features_3d_inv _ _ _ D H) as (fm & pl & E1 & _ & _ & E2 & _).
  destruct (faces_eq m fm E1) as (_ & ND & _ & EQ).
  unfold extract_features_3d in E2. rewrite D in E2. cbn [Nat.eqb negb] in E2.
  set (ks := isort fkey_leb (map fst fm)) in *.
  assert (PK : Permutation ks (map fst fm)) by apply isort_perm.
  assert (NDK : NoDup ks) by (eapply Permutation_NoDup; [apply Permutation_sym; exact PK|exact ND]).
  assert (HK : forall k, In k ks -> exists sh, mget fkey_eqb fm k = Some sh).
  { intros k Hk. destruct (mget fkey_eqb fm k) as [sh|] eqn:G; [eauto|]. apply mget_none in G; [|exact fkey_eqb_eq].
    exfalso. apply G. eapply Permutation_in; [exact PK|exact Hk]. }
  apply faces_3d_eq in E2; [|exact NDK|exact HK].
  destruct E2 as (new & E2 & EB & _ & EE). cbn [app] in E2.
  assert (KEY : map fst new = filter (accepted3 ea fm) ks).
  { apply mapM_ok in EB. clear - EB. induction EB as [|x y l r E _ IH]; cbn; [reflexivity|]. f_equal; [|exact IH].
    eapply build_face_key. exact E. }
  assert (NDF : NoDup (map fst (ft_faces ft))) by (rewrite E2, KEY; apply NoDup_filter, NDK).
  assert (ACC : forall ps, fhits m (sort4 ps) <> [] -> (accepted3 ea fm (sort4 ps) = true <-> wanted ea (has_face4 m ps))).
  { intros ps NE. unfold accepted3, wanted. rewrite EQ.
    destruct (fhits m (sort4 ps)) as [|h t] eqn:EH; [contradiction|]. cbn [as_entry]. destruct ea; cbn [orb].
    - split; [intros _|reflexivity]. exists h. apply in_fhits. rewrite EH. left. reflexivity.
    - apply len1; [rewrite <- EH; apply hits_nodup; [exact fkey_eqb_eq|apply nodup_ids, C]|]. intros x. rewrite <- EH. apply in_fhits. }
  assert (GF : forall k fc, get_face ft k = Ok fc <-> In (k, fc) new).
  { intros k fc. rewrite get_face_iff, E2. split; [apply mget_in; exact fkey_eqb_eq|].
    apply in_mget; [exact fkey_eqb_eq|]. rewrite <- E2. exact NDF. }
  assert (INK : forall k, In k (map fst new) -> fhits m k <> [] /\ accepted3 ea fm k = true /\ StronglySorted le k).
  { intros k Hk. rewrite KEY in Hk. apply filter_In in Hk. destruct Hk as [Hk A]. destruct (HK k Hk) as (sh & G).
    rewrite EQ in G. destruct (fhits m k) as [|h t] eqn:EH; [discriminate|]. split; [discriminate|]. split; [exact A|].
    apply (fhits_sorted_key m k h). rewrite EH. left. reflexivity. }
  assert (ES : es_ok m (fun a b => exists kf e, In kf new /\ side_key (snd kf) e a b)
                       (fun a b k p => exists kf, In kf new /\ side_built (snd kf) a b k p) (ft_edges ft)).
  { assert (I0 : es_ok m (fun _ _ => False) (fun _ _ _ _ => False) []) by (split; [constructor|]; split; [cbn; tauto|discriminate]).
    pose proof (all_face_edges_spec m new _ _ _ _ I0 EE) as X. eapply es_ext; [| |exact X]; cbn; tauto. }
  destruct ES as (S1 & S2 & S3).
  split; [exact NDF|]. split; [|split; [|split; [|split; [|split]]]].
  - intros ps. split.
    + intros (fc & G). apply GF in G. assert (K : In (sort4 ps) (map fst new)) by (apply in_map_iff; exists (sort4 ps, fc); auto).
      destruct (INK _ K) as (NE & A & _). apply ACC; auto.
    + intros W.
      assert (NE : fhits m (sort4 ps) <> []).
      { assert (X : exists x, has_face4 m ps x) by (unfold wanted in W; destruct ea; [exact W|destruct W as (x & Px & _); exists x; exact Px]).
        destruct X as (x & Px). apply in_fhits in Px. intros Z. rewrite Z in Px. destruct Px. }
      assert (K : In (sort4 ps) (map fst new)).
      { rewrite KEY. apply filter_In. split; [|apply ACC; auto]. eapply Permutation_in; [apply Permutation_sym; exact PK|].
        destruct (in_dec (list_eq_dec Nat.eq_dec) (sort4 ps) (map fst fm)) as [X|X]; [exact X|].
        apply (mget_none _ fkey_eqb_eq) in X. rewrite EQ in X. destruct (fhits m (sort4 ps)); [contradiction|discriminate]. }
      apply in_map_iff in K. destruct K as ([k fc] & E & K). cbn in E. subst k. exists fc. apply GF. exact K.
  - intros k fc G. apply GF in G. apply INK. apply in_map_iff. exists (k, fc). auto.
  - intros ps fc G. apply GF in G. assert (K : In (sort4 ps) (map fst new)) by (apply in_map_iff; exists (sort4 ps, fc); auto).
    destruct (INK _ K) as (NE & A & _).
    apply (mapM_in _ _ _ _ EB) in G. destruct G as (k & _ & B).
    pose proof (build_face_key _ _ _ _ B) as KK. cbn in KK. subst k.
    unfold build_face in B. apply bind_ok in B. destruct B as (sh & B0 & B). apply bind_ok in B. destruct B as (cf & B1 & B).
    apply bind_ok in B. destruct B as (cl & B2 & B). apply bind_ok in B. destruct B as (kd & B3 & B).
    apply bind_ok in B. destruct B as (qs & B4 & B). injection B as <-. cbn [f_marker f_kind f_points].
    split; [apply face_marker_spec|].
    apply unwrap_ok in B0. rewrite EQ in B0.
    destruct (fhits m (sort4 ps)) as [|h t] eqn:EH; [contradiction|]. injection B0 as <-. cbn in B1. injection B1 as <-.
    exists h.
    assert (FW : first_with (has_face4 m ps) h).
    { apply (sorted_first h t); [rewrite <- EH; apply hits_sorted; [exact fkey_eqb_eq|apply sorted_ids, C]|].
      intros x. rewrite <- EH. apply in_fhits. }
    split; [exact FW|]. destruct FW as [(qs' & (cl' & H1 & H2 & H3 & H4 & _) & _) _].
    exists cl'. split; [exact H1|]. split; [exact H2|]. split; [exact H3|]. split; [exact H4|].
    apply get_iff in B2. pose proof (cell_by_id m cl' C H1) as X. rewrite H2 in X. rewrite X in B2. injection B2 as ->.
    split; [apply unwrap_ok; exact B3|]. apply mapM_get_nodes. exact B4.
  - exact S1.
  - intros a b. split.
    + intros (ed & G). apply get_edge_iff in G. apply mget_in in G; [|exact ekey_eqb_eq].
      assert (K : In (a, b) (map fst (ft_edges ft))) by (apply in_map_iff; exists ((a, b), ed); auto).
      apply S2 in K. destruct K as ([k fc] & e & K & L & p & q & SO & SP). split; [exact L|].
      exists k, fc, e, p, q. split; [apply GF; exact K|]. auto.
    + intros (L & k & fc & e & p & q & G & SO & SP). apply GF in G.
      assert (K : In (a, b) (map fst (ft_edges ft))).
      { apply S2. exists (k, fc), e. split; [exact G|]. split; [exact L|]. exists p, q. auto. }
      destruct (mget ekey_eqb (ft_edges ft) (a, b)) as [ed|] eqn:X; [exists ed; apply get_edge_iff; exact X|].
      apply mget_none in X; [|exact ekey_eqb_eq]. contradiction.
  - intros a b ed G. apply get_edge_iff in G. destruct (S3 a b ed G) as ((kf & K & e & (L & p & q & SO & SP) & SN) & EM).
    split; [rewrite EM; apply edge_marker_spec; exact L|]. destruct kf as [k fc].
    exists k, fc, e, p, q. split; [apply GF; exact K|]. auto.
Qed.
End New.
