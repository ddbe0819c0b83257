(* Proofs: final forms of the statements about features *)
From Coq Require Import String List Arith Bool ZArith Lia Permutation Sorted.
From Verif Require Import Base BaseFacts Kind ShapesProof ShapesTables MeshModel MeshQuerySpec TopoModel TopoSpec TopoMaps TopoProof TopoFeat TopoFeat2 TopoFeat3 TopoFeat4 TopoFeat5 TopoFeat6 TopoPathSpec TopoPath.
Import ListNotations.
Open Scope nat_scope.

Lemma wanted_ext ea (P Q : nat * nat -> Prop) : (forall x, P x <-> Q x) -> wanted ea P <-> wanted ea Q.
Proof.
  intros E. unfold wanted. destruct ea.
  - split; intros (x & H); exists x; apply E; exact H.
  - split; intros (x & H & U); exists x; (split; [apply E; exact H|]; intros y Hy; apply U, E; exact Hy).
Qed.
Lemma first_ext (P Q : nat * nat -> Prop) x : (forall x, P x <-> Q x) -> first_with P x -> first_with Q x.
Proof. intros E [H1 H2]. split; [apply E; exact H1|]. intros y Hy. apply H2, E. exact Hy. Qed.

Lemma strict_sorted {A} (R : A -> A -> Prop) (S : A -> A -> Prop) l :
  StronglySorted R l -> NoDup l -> (forall x y, In x l -> In y l -> x <> y -> R x y -> S x y) -> StronglySorted S l.
Proof.
  intros H. induction H as [|a t H IH F]; intros ND E; constructor.
  - inversion ND as [|? ? N1 N2]. apply IH; [assumption|]. intros x' y Hx Hy. apply E; right; assumption.
  - rewrite Forall_forall in F |- *. intros y Hy. inversion ND as [|? ? N1 N2]. apply E; [left; reflexivity|right; exact Hy| |auto].
    intros ->. contradiction.
Qed.
Lemma NoDup_map_filter {A B} (f : A -> B) (g : A -> bool) l : NoDup (map f l) -> NoDup (map f (filter g l)).
Proof.
  induction l as [|a t IH]; cbn; intros H; [constructor|]. inversion H as [|? ? N ND]. subst. destruct (g a); cbn; [constructor|]; auto.
  intros X. apply N. apply in_map_iff in X. destruct X as (y & E & Hy). apply filter_In in Hy. apply in_map_iff. exists y. tauto.
Qed.
Lemma NoDup_snd {K V} (m : list (K * V)) : NoDup (map fst m) -> (forall k k' v, In (k, v) m -> In (k', v) m -> k = k') -> NoDup (map snd m).
Proof.
  induction m as [|[k v] t IH]; cbn; intros ND E; [constructor|]. inversion ND as [|? ? N ND']. subst. constructor.
  - intros X. apply in_map_iff in X. destruct X as ([k' v'] & <- & X). cbn in X. apply N.
    rewrite (E k k' v' (or_introl eq_refl) (or_intror X)). apply in_map_iff. exists (k', v'). auto.
  - apply IH; [exact ND'|]. intros a b w Ha Hb. apply (E a b w); right; assumption.
Qed.
Lemma filter_map_snd {K V} (g : V -> bool) (m : list (K * V)) : filter g (map snd m) = map snd (filter (fun kv => g (snd kv)) m).
Proof. induction m as [|[k v] t IH]; cbn; [reflexivity|]. destruct (g v); cbn; rewrite IH; reflexivity. Qed.

(* values of a map selected by g and sorted by key *)
Lemma select_spec {K V} (keqb : K -> K -> bool) (HK : forall a b, keqb a b = true <-> a = b)
  (kleb : K -> K -> bool) (KT : forall a b, kleb a b = true \/ kleb b a = true)
  (KTr : forall a b c, kleb a b = true -> kleb b c = true -> kleb a c = true)
  (KA : forall a b, kleb a b = true -> kleb b a = true -> a = b)
  (key : V -> res K) (mp : list (K * V)) (g : V -> bool) :
  NoDup (map fst mp) -> (forall k v, mget keqb mp k = Some v -> key v = Ok k) ->
  exists r, (let! ks := mapM (fun x => let! k := key x in Ok (k, x)) (filter g (map snd mp)) in
     Ok (map snd (isort (fun a b => kleb (fst a) (fst b)) ks))) = Ok r /\
  (forall v, In v r <-> g v = true /\ exists k, mget keqb mp k = Some v) /\
  StronglySorted (fun x y => forall k k', key x = Ok k -> key y = Ok k' -> kleb k' k = false) r.
Proof.
  intros ND HKey.
  assert (KO : forall k v, In (k, v) mp -> key v = Ok k) by (intros k v H; apply HKey, (in_mget _ HK _ _ _ ND H)).
  assert (NS : NoDup (map snd mp)).
  { apply NoDup_snd; [exact ND|]. intros k k' v H H'. apply KO in H, H'. congruence. }
  assert (E : exists ks, mapM (fun x => let! k := key x in Ok (k, x)) (filter g (map snd mp)) = Ok ks).
  { exists (filter (fun kv => g (snd kv)) mp). rewrite filter_map_snd. clear -KO.
    induction mp as [|[k v] t IH]; cbn [filter map snd]; [reflexivity|].
    destruct (g v) eqn:G; cbn [map mapM snd].
    - rewrite (KO k v (or_introl eq_refl)). cbn [bind]. rewrite IH; [reflexivity|intros ? ? H; apply KO; right; exact H].
    - apply IH; intros ? ? H; apply KO; right; exact H. }
  destruct E as (ks & E). rewrite E.
  cbn [bind]. eexists. split; [reflexivity|].
  destruct (marked_spec kleb KT KTr key (filter g (map snd mp)) (map snd (isort (fun a b => kleb (fst a) (fst b)) ks))) as [P S];
    [rewrite E; reflexivity|].
  assert (IN : forall v, In v (map snd (isort (fun a b : K * V => kleb (fst a) (fst b)) ks)) <-> g v = true /\ exists k, mget keqb mp k = Some v).
  { intros v. split.
    - intros H. apply (Permutation_in _ P) in H. apply filter_In in H. destruct H as [H G]. split; [exact G|].
      apply in_map_iff in H. destruct H as ([k v'] & <- & H). exists k. apply (in_mget _ HK); assumption.
    - intros [G (k & H)]. apply (Permutation_in _ (Permutation_sym P)). apply filter_In. split; [|exact G].
      apply (mget_in _ HK) in H. apply in_map_iff. exists (k, v). auto. }
  split; [exact IN|].
  eapply strict_sorted; [exact S| |].
  - eapply Permutation_NoDup; [apply Permutation_sym; exact P|]. apply NoDup_filter. exact NS.
  - intros x y Hx Hy N R k k' E1 E2. cbv beta in R. specialize (R k k' E1 E2). destruct (kleb k' k) eqn:B; [|reflexivity]. exfalso.
    apply N. pose proof (KA _ _ R B) as EK. apply IN in Hx, Hy. destruct Hx as [_ (kx & Gx)], Hy as [_ (ky & Gy)].
    pose proof (HKey _ _ Gx). pose proof (HKey _ _ Gy). assert (kx = ky) by congruence. subst ky. congruence.
Qed.

Lemma ekey_leb_anti a b : ekey_leb a b = true -> ekey_leb b a = true -> a = b.
Proof. rewrite !ekey_leb_iff. destruct a, b; cbn [fst snd]. intros. f_equal; lia. Qed.
Lemma fkey_leb_anti a : forall b, fkey_leb a b = true -> fkey_leb b a = true -> a = b.
Proof.
  induction a as [|x s IH]; intros [|y t]; cbn [fkey_leb]; auto; try discriminate.
  rewrite !orb_true_iff, !andb_true_iff, !Nat.ltb_lt, !Nat.eqb_eq. intros [H1|[-> H1]] [H2|[E2 H2]]; try lia. f_equal. auto.
Qed.

Lemma all_points_spec (l : list nat) : StronglySorted lt (isort Nat.leb (fold_left (sadd Nat.eqb) l [])) /\
  forall p, In p (isort Nat.leb (fold_left (sadd Nat.eqb) l [])) <-> In p l.
Proof.
  split.
  - apply sorted_nodup_lt; [apply isort_sorted_le|]. eapply Permutation_NoDup; [apply Permutation_sym, isort_perm|].
    apply (fold_sadd_nodup _ nat_eqb_eq). constructor.
  - intros p. rewrite isort_in, (fold_sadd_in _ nat_eqb_eq). cbn [In]. tauto.
Qed.

Section Final.
Context {T : Type}.
Variable leb : T -> T -> bool.
Variable shuffle : emap -> emap.
Hypothesis shuffled : forall l, Permutation (shuffle l) l.
Implicit Types (m : mesh T) (ft : @features T).

Lemma face_map_spec m fm : extract_all_faces m = Ok fm -> NoDup (map c_id (cells m)) -> no_quadratic_tets m ->
  NoDup (map fst fm) /\
  forall k, match mget fkey_eqb fm k with
    | Some l => StronglySorted le k /\ l <> [] /\ NoDup l /\ forall cf, In cf l <-> has_face m k cf
    | None => StronglySorted le k -> forall cf, ~ has_face m k cf
    end.
Proof.
  intros E N Q. destruct (face_map_spec4 m fm E N) as (ND & S & K). split; [exact ND|].
  intros k. destruct (mget fkey_eqb fm k) as [l|] eqn:G.
  - pose proof (K k l G) as SK. split; [exact SK|]. specialize (S k). rewrite (sort4_sorted k SK), G in S. destruct S as (S1 & S2 & S3).
    split; [exact S1|]. split; [exact S2|]. intros cf. rewrite S3. symmetry. apply has_face_4. exact Q.
  - intros SK cf H. specialize (S k). rewrite (sort4_sorted k SK), G in S. apply (S cf). apply has_face_4; assumption.
Qed.
Lemma face_orientation m ps qs c f : has_face m ps (c, f) -> Permutation ps qs -> has_face m qs (c, f).
Proof. intros (rs & H & P) PQ. exists rs. split; [exact H|]. eapply Permutation_trans; [apply Permutation_sym; exact PQ|exact P]. Qed.

Lemma new_total m ea : consistent m -> coords_complete m -> ndim m = 2 \/ ndim m = 3 -> exists ft, features_new leb shuffle m ea = Ok ft.
Proof. intros C CC [D|D]; [apply new_total_2d|apply new_total_3d]; assumption. Qed.

Lemma listed_edges_2d m ea ft : consistent m -> ndim m = 2 -> features_new leb shuffle m ea = Ok ft ->
  forall a b, (exists ed, get_edge ft a b = Ok ed) <-> a <= b /\ wanted ea (has_edge m a b).
Proof. intros C D H. apply (edges_2d leb shuffle shuffled m ea ft C D H). Qed.
Lemma listed_faces_3d m ea ft : consistent m -> ndim m = 3 -> no_quadratic_tets m -> features_new leb shuffle m ea = Ok ft ->
  forall k, (exists fc, get_face ft k = Ok fc) <-> StronglySorted le k /\ wanted ea (has_face m k).
Proof.
  intros C D Q H k. destruct (faces_3d leb shuffle m ea ft C D H) as (_ & I1 & I0 & _).
  rewrite (wanted_ext ea (has_face m k) (has_face4 m k)) by (intros x; apply has_face_4; exact Q). split.
  - intros (fc & G). pose proof (I0 k fc G) as SK. split; [exact SK|]. apply I1. rewrite (sort4_sorted k SK). exists fc. exact G.
  - intros [SK W]. apply I1 in W. rewrite (sort4_sorted k SK) in W. exact W.
Qed.
Lemma face_data_3d m ea ft : consistent m -> ndim m = 3 -> no_quadratic_tets m -> features_new leb shuffle m ea = Ok ft ->
  forall k fc, get_face ft k = Ok fc -> face_marker m k (f_marker fc) /\
    exists cf, first_with (has_face m k) cf /\ face_nodes m (fst cf) (snd cf) (f_kind fc) (f_points fc).
Proof.
  intros C D Q H k fc G. destruct (faces_3d leb shuffle m ea ft C D H) as (_ & _ & I0 & I2 & _).
  pose proof (I0 k fc G) as SK. rewrite <- (sort4_sorted k SK) in G. destruct (I2 k fc G) as (M & cf & F & N).
  split; [exact M|]. exists cf. split; [|exact N]. eapply first_ext; [|exact F]. intros x. symmetry. apply has_face_4. exact Q.
Qed.
Lemma listed_edges_3d m ea ft : consistent m -> ndim m = 3 -> features_new leb shuffle m ea = Ok ft ->
  (forall a b, (exists ed, get_edge ft a b = Ok ed) <->
     a <= b /\ exists k fc e p q, get_face ft k = Ok fc /\ side_of (f_kind fc) (f_points fc) e p q /\ same_pair a b p q) /\
  (forall a b ed, get_edge ft a b = Ok ed ->
     edge_marker m a b (e_marker ed) /\
     exists k fc e p q, get_face ft k = Ok fc /\ side_of (f_kind fc) (f_points fc) e p q /\ same_pair a b p q /\
       side_nodes (f_kind fc) (f_points fc) e (e_kind ed) (e_points ed)).
Proof. intros C D H. destruct (faces_3d leb shuffle m ea ft C D H) as (_ & _ & _ & _ & _ & I1 & I2). auto. Qed.

(* lookups of cells *)
Lemma features_map_2d m ea ft : ndim m = 2 -> features_new leb shuffle m ea = Ok ft -> extract_all_2d_edges m = Ok (ft_all_2d_edges ft).
Proof. intros D H. destruct (features_2d_inv _ _ _ _ _ D H) as (em & pl & E & -> & _). exact E. Qed.
Lemma features_map_3d m ea ft : ndim m = 3 -> features_new leb shuffle m ea = Ok ft -> extract_all_faces m = Ok (ft_all_faces ft).
Proof. intros D H. destruct (features_3d_inv _ _ _ _ _ D H) as (em & pl & E & -> & _). exact E. Qed.

Lemma cells_of_edge m ea ft a b ed : consistent m -> ndim m = 2 -> features_new leb shuffle m ea = Ok ft -> get_edge ft a b = Ok ed ->
  exists ids, get_cells_via_2d_edge ft ed = Ok ids /\ ids <> [] /\
    (forall c, In c ids <-> exists e, has_edge m a b (c, e)) /\ StronglySorted le ids /\
    ((forall cl, In cl (cells m) -> NoDup (c_points cl)) -> StronglySorted lt ids).
Proof.
  intros C D H G. pose proof (features_map_2d m ea ft D H) as E.
  destruct (get_edge_key leb shuffle shuffled m ea ft a b ed C (or_introl D) H G) as [K L].
  destruct (edge_map_spec m _ E (nodup_ids m C)) as (_ & S & _). specialize (S a b L).
  assert (W : exists ce, has_edge m a b ce).
  { assert (X : wanted ea (has_edge m a b)) by (apply (listed_edges_2d m ea ft C D H); exists ed; exact G).
    unfold wanted in X. destruct ea; [exact X|]. destruct X as (x & X & _). exists x. exact X. }
  destruct (mget ekey_eqb (ft_all_2d_edges ft) (a, b)) as [l|] eqn:M; [|destruct W as (ce & W); destruct (S ce W)].
  assert (EI : get_cells_via_2d_edge ft ed = Ok (isort Nat.leb (map fst l))).
  { unfold get_cells_via_2d_edge. rewrite K. cbn [bind]. rewrite M. reflexivity. }
  exists (isort Nat.leb (map fst l)). split; [exact EI|].
  destruct (cells_via_edge m _ ft ed _ (nodup_ids m C) E eq_refl EI) as (a' & b' & _ & _ & S1 & S2).
  assert (IN : forall c, In c (isort Nat.leb (map fst l)) <-> exists e, has_edge m a b (c, e)).
  { intros c. rewrite isort_in, in_map_iff. destruct S as (_ & _ & S). split.
    - intros ([c' e] & <- & X). exists e. apply S. exact X.
    - intros (e & X). exists (c, e). split; [reflexivity|]. apply S. exact X. }
  split; [|auto]. intros X. destruct W as ([c e] & W). assert (Y : In c []) by (rewrite <- X; apply IN; exists e; exact W). destruct Y.
Qed.
Lemma cells_of_face m ea ft k fc : consistent m -> ndim m = 3 -> no_quadratic_tets m -> features_new leb shuffle m ea = Ok ft -> get_face ft k = Ok fc ->
  exists ids, get_cells_via_face ft fc = Ok ids /\ ids <> [] /\
    (forall c, In c ids <-> exists f, has_face m k (c, f)) /\ StronglySorted le ids /\
    ((forall cl, In cl (cells m) -> NoDup (c_points cl)) -> StronglySorted lt ids).
Proof.
  intros C D Q H G. pose proof (features_map_3d m ea ft D H) as E.
  destruct (get_face_points leb shuffle m ea ft k fc C D H G) as (_ & _ & _ & _ & _ & _ & _ & _ & _ & _ & K).
  destruct (face_map_spec m _ E (nodup_ids m C) Q) as (_ & S). specialize (S k).
  assert (W0 : StronglySorted le k /\ wanted ea (has_face m k)) by (apply (listed_faces_3d m ea ft C D Q H); exists fc; exact G).
  destruct W0 as [SK X].
  assert (W : exists ce, has_face m k ce).
  { unfold wanted in X. destruct ea; [exact X|]. destruct X as (x & X & _). exists x. exact X. }
  destruct (mget fkey_eqb (ft_all_faces ft) k) as [l|] eqn:M; [|destruct W as (ce & W); destruct (S SK ce W)].
  assert (EI : get_cells_via_face ft fc = Ok (isort Nat.leb (map fst l))).
  { unfold get_cells_via_face. rewrite K. cbn [bind]. rewrite M. reflexivity. }
  exists (isort Nat.leb (map fst l)). split; [exact EI|].
  destruct (cells_via_face m _ ft fc _ (nodup_ids m C) E eq_refl EI) as (a' & _ & _ & S1 & S2).
  assert (IN : forall c, In c (isort Nat.leb (map fst l)) <-> exists e, has_face m k (c, e)).
  { intros c. rewrite isort_in, in_map_iff. destruct S as (_ & _ & _ & S). split.
    - intros ([c' e] & <- & Y). exists e. apply S. exact Y.
    - intros (e & Y). exists (c, e). split; [reflexivity|]. apply S. exact Y. }
  split; [|auto]. intros Y. destruct W as ([c e] & W). assert (Z : In c []) by (rewrite <- Y; apply IN; exists e; exact W). destruct Z.
Qed.
Lemma pairs_sorted (cs : list (nat * nat)) (ps : list nat) :
  map fst (isort by_id (map (fun c => (fst c, ps)) cs)) = isort Nat.leb (map fst cs) /\
  forall cp, In cp (isort by_id (map (fun c => (fst c, ps)) cs)) -> snd cp = ps.
Proof.
  split.
  - apply sorted_perm_eq; [|apply isort_sorted_le|].
    + apply sorted_map_fst.
      assert (X : StronglySorted (fun a b => by_id a b = true) (isort by_id (map (fun c => (fst c, ps)) cs))).
      { apply isort_sorted; unfold by_id; intros; rewrite ?Nat.leb_le in *; lia. }
      induction X as [|a t X IH F]; constructor; [exact IH|]. rewrite Forall_forall in F |- *. intros y Hy. apply F in Hy.
      unfold by_id in Hy. apply Nat.leb_le. exact Hy.
    + eapply Permutation_trans; [apply Permutation_map, isort_perm|]. rewrite map_map. cbn [fst]. apply Permutation_sym.
      eapply Permutation_trans; [apply isort_perm|apply Permutation_refl].
  - intros cp H. apply (Permutation_in _ (isort_perm by_id _)) in H. apply in_map_iff in H. destruct H as (c & <- & _). reflexivity.
Qed.
Lemma pairs_edge ft ed ids : get_cells_via_2d_edge ft ed = Ok ids -> exists r, get_cells_pairs_via_2d_edge ft ed = Ok r /\
  map fst r = ids /\ forall cp, In cp r -> snd cp = e_points ed.
Proof.
  unfold get_cells_via_2d_edge, get_cells_pairs_via_2d_edge. intros H. apply bind_ok in H. destruct H as (k & E & H). rewrite E. cbn [bind].
  apply bind_ok in H. destruct H as (cs & E' & H). rewrite E'. cbn [bind]. injection H as <-. eexists. split; [reflexivity|].
  apply pairs_sorted.
Qed.
Lemma pairs_face ft fc ids : get_cells_via_face ft fc = Ok ids -> exists r, get_cells_pairs_via_face ft fc = Ok r /\
  map fst r = ids /\ forall cp, In cp r -> snd cp = f_points fc.
Proof.
  unfold get_cells_via_face, get_cells_pairs_via_face. intros H. apply bind_ok in H. destruct H as (k & E & H). rewrite E. cbn [bind].
  apply bind_ok in H. destruct H as (cs & E' & H). rewrite E'. cbn [bind]. injection H as <-. eexists. split; [reflexivity|].
  apply pairs_sorted.
Qed.
Lemma cells_of_edges m ea ft eds : consistent m -> ndim m = 2 -> features_new leb shuffle m ea = Ok ft ->
  (forall ed, In ed eds -> exists a b, get_edge ft a b = Ok ed) ->
  exists ids, get_cells_via_2d_edges ft eds = Ok ids /\ StronglySorted le ids /\
    forall c, In c ids <-> exists ed a b e, In ed eds /\ get_edge ft a b = Ok ed /\ has_edge m a b (c, e).
Proof.
  intros C D H A. unfold get_cells_via_2d_edges.
  assert (X : exists r, mapM (get_cells_via_2d_edge ft) eds = Ok r).
  { clear -A C D H shuffled. induction eds as [|ed t IH]; cbn [mapM]; [eexists; reflexivity|].
    destruct (A ed (or_introl eq_refl)) as (a & b & G). destruct (cells_of_edge m ea ft a b ed C D H G) as (ids & -> & _). cbn [bind].
    destruct IH as (r & ->); [intros ed' Hd; apply A; right; exact Hd|]. cbn [bind]. eexists. reflexivity. }
  destruct X as (r & E). rewrite E. cbn [bind]. eexists. split; [reflexivity|]. split; [apply isort_sorted_le|].
  intros c. rewrite isort_in, (concat_perm _ _ _ E). split.
  - intros (ed & ids & I1 & I2 & I3). destruct (A ed I1) as (a & b & G).
    destruct (cells_of_edge m ea ft a b ed C D H G) as (ids' & E' & _ & S & _). assert (ids' = ids) by congruence. subst ids'.
    apply S in I3. destruct I3 as (e & I3). exists ed, a, b, e. auto.
  - intros (ed & a & b & e & I1 & G & I3).
    destruct (cells_of_edge m ea ft a b ed C D H G) as (ids' & E' & _ & S & _). exists ed, ids'. split; [exact I1|]. split; [exact E'|].
    apply S. exists e. exact I3.
Qed.
Lemma cells_of_faces m ea ft fcs : consistent m -> ndim m = 3 -> no_quadratic_tets m -> features_new leb shuffle m ea = Ok ft ->
  (forall fc, In fc fcs -> exists k, get_face ft k = Ok fc) ->
  exists ids, get_cells_via_faces ft fcs = Ok ids /\ StronglySorted le ids /\
    forall c, In c ids <-> exists fc k f, In fc fcs /\ get_face ft k = Ok fc /\ has_face m k (c, f).
Proof.
  intros C D Q H A. unfold get_cells_via_faces.
  assert (X : exists r, mapM (get_cells_via_face ft) fcs = Ok r).
  { clear -A C D H Q. induction fcs as [|fc t IH]; cbn [mapM]; [eexists; reflexivity|].
    destruct (A fc (or_introl eq_refl)) as (k & G). destruct (cells_of_face m ea ft k fc C D Q H G) as (ids & -> & _). cbn [bind].
    destruct IH as (r & ->); [intros ed' Hd; apply A; right; exact Hd|]. cbn [bind]. eexists. reflexivity. }
  destruct X as (r & E). rewrite E. cbn [bind]. eexists. split; [reflexivity|]. split; [apply isort_sorted_le|].
  intros c. rewrite isort_in, (concat_perm _ _ _ E). split.
  - intros (ed & ids & I1 & I2 & I3). destruct (A ed I1) as (k & G).
    destruct (cells_of_face m ea ft k ed C D Q H G) as (ids' & E' & _ & S & _). assert (ids' = ids) by congruence. subst ids'.
    apply S in I3. destruct I3 as (e & I3). exists ed, k, e. auto.
  - intros (ed & k & e & I1 & G & I3).
    destruct (cells_of_face m ea ft k ed C D Q H G) as (ids' & E' & _ & S & _). exists ed, ids'. split; [exact I1|]. split; [exact E'|].
    apply S. exists e. exact I3.
Qed.

(* marked features *)
Lemma marked_edges_spec m ea ft mk : consistent m -> ndim m = 2 \/ ndim m = 3 -> features_new leb shuffle m ea = Ok ft ->
  exists r, search_marked_edges ft mk = Ok r /\
  (forall ed, In ed r <-> e_marker ed = mk /\ exists a b, get_edge ft a b = Ok ed) /\
  StronglySorted (fun x y => forall k k', edge_key x = Ok k -> edge_key y = Ok k' -> lex k k') r.
Proof.
  intros C D H.
  assert (ND : NoDup (map fst (ft_edges ft))).
  { destruct D as [D|D]; [apply (edges_2d leb shuffle shuffled m ea ft C D H)|apply (faces_3d leb shuffle m ea ft C D H)]. }
  destruct (select_spec ekey_eqb ekey_eqb_eq ekey_leb ekey_leb_total ekey_leb_trans ekey_leb_anti edge_key (ft_edges ft)
     (fun ed => Z.eqb (e_marker ed) mk) ND) as (r & E & I & S).
  { intros [a b] ed G. apply (get_edge_key leb shuffle shuffled m ea ft a b ed C D H). apply get_edge_iff. exact G. }
  exists r. split; [exact E|]. split.
  - intros ed. rewrite I, Z.eqb_eq. split; intros [X Y]; (split; [exact X|]).
    + destruct Y as ([a b] & Y). exists a, b. apply get_edge_iff. exact Y.
    + destruct Y as (a & b & Y). exists (a, b). apply get_edge_iff. exact Y.
  - eapply StronglySorted_ind with (P := fun r => StronglySorted (fun x y => forall k k', edge_key x = Ok k -> edge_key y = Ok k' -> lex k k') r);
      [constructor| |exact S].
    intros x l _ IH F. constructor; [exact IH|]. eapply Forall_impl; [|exact F]. intros y Hy k k' E1 E2. specialize (Hy k k' E1 E2).
    destruct (ekey_leb_total k k') as [B|B]; [|congruence]. unfold lex. apply not_true_iff_false in Hy. rewrite ekey_leb_iff in Hy, B. lia.
Qed.
Lemma marked_faces_spec m ea ft mk : consistent m -> ndim m = 3 -> features_new leb shuffle m ea = Ok ft ->
  exists r, search_marked_faces ft mk = Ok r /\
  (forall fc, In fc r <-> f_marker fc = mk /\ exists k, get_face ft k = Ok fc) /\
  StronglySorted (fun x y => forall k k', face_key x = Ok k -> face_key y = Ok k' -> fkey_leb k' k = false) r.
Proof.
  intros C D H.
  assert (ND : NoDup (map fst (ft_faces ft))) by apply (faces_3d leb shuffle m ea ft C D H).
  destruct (select_spec fkey_eqb fkey_eqb_eq fkey_leb fkey_leb_total fkey_leb_trans fkey_leb_anti face_key (ft_faces ft)
     (fun fc => Z.eqb (f_marker fc) mk) ND) as (r & E & I & S).
  { intros k fc G. apply get_face_iff in G. destruct (get_face_points leb shuffle m ea ft k fc C D H G) as (_ & _ & _ & _ & _ & _ & _ & _ & _ & _ & K). exact K. }
  exists r. split; [exact E|]. split; [|exact S].
  intros fc. rewrite I, Z.eqb_eq. split; intros [X (k & Y)]; (split; [exact X|]); exists k; apply get_face_iff; exact Y.
Qed.
Lemma boundary_edges_total_3d m ea ft : consistent m -> ndim m = 3 -> features_new leb shuffle m ea = Ok ft ->
  exists r, get_boundary_edges m ft = Ok r.
Proof.
  intros C D H. pose proof (features_map_3d m ea ft D H) as E. pose proof (faces_3d leb shuffle m ea ft C D H) as (NDF & I1 & I0 & _).
  unfold get_boundary_edges. rewrite D. cbn [Nat.eqb].
  match goal with |- exists r, foldM ?f0 ?l0 ?s0 = Ok r => destruct (foldM_total (fun _ : list ekey => True) f0 l0) with (s := s0) as (r & Z & _); [|exact I|exists r; exact Z] end.
  intros ks [k fc] Hk _. cbn [fst snd].
  assert (G : get_face ft k = Ok fc) by (apply get_face_iff, (in_mget _ fkey_eqb_eq _ _ _ NDF Hk)).
  destruct (get_face_points leb shuffle m ea ft k fc C D H G) as (cf & cl & FW & IC & _ & D3 & LF & FK & LP & NP & K).
  destruct (face_map_spec4 m _ E (nodup_ids m C)) as (_ & S & _). specialize (S k). rewrite (sort4_sorted k (I0 k fc G)) in S.
  destruct (mget fkey_eqb (ft_all_faces ft) k) as [sh|]; [|destruct FW as [FW _]; destruct (S cf FW)].
  cbn [unwrap bind]. destruct (List.length sh =? 1); [|eexists; eauto].
  match goal with |- exists r, foldM ?f0 ?l0 ?s0 = Ok r /\ True => destruct (foldM_total (fun _ : list ekey => True) f0 l0) with (s := s0) as (r & Z & _); [|exact I|exists r; auto] end.
  intros ks' e He _. apply in_seq in He.
  destruct (kind_face_some _ D3) as (kd & FK' & KN & K2). rewrite FK in FK'. injection FK' as <-.
  pose proof (edge_nnode2 (f_kind fc) e ltac:(lia)) as N2.
  assert (B : forall i, i < kind_edge_nnode (f_kind fc) -> edge_node_id (f_kind fc) e i < List.length (f_points fc)).
  { intros i Hi. rewrite LP, <- KN. apply edge_node_lt; lia. }
  assert (V : forall p, In p (f_points fc) -> p < List.length (points m)) by (eapply points_valid; [exact C|exact IC|exact NP]).
  rewrite (get_ok _ _ 0) by (apply B; lia). cbn [bind]. rewrite (get_ok _ _ 0) by (apply B; lia). cbn [bind].
  destruct (nth_error (points m) (nth (edge_node_id (f_kind fc) e 0) (f_points fc) 0)) as [q0|] eqn:Q0.
  2: { apply nth_error_None in Q0. specialize (V (nth (edge_node_id (f_kind fc) e 0) (f_points fc) 0) (nth_In _ _ (B 0 ltac:(lia)))). lia. }
  destruct (nth_error (points m) (nth (edge_node_id (f_kind fc) e 1) (f_points fc) 0)) as [q1|] eqn:Q1.
  2: { apply nth_error_None in Q1. specialize (V (nth (edge_node_id (f_kind fc) e 1) (f_points fc) 0) (nth_In _ _ (B 1 ltac:(lia)))). lia. }
  apply get_iff in Q0, Q1. rewrite Q0, Q1. cbn [bind]. eexists; eauto.
Qed.

Lemma neighbors_symmetric m ea ft c n e ne r r' : consistent m -> fits m -> ndim m = 2 -> features_new leb shuffle m ea = Ok ft ->
  get_neighbors_2d m ft c = Ok r -> get_neighbors_2d m ft n = Ok r' -> In (e, n, ne) r <-> In (ne, c, e) r'.
Proof.
  intros C F D H G G'. destruct (neighbors_iff leb shuffle m ea ft c r C F D H G) as [_ A].
  destruct (neighbors_iff leb shuffle m ea ft n r' C F D H G') as [_ B]. rewrite A, B.
  split; intros [N (a & b & X & Y)]; (split; [congruence|]); exists a, b; auto.
Qed.

(* points and limits *)
Lemma points_and_limits m ea ft : total_order leb -> consistent m -> ndim m = 2 \/ ndim m = 3 -> features_new leb shuffle m ea = Ok ft ->
  let used p := (exists a b ed, get_edge ft a b = Ok ed /\ In p (e_points ed)) \/ (exists k fc, get_face ft k = Ok fc /\ In p (f_points fc)) \/
                (exists cl, cable_or_shell m cl /\ In p (c_points cl)) in
  NoDup (ft_points ft) /\ (forall p, In p (ft_points ft) <-> used p) /\
  List.length (fst (ft_limits ft)) = ndim m /\ List.length (snd (ft_limits ft)) = ndim m /\
  forall j, j < ndim m -> let xs x := exists p, used p /\ coord_is m p j x in
    match nth j (fst (ft_limits ft)) None with Some z => least leb xs z | None => forall y, ~ xs y end /\
    match nth j (snd (ft_limits ft)) None with Some z => greatest leb xs z | None => forall y, ~ xs y end.
Proof.
  intros O C D H used.
  assert (X : exists P, (forall p, P p <-> used p) /\ pl_of leb m P (ft_points ft, ft_limits ft)).
  { destruct D as [D|D].
    - eexists. split; [|exact (points_2d leb O shuffle shuffled m ea ft C D H)].
      destruct (edges_2d leb shuffle shuffled m ea ft C D H) as (_ & NF & _).
      intros p. unfold used. split; [intros [X|X]; auto|]. intros [X|[(k & fc & G & _)|X]]; auto.
      exfalso. apply get_face_iff in G. rewrite NF in G. discriminate.
    - eexists. split; [|exact (points_3d leb O shuffle m ea ft C D H)].
      destruct (faces_3d leb shuffle m ea ft C D H) as (_ & _ & _ & _ & _ & _ & I2).
      intros p. unfold used. split; [intros [X|X]; auto|]. intros [(a & b & ed & G & I)|[X|X]]; auto.
      left. destruct (I2 a b ed G) as (_ & k & fc & e & p0 & q0 & G' & _ & _ & (_ & SN)). exists k, fc. split; [exact G'|].
      apply (in_map Some) in I. rewrite <- SN in I. apply in_map_iff in I. destruct I as (i & Ei & _). eapply nth_error_In. exact Ei. }
  destruct X as (P & EP & ND & IN & L1 & L2 & L). cbn [fst snd] in *.
  split; [exact ND|]. split; [intros p; rewrite IN; apply EP|]. split; [exact L1|]. split; [exact L2|].
  intros j Hj. cbv zeta. set (xs := fun x => exists p, used p /\ coord_is m p j x). destruct (L j Hj) as [A B].
  assert (E : forall x, (exists p, P p /\ coord_is m p j x) <-> xs x).
  { intros x. split; intros (p & X & Y); exists p; (split; [apply EP; exact X|exact Y]). }
  split.
  - destruct (nth j (fst (ft_limits ft)) None); [|intros y Y; apply (A y), E; exact Y].
    destruct A as [A1 A2]. split; [apply E; exact A1|]. intros y Y. apply A2, E. exact Y.
  - destruct (nth j (snd (ft_limits ft)) None); [|intros y Y; apply (B y), E; exact Y].
    destruct B as [A1 A2]. split; [apply E; exact A1|]. intros y Y. apply A2, E. exact Y.
Qed.
Lemma point_maps m ea ft : consistent m -> ndim m = 2 \/ ndim m = 3 -> features_new leb shuffle m ea = Ok ft ->
  (forall p a b, In (a, b) (match mget Nat.eqb (ft_point_to_edges ft) p with Some l => l | None => [] end) <->
     exists ed, get_edge ft a b = Ok ed /\ In p (e_points ed)) /\
  (forall p k, In k (match mget Nat.eqb (ft_point_to_faces ft) p with Some l => l | None => [] end) <->
     exists fc, get_face ft k = Ok fc /\ In p (f_points fc)).
Proof.
  intros C D H.
  assert (X : NoDup (map fst (ft_edges ft)) /\ NoDup (map fst (ft_faces ft))).
  { destruct D as [D|D].
    - destruct (edges_2d leb shuffle shuffled m ea ft C D H) as (A & -> & _). split; [exact A|constructor].
    - split; apply (faces_3d leb shuffle m ea ft C D H). }
  assert (Y : ft_point_to_edges ft = point_to_edges (ft_edges ft) /\ ft_point_to_faces ft = point_to_faces (ft_faces ft)).
  { unfold features_new in H. destruct (negb ((2 <=? ndim m) && (ndim m <=? 3))) eqn:B; [discriminate|].
    apply bind_ok in H. destruct H as ([[[[em fm] pl] es] fs] & E & H). apply bind_ok in H. destruct H as (pl' & E' & H). injection H as <-.
    split; reflexivity. }
  destruct X as [NE NF], Y as [-> ->]. split.
  - intros p a b. rewrite point_to_edges_spec. split; intros (ed & X & Y); exists ed; (split; [|exact Y]).
    + apply get_edge_iff, (in_mget _ ekey_eqb_eq _ _ _ NE X).
    + apply get_edge_iff in X. apply (mget_in _ ekey_eqb_eq) in X. exact X.
  - intros p k. rewrite point_to_faces_spec. split; intros (fc & X & Y); exists fc; (split; [|exact Y]).
    + apply get_face_iff, (in_mget _ fkey_eqb_eq _ _ _ NF X).
    + apply get_face_iff in X. apply (mget_in _ fkey_eqb_eq) in X. exact X.
Qed.
End Final.
