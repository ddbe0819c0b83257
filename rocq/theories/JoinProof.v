(* Proofs: joining two meshes *)
From Coq Require Import String List Arith Bool ZArith Reals Lra Lia Permutation Sorted.
From Verif Require Import Base BaseFacts Kind MeshModel MeshQuerySpec TopoModel TopoSpec TopoMaps TopoProof TopoFeat2 TopoFeat3 TopoFeat4 TopoFeat6 TopoFinal
  GeomModel GeomSpec GeomProof GridModel GridSpec GridProof GridProof2 GridProof3 PropGrid SearchModel SearchSpec SearchProof SearchProof2 JoinModel JoinSpec.
Import ListNotations.
Open Scope nat_scope.

(* ------------------------------------------------------------------ maps of markers *)
Lemma put_new_get {K} (eqb : K -> K -> bool) (H : forall a b, eqb a b = true <-> a = b) (mm : list (K * Z)) k mk k' :
  mget eqb (put_new eqb mm k mk) k' = match mget eqb mm k' with Some v => Some v | None => if eqb k k' then Some mk else None end.
Proof.
  unfold put_new. destruct (eqb k k') eqn:E.
  - apply H in E. subst k'. destruct (mget eqb mm k) eqn:G; [rewrite G; reflexivity|]. apply (mget_mput_same eqb H).
  - assert (N : k <> k') by (intros ->; rewrite (proj2 (H k' k') eq_refl) in E; discriminate).
    destruct (mget eqb mm k) eqn:G; [destruct (mget eqb mm k'); reflexivity|]. rewrite (mget_mput_other eqb H) by exact N. destruct (mget eqb mm k'); reflexivity.
Qed.
Lemma put_new_nodup {K} (eqb : K -> K -> bool) (H : forall a b, eqb a b = true <-> a = b) (mm : list (K * Z)) k mk :
  NoDup (map fst mm) -> NoDup (map fst (put_new eqb mm k mk)).
Proof. intros ND. unfold put_new. destruct (mget eqb mm k); [exact ND|]. apply (mput_nodup eqb H), ND. Qed.

Section PutAll.
Context {K Q : Type} (eqb : K -> K -> bool) (H : forall a b, eqb a b = true <-> a = b).
Variables (key : Q -> res K) (mk : Q -> Z).
Definition put_all (mm : list (K * Z)) (q : Q) : res (list (K * Z)) := let! k := key q in Ok (put_new eqb mm k (mk q)).
Lemma put_all_spec l : forall mm mm', foldM put_all l mm = Ok mm' -> NoDup (map fst mm) ->
  NoDup (map fst mm') /\ (forall q, In q l -> exists k, key q = Ok k) /\
  forall k v, mget eqb mm' k = Some v <-> mget eqb mm k = Some v \/ (mget eqb mm k = None /\ exists l1 q l2, l = l1 ++ q :: l2 /\ key q = Ok k /\ mk q = v /\ forall q', In q' l1 -> key q' <> Ok k).
Proof.
  induction l as [|q t IH]; intros mm mm' E ND.
  - cbn in E. injection E as <-. split; [exact ND|]. split; [intros q []|]. intros k v. split; [auto|]. intros [G|(_ & l1 & q & l2 & E & _)]; [exact G|destruct l1; discriminate].
  - cbn [foldM] in E. apply bind_ok in E as (m1 & E1 & E). unfold put_all in E1. apply bind_ok in E1 as (k0 & K0 & E1). injection E1 as <-.
    destruct (IH _ _ E (put_new_nodup eqb H _ _ _ ND)) as (A & B & C). split; [exact A|]. split; [intros q' [<-|Hq]; eauto|].
    intros k v. rewrite C, (put_new_get eqb H). destruct (mget eqb mm k) as [v0|] eqn:G.
    + split; [intros [X|(X & _)]; [left; exact X|discriminate]|]. intros [X|(X & _)]; [left; exact X|discriminate].
    + destruct (eqb k0 k) eqn:EK.
      * apply H in EK. subst k0. split.
        -- intros [X|(X & _)]; [|discriminate]. injection X as <-. right. split; [reflexivity|]. exists [], q, t. split; [reflexivity|]. split; [exact K0|]. split; [reflexivity|]. intros q' [].
        -- intros [X|(_ & l1 & q1 & l2 & X & K1 & M & N)]; [discriminate|]. left. destruct l1 as [|q0 l1]; cbn in X; injection X as -> X; [congruence|]. exfalso. apply (N q0); [left; reflexivity|exact K0].
      * assert (N0 : k0 <> k) by (intros ->; rewrite (proj2 (H k k) eq_refl) in EK; discriminate). split.
        -- intros [X|(_ & l1 & q1 & l2 & X & K1 & M & N)]; [discriminate|]. right. split; [reflexivity|]. exists (q :: l1), q1, l2. subst t. split; [reflexivity|]. split; [exact K1|]. split; [exact M|].
           intros q' [<-|Hq']; [congruence|auto].
        -- intros [X|(_ & l1 & q1 & l2 & X & K1 & M & N)]; [discriminate|]. right. split; [reflexivity|]. destruct l1 as [|q0 l1]; cbn in X; injection X as -> X; [congruence|].
           exists l1, q1, l2. split; [exact X|]. split; [exact K1|]. split; [exact M|]. intros q' Hq'. apply N. right. exact Hq'.
Qed.
Lemma put_all_total l : (forall q, In q l -> exists k, key q = Ok k) -> forall mm, exists mm', foldM put_all l mm = Ok mm'.
Proof.
  induction l as [|q t IH]; intros A mm; cbn [foldM]; [eauto|]. unfold put_all at 1. destruct (A q (or_introl eq_refl)) as (k & ->). cbn [bind]. apply IH. intros q' Hq. apply A. right. exact Hq.
Qed.
End PutAll.

Lemma foldM_ext {A S} (f g : S -> A -> res S) l : (forall s a, In a l -> f s a = g s a) -> forall s, foldM f l s = foldM g l s.
Proof. induction l as [|a t IH]; intros E s; cbn [foldM]; [reflexivity|]. rewrite E by (left; reflexivity). destruct (g s a); cbn; auto. apply IH. intros s' a' Ha. apply E. right. exact Ha. Qed.
Lemma foldM_map {A B S} (f : S -> B -> res S) (h : A -> B) l : forall s, foldM (fun s a => f s (h a)) l s = foldM f (map h l) s.
Proof. induction l as [|a t IH]; intros s; cbn [foldM map]; [reflexivity|]. destruct (f s (h a)); cbn; auto. Qed.
Lemma fold_mput_nodup {K Q} (eqb : K -> K -> bool) (H : forall a b, eqb a b = true <-> a = b) (key : Q -> K) (mk : Q -> Z) l : forall mm,
  NoDup (map fst mm) -> NoDup (map fst (fold_left (fun mm q => mput eqb mm (key q) (mk q)) l mm)).
Proof. induction l as [|q t IH]; intros mm ND; cbn [fold_left]; [exact ND|]. apply IH, (mput_nodup eqb H), ND. Qed.

Definition ek (q : Z * nat * nat) : ekey := sort2 (snd (fst q), snd q).
Definition fk (q : Z * nat * nat * nat * option nat) : fkey := sort4 (marked_face_points q).
Definition emk (q : Z * nat * nat) : Z := fst (fst q).
Definition fmk (q : Z * nat * nat * nat * option nat) : Z := fst (fst (fst (fst q))).
Lemma emap_form {T} (m : mesh T) : marked_edges_map m = fold_left (fun mm q => mput ekey_eqb mm (ek q) (emk q)) (marked_edges m) [].
Proof. unfold marked_edges_map. apply fold_left_ext. intros mm [[mk p1] p2]. reflexivity. Qed.
Lemma fmap_form {T} (m : mesh T) : marked_faces_map m = fold_left (fun mm q => mput fkey_eqb mm (fk q) (fmk q)) (marked_faces m) [].
Proof. unfold marked_faces_map. apply fold_left_ext. intros mm [[[[mk p1] p2] p3] p4]. reflexivity. Qed.

(* markers of A (last wins), then of B (first wins) *)
Lemma last_first_spec {K Q} (eqb : K -> K -> bool) (H : forall a b, eqb a b = true <-> a = b) (key : Q -> K) (mk : Q -> Z) (keyb : Q -> res K) (mv : Q -> Q) la lb mm :
  (forall q k, In q lb -> keyb q = Ok k -> key (mv q) = k) -> (forall q, mk (mv q) = mk q) ->
  foldM (put_all eqb keyb mk) lb (fold_left (fun mm q => mput eqb mm (key q) (mk q)) la []) = Ok mm ->
  NoDup (map fst mm) /\ forall k v, In (k, v) mm <-> exists q, last_first (fun q => key q = k) la (map mv lb) q /\ mk q = v.
Proof.
  intros KB MB E. destruct (put_all_spec eqb H keyb mk lb _ _ E (fold_mput_nodup eqb H key mk la [] (NoDup_nil _))) as (ND & TB & G). split; [exact ND|]. intros k v.
  assert (IG : In (k, v) mm <-> mget eqb mm k = Some v) by (split; [apply (in_mget eqb H), ND|apply (mget_in eqb H)]). rewrite IG, G. clear IG.
  assert (KB' : forall q, In q lb -> (keyb q = Ok k <-> key (mv q) = k)). { intros q Hq. destruct (TB q Hq) as (k' & E'). rewrite (KB q k' Hq E'), E'. split; congruence. }
  destruct (marker_fold eqb H key mk la k []) as [(l1 & q0 & l2 & Ea & K0 & N0 & G0)|[N0 G0]]; rewrite G0.
  - split.
    + intros [X|(X & _)]; [|discriminate]. injection X as <-. exists q0. split; [|reflexivity]. split; [exact K0|]. left. exists l1, l2. auto.
    + intros (q & (K1 & [(u & w & Eu & Nu)|(Na & _)]) & M).
      * left. f_equal. rewrite <- M. assert (QQ : q0 = q); [|rewrite QQ; reflexivity].
        { clear - Ea Eu N0 Nu K0 K1. subst la. revert u Eu. induction l1 as [|x l1 IH]; intros [|y u] Eu; cbn in Eu; injection Eu as X Eu.
          - exact X.
          - exfalso. apply (N0 q); [|exact K1]. rewrite Eu. apply in_elt.
          - exfalso. subst x. apply (Nu q0); [|exact K0]. rewrite <- Eu. apply in_elt.
          - apply (IH u Eu). }
      * exfalso. apply (Na q0); [|exact K0]. rewrite Ea. apply in_elt.
  - cbn [mget]. split.
    + intros [X|(_ & l1 & q & l2 & El & Kq & M & N)]; [discriminate|]. exists (mv q). rewrite MB. split; [|exact M].
      split; [apply KB'; [rewrite El; apply in_elt|exact Kq]|]. right. split; [exact N0|]. exists (map mv l1), (map mv l2). split; [rewrite El, map_app; reflexivity|].
      intros q' Hq'. apply in_map_iff in Hq' as (q1 & <- & Hq1). intros X. apply (N q1 Hq1). apply KB'; [rewrite El; apply in_or_app; auto|exact X].
    + intros (q & (K1 & [(u & w & Eu & _)|(_ & u & w & Eu & Nu)]) & M).
      * exfalso. apply (N0 q); [|exact K1]. rewrite Eu. apply in_elt.
      * right. split; [reflexivity|]. apply map_eq_app in Eu as (l1 & l2' & El & Eu1 & Eu2). apply map_eq_cons in Eu2 as (q1 & l2 & E2 & Eq & _). subst l2' q. rewrite MB in M.
        exists l1, q1, l2. split; [exact El|]. split; [apply KB'; [rewrite El; apply in_elt|exact K1]|]. split; [exact M|]. intros q' Hq' X.
        apply (Nu (mv q')); [rewrite <- Eu1; apply in_map; exact Hq'|]. apply KB'; [rewrite El; apply in_or_app; auto|exact X].
Qed.

(* ------------------------------------------------------------------ points *)
Section Join.
Variable shp : list nat -> list nat.
Hypothesis shpP : forall l, Permutation (shp l) l.
Variable shuffle : emap -> emap.
Hypothesis shuffled : forall l, Permutation (shuffle l) l.
Variable sh : container -> container.
Hypothesis shP : forall c, Permutation (sh c) c.

Definition valid (m : mesh R) : Prop := consistent m /\ coords_complete m /\ (ndim m = 2 \/ ndim m = 3).
Definition hist_of (a : mesh R) : history := map (fun p => (pt_id p, pt_coords p)) (points a).

Lemma hist_in a id x : consistent a -> In (id, x) (hist_of a) <-> exists pt, nth_error (points a) id = Some pt /\ pt_coords pt = x.
Proof.
  intros (C & _). unfold hist_of. rewrite in_map_iff. split.
  - intros (pt & E & I). injection E as E1 E2. apply In_nth_error in I as (n & I). rewrite (C n pt I) in E1. subst n. eauto.
  - intros (pt & N & E). exists pt. split; [rewrite (C id pt N), E; reflexivity|]. eapply nth_error_In; eauto.
Qed.
Lemma hist_nodup a : consistent a -> NoDup (map fst (hist_of a)).
Proof.
  intros (C & _). unfold hist_of. rewrite map_map. cbn [fst].
  assert (E : map pt_id (points a) = seq 0 (List.length (points a))).
  { apply nth_ext with (d := 0) (d' := 0); [rewrite map_length, seq_length; reflexivity|]. intros n Hn. rewrite map_length in Hn. rewrite seq_nth by exact Hn. cbn.
    destruct (nth_error (points a) n) as [pt|] eqn:E; [|apply nth_error_None in E; lia]. erewrite nth_error_nth; [|rewrite nth_error_map, E; reflexivity]. apply C. exact E. }
  change (NoDup (map pt_id (points a))). rewrite E. apply seq_NoDup.
Qed.
Lemma hist_last a id x : consistent a -> In (id, x) (hist_of a) -> last_insertion (hist_of a) id x.
Proof.
  intros C I. pose proof (hist_nodup a C) as ND. apply in_split in I as (h1 & h2 & E). exists h1, h2. split; [exact E|]. rewrite E, map_app in ND. cbn [map fst] in ND.
  apply NoDup_remove_2 in ND. intros X. apply ND. apply in_or_app. right. exact X.
Qed.

Definition enclosed (a : mesh R) (ft : @features R) (x : list R) : Prop :=
  forall j, j < ndim a -> exists p q u v, In p (ft_points ft) /\ In q (ft_points ft) /\ coord_is a p j u /\ coord_is a q j v /\ (u <= nth j x 0 <= v)%R.

Lemma join_grid_inv a g : valid a -> join_grid shp shuffle a = Ok g ->
  exists ft g' xmin xmax, ready shuffle a false ft /\ features_grid shp a ft = Ok g' /\
    mapM unwrap (fst (ft_limits ft)) = Ok xmin /\ mapM unwrap (snd (ft_limits ft)) = Ok xmax /\
    List.length xmin = ndim a /\ List.length xmax = ndim a /\ reached xmin xmax None (/ 10000) (/ 100) (hist_of a) g.
Proof.
  intros (C & CC & D) H. unfold join_grid in H. apply bind_ok in H as (ft & F & H). apply bind_ok in H as (g' & G' & H).
  apply bind_ok in H as (xmin & E1 & H). apply bind_ok in H as (xmax & E2 & H). apply bind_ok in H as (g0 & N & H).
  exists ft, g', xmin, xmax. split; [split; [exact C|split; [exact CC|split; [exact D|exact F]]]|]. split; [exact G'|]. split; [exact E1|]. split; [exact E2|].
  destruct (points_and_limits Rleb shuffle shuffled a false ft Rleb_total C D F) as (_ & _ & L1 & L2 & _).
  split; [rewrite (mapM_length _ _ _ E1); exact L1|]. split; [rewrite (mapM_length _ _ _ E2); exact L2|].
  exists g0. split; [exact N|]. unfold hist_of. rewrite <- (foldM_map (fun (g : grid) (p : nat * list R) => grid_insert g (fst p) (snd p)) (fun p : point R => (pt_id p, pt_coords p))). exact H.
Qed.

(* coordinates within the range of those of the points of features *)
Lemma enclosed_limits a ft xmin xmax x : ready shuffle a false ft -> mapM unwrap (fst (ft_limits ft)) = Ok xmin -> mapM unwrap (snd (ft_limits ft)) = Ok xmax ->
  enclosed a ft x -> forall j, j < ndim a -> (nth j xmin 0 <= nth j x 0 <= nth j xmax 0)%R.
Proof.
  intros Rd E1 E2 En j Hj. destruct (En j Hj) as (p & q & u & v & Hp & Hq & (p' & Np & Hu) & (q' & Nq & Hv) & L).
  destruct (in_limits shuffle shuffled a false ft xmin xmax p (pt_coords p') Rd E1 E2 Hp) as (_ & _ & B1); [exists p'; auto|].
  destruct (in_limits shuffle shuffled a false ft xmin xmax q (pt_coords q') Rd E1 E2 Hq) as (_ & _ & B2); [exists q'; auto|].
  specialize (B1 j Hj). specialize (B2 j Hj). rewrite (nth_error_nth _ _ 0%R Hu) in B1. rewrite (nth_error_nth _ _ 0%R Hv) in B2. lra.
Qed.

Lemma join_grid_total a ft : valid a -> features_new Rleb shuffle a false = Ok ft ->
  (forall j, j < ndim a -> exists p q x y, In p (ft_points ft) /\ In q (ft_points ft) /\ coord_is a p j x /\ coord_is a q j y /\ x <> y) ->
  (forall pt, In pt (points a) -> enclosed a ft (pt_coords pt)) -> exists g, join_grid shp shuffle a = Ok g.
Proof.
  intros (C & CC & D) F W En. assert (Rd : ready shuffle a false ft) by (split; [exact C|split; [exact CC|split; [exact D|exact F]]]).
  destruct (grid_total shp shpP shuffle shuffled a false ft Rd W) as (g' & G'). unfold join_grid. rewrite F. cbn [bind]. rewrite G'. cbn [bind].
  unfold features_grid in G'. apply bind_ok in G' as (xmin & E1 & G'). apply bind_ok in G' as (xmax & E2 & G'). apply bind_ok in G' as (g0 & N & _).
  rewrite E1, E2. cbn [bind]. destruct (grid_new xmin xmax None None None) as [g1| | |] eqn:G; cbn in N; try discriminate. cbn [bind].
  destruct (points_and_limits Rleb shuffle shuffled a false ft Rleb_total C D F) as (_ & _ & L1 & L2 & _).
  assert (N1 : List.length xmin = ndim a) by (rewrite (mapM_length _ _ _ E1); auto). assert (N2 : List.length xmax = ndim a) by (rewrite (mapM_length _ _ _ E2); auto).
  assert (K : forall l h g, (forall pt, In pt l -> In pt (points a)) -> reached xmin xmax None (/10000) (/100) h g ->
     exists g', foldM (fun (g : grid) (p : point R) => grid_insert g (pt_id p) (pt_coords p)) l g = Ok g').
  { induction l as [|p t IH]; intros h g Hl Hr; cbn [foldM]; [eauto|]. pose proof (Hl p (or_introl eq_refl)) as Hp.
    destruct (C14_insert_total _ _ _ _ _ _ _ (pt_id p) (pt_coords p) Hr) as ((g2 & I & R') & _).
    - apply (C14_limits_cover _ _ _ _ _ _ _ _ Hr). pose proof (CC p Hp) as LC.
      split; [rewrite map_length; congruence|]. intros i Hi. rewrite map_length in Hi. rewrite !nth_map0 by lia.
      pose proof (enclosed_limits a ft xmin xmax (pt_coords p) Rd E1 E2 (En p Hp) i ltac:(lia)). lra.
    - rewrite I. cbn [bind]. apply (IH (h ++ [(pt_id p, pt_coords p)]) g2); [|exact R']. intros pt Hpt. apply Hl. right. exact Hpt. }
  apply (K (points a) [] g1); [auto|]. exists g1. split; [exact G|reflexivity].
Qed.

(* where a point goes *)
Definition decide (g : grid) (x : list R) : res (option nat) :=
  let! out := is_outside g x in if (out : bool) then Ok None else grid_search sh g x.
Lemma decide_spec a g x : valid a -> join_grid shp shuffle a = Ok g -> List.length x = ndim a ->
  exists r, decide g x = Ok r /\
    (forall id, r = Some id -> exists q, nth_error (points a) id = Some q /\ (euclid (pt_coords q) x <= tolR (ndim a))%R) /\
    (r = None -> forall ft, features_new Rleb shuffle a false = Ok ft -> forall i q, nth_error (points a) i = Some q -> enclosed a ft (pt_coords q) -> ~ close (/ 10000) (pt_coords q) x).
Proof.
  intros V G L. pose proof V as (C & CC & D). destruct (join_grid_inv a g V G) as (ft & g' & xmin & xmax & Rd & G' & E1 & E2 & N1 & N2 & Hr).
  destruct (C14_is_outside _ _ _ _ _ _ _ x Hr) as (b & Eb & Hb); [congruence|]. unfold decide. rewrite Eb. cbn [bind].
  assert (DB : in_box (g_xmin g) (g_xmax g) x \/ ~ in_box (g_xmin g) (g_xmax g) x).
  { destruct (reached_facts _ _ _ _ _ _ _ Hr) as (g0 & W & _ & _ & _ & _ & B & _). rewrite B. apply inside_dec1. exact W. }
  destruct DB as [IB|IB].
  - destruct b; [exfalso; exact (proj1 Hb eq_refl IB)|]. destruct (C14_search_total sh _ _ _ _ _ _ _ x shP Hr) as (T & _). destruct (T IB) as (r & Er). exists r. split; [exact Er|]. split.
    + intros id ->. destruct (C13_search_sound sh _ _ _ _ _ _ _ _ _ shP Hr Er) as (y & Iy & _ & Dy). apply (hist_in a id y C) in Iy as (q & Nq & <-). exists q. split; [exact Nq|].
      unfold tolR. rewrite <- N1. exact Dy.
    + intros -> ft' _ i q Nq _ Cl. assert (I : In (i, pt_coords q) (hist_of a)) by (apply hist_in; eauto).
      destruct (C14_search_complete sh _ _ _ _ _ _ _ i (pt_coords q) x shP Hr (hist_last a _ _ C I) Cl IB) as (id' & X). congruence.
  - rewrite (proj2 Hb IB). exists None. split; [reflexivity|]. split; [discriminate|].
    intros _ ft' F' i q Nq En (_ & Cl). apply IB. pose proof Rd as (_ & _ & _ & F). rewrite F in F'. injection F' as <-.
    apply (C14_limits_cover _ _ _ _ _ _ _ _ Hr). split; [rewrite map_length; congruence|]. intros j Hj. rewrite map_length in Hj. rewrite !nth_map0 by lia.
    pose proof (enclosed_limits a ft xmin xmax _ Rd E1 E2 En j ltac:(lia)) as B. pose proof (CC q (nth_error_In _ _ Nq)) as LQ. specialize (Cl j ltac:(lia)). apply abs_le in Cl. lra.
Qed.
End Join.
