(* Proofs: edges and faces listed by the extraction of features *)
From Coq Require Import String List Arith Bool ZArith Lia Permutation Sorted.
From Verif Require Import Base BaseFacts Kind ShapesProof ShapesTables MeshModel MeshQuerySpec TopoModel TopoSpec TopoMaps TopoProof TopoFeat.
Import ListNotations.
Open Scope nat_scope.

(* markers *)
Lemma marker_fold {K Q} (eqb : K -> K -> bool) (H : forall a b, eqb a b = true <-> a = b)
  (key : Q -> K) (mk : Q -> Z) (l : list Q) k : forall m0,
  (exists l1 q l2, l = l1 ++ q :: l2 /\ key q = k /\ (forall q', In q' l2 -> key q' <> k) /\
     mget eqb (fold_left (fun mm q => mput eqb mm (key q) (mk q)) l m0) k = Some (mk q)) \/
  ((forall q, In q l -> key q <> k) /\
     mget eqb (fold_left (fun mm q => mput eqb mm (key q) (mk q)) l m0) k = mget eqb m0 k).
Proof.
  induction l as [|q t IH]; intros m0; cbn [fold_left].
  - right. split; [intros q []|reflexivity].
  - destruct (IH (mput eqb m0 (key q) (mk q))) as [(l1 & q1 & l2 & -> & E & N & G)|[N G]].
    + left. exists (q :: l1), q1, l2. auto.
    + destruct (eqb (key q) k) eqn:EK.
      * apply H in EK. left. exists [], q, t. split; [reflexivity|]. split; [exact EK|]. split; [exact N|].
        rewrite G, EK. apply mget_mput_same. exact H.
      * right. assert (NK : key q <> k) by (intros X; apply H in X; congruence). split.
        -- intros q' [<-|Hq']; auto.
        -- rewrite G. apply mget_mput_other; auto.
Qed.

Section Feat.
Context {T : Type}.
Variable leb : T -> T -> bool.
Implicit Types (m : mesh T).

Lemma fold_left_ext {A B} (f g : A -> B -> A) l : (forall a b, f a b = g a b) -> forall a, fold_left f l a = fold_left g l a.
Proof. intros E. induction l as [|b t IH]; intros a; cbn; [reflexivity|]. rewrite E. apply IH. Qed.

Lemma edge_marker_spec m a b : a <= b ->
  edge_marker m a b (unwrap_or_0 (mget ekey_eqb (marked_edges_map m) (a, b))).
Proof.
  intros L. unfold edge_marker, marked_edges_map.
  rewrite (fold_left_ext _ (fun mm q => mput ekey_eqb mm (sort2 (snd (fst q), snd q)) (fst (fst q))))
    by (intros mm [[mk p1] p2]; reflexivity).
  destruct (marker_fold ekey_eqb ekey_eqb_eq (fun q : Z * nat * nat => sort2 (snd (fst q), snd q)) (fun q => fst (fst q))
              (marked_edges m) (a, b) []) as [(l1 & [[mk p] q] & l2 & E & K & N & G)|[N G]].
  - left. exists l1, l2, p, q. rewrite G. cbn. split; [exact E|]. cbn in K. split; [apply sort2_iff; auto|].
    intros mk' p' q' Hin S. apply (N _ Hin). cbn. apply sort2_iff; auto.
  - right. rewrite G. cbn. split; [reflexivity|]. intros mk' p' q' Hin S. apply (N _ Hin). cbn. apply sort2_iff; auto.
Qed.
Lemma face_marker_spec m ps : face_marker m ps (unwrap_or_0 (mget fkey_eqb (marked_faces_map m) (sort4 ps))).
Proof.
  unfold face_marker, marked_faces_map.
  rewrite (fold_left_ext _ (fun mm q => mput fkey_eqb mm (sort4 (marked_face_points q)) (fst (fst (fst (fst q))))))
    by (intros mm [[[[mk p1] p2] p3] p4]; reflexivity).
  destruct (marker_fold fkey_eqb fkey_eqb_eq (fun q : Z * nat * nat * nat * option nat => sort4 (marked_face_points q)) (fun q => fst (fst (fst (fst q))))
              (marked_faces m) (sort4 ps) []) as [(l1 & q & l2 & E & K & N & G)|[N G]].
  - left. exists l1, l2, q. rewrite G. cbn [unwrap_or_0]. split; [exact E|]. split; [reflexivity|].
    split; [apply sort4_perm; auto|]. intros q' Hin S. apply (N _ Hin). apply sort4_perm. apply Permutation_sym. exact S.
  - right. rewrite G. cbn [mget unwrap_or_0]. split; [reflexivity|]. intros q' Hin S. apply (N _ Hin). apply sort4_perm.
    apply Permutation_sym. exact S.
Qed.

(* 2D *)
Definition accepted (ea : bool) (kv : ekey * list (nat * nat)) : bool := ea || (List.length (snd kv) =? 1).
Definition build_edge m (kv : ekey * list (nat * nat)) : res (ekey * edge) :=
  let! ce := get (snd kv) 0 in
  let! c := get (cells m) (fst ce) in
  let! kd := unwrap (kind_edge_kind (c_kind c)) in
  let! ps := mapM (fun i => get (c_points c) (edge_node_id (c_kind c) (snd ce) i))
               (seq 0 (kind_edge_nnode (c_kind c))) in
  Ok (fst kv, mkEdge kd ps (unwrap_or_0 (mget ekey_eqb (marked_edges_map m) (fst kv)))).
Lemma build_edge_key m kv ke : build_edge m kv = Ok ke -> fst ke = fst kv.
Proof.
  unfold build_edge. intros H. apply bind_ok in H. destruct H as (ce & _ & H). apply bind_ok in H. destruct H as (c & _ & H).
  apply bind_ok in H. destruct H as (kd & _ & H). apply bind_ok in H. destruct H as (ps & _ & H). injection H as <-. reflexivity.
Qed.
Lemma edges_2d_eq m ea all : forall pl es pl' es', NoDup (map fst es ++ map fst all) ->
  (foldM (add_edge_2d leb m ea) all (pl, es) = Ok (pl', es') <->
   exists new, es' = es ++ new /\ mapM (build_edge m) (filter (accepted ea) all) = Ok new /\
     foldM (add_point leb m) (flat_map (fun ke => e_points (snd ke)) new) pl = Ok pl').
Proof.
  induction all as [|[k sh] t IH]; intros pl es pl' es' ND.
  - cbn. split.
    + intros H. injection H as -> ->. exists []. rewrite app_nil_r. auto.
    + intros (new & -> & E & H). injection E as <-. cbn in H. injection H as ->. rewrite app_nil_r. reflexivity.
  - cbn [foldM filter]. unfold accepted at 1. cbn [snd]. unfold add_edge_2d at 1.
    destruct (ea || (List.length sh =? 1)) eqn:EA; cbn [negb].
    + cbn [mapM]. unfold build_edge at 1. cbn [fst snd].
      destruct (get sh 0) as [ce| | |] eqn:E1; cbn [bind];
        try (split; [discriminate|intros (? & _ & ? & _); discriminate]).
      destruct (get (cells m) (fst ce)) as [c| | |] eqn:E2; cbn [bind];
        try (split; [discriminate|intros (? & _ & ? & _); discriminate]).
      destruct (unwrap (kind_edge_kind (c_kind c))) as [kd| | |] eqn:E3; cbn [bind];
        try (split; [discriminate|intros (? & _ & ? & _); discriminate]).
      destruct (mapM (fun i => get (c_points c) (edge_node_id (c_kind c) (snd ce) i)) (seq 0 (kind_edge_nnode (c_kind c))))
        as [ps| | |] eqn:E4; cbn [bind]; try (split; [discriminate|intros (? & _ & ? & _); discriminate]).
      set (ed := mkEdge kd ps _).
      assert (NK : ~ In k (map fst es)).
      { intros X. apply NoDup_remove_2 in ND. apply ND. apply in_app_iff. auto. }
      assert (ND' : NoDup (map fst (es ++ [(k, ed)]) ++ map fst t))
        by (rewrite map_app, <- app_assoc; exact ND).
      split.
      * intros H. apply bind_ok in H. destruct H as ([pl1 es1] & E & H). apply bind_ok in E. destruct E as (pl2 & E5 & E).
        injection E as -> <-. rewrite (mput_new _ ekey_eqb_eq) in H by exact NK.
        apply IH in H; [|exact ND']. destruct H as (new & -> & En & Ep). exists ((k, ed) :: new).
        split; [rewrite <- app_assoc; reflexivity|]. rewrite En. cbn [bind]. split; [reflexivity|].
        cbn [flat_map]. rewrite foldM_app. cbn [snd]. unfold ed at 1. cbn [e_points]. rewrite E5. cbn [bind]. exact Ep.
      * intros (new & -> & En & Ep). apply bind_ok in En. destruct En as (new' & En & X). injection X as <-.
        cbn [flat_map] in Ep. rewrite foldM_app in Ep. cbn [snd] in Ep. unfold ed at 1 in Ep. cbn [e_points] in Ep.
        apply bind_ok in Ep. destruct Ep as (pl1 & Ep1 & Ep). rewrite Ep1. cbn [bind].
        rewrite (mput_new _ ekey_eqb_eq) by exact NK. apply IH; [exact ND'|]. exists new'. rewrite <- app_assoc. auto.
    + cbn [bind]. apply IH. eapply NoDup_remove_1. exact ND.
Qed.

(* 3D *)
Definition build_face m (all : fmap) (k : fkey) : res (fkey * face) :=
  let! sh := unwrap (mget fkey_eqb all k) in
  let! cf := get sh 0 in
  let! c := get (cells m) (fst cf) in
  let! kd := unwrap (kind_face_kind (c_kind c)) in
  let! ps := mapM (fun i => get (c_points c) (face_node_id (c_kind c) (snd cf) i))
               (seq 0 (kind_face_nnode (c_kind c))) in
  Ok (k, mkFace kd ps (unwrap_or_0 (mget fkey_eqb (marked_faces_map m) k))).
Definition accepted3 (ea : bool) (all : fmap) (k : fkey) : bool :=
  match mget fkey_eqb all k with Some sh => ea || (List.length sh =? 1) | None => false end.
Lemma build_face_key m all k kf : build_face m all k = Ok kf -> fst kf = k.
Proof.
  unfold build_face. intros H. apply bind_ok in H. destruct H as (ce & _ & H). apply bind_ok in H. destruct H as (c & _ & H).
  apply bind_ok in H. destruct H as (kd & _ & H). apply bind_ok in H. destruct H as (ps & _ & H).
  apply bind_ok in H. destruct H as (ps' & _ & H). injection H as <-. reflexivity.
Qed.
Lemma faces_3d_eq m all ea ks : forall pl es fs pl' es' fs', NoDup (map fst fs ++ ks) ->
  (forall k, In k ks -> exists sh, mget fkey_eqb all k = Some sh) ->
  (foldM (add_face_3d leb m all ea) ks (pl, es, fs) = Ok (pl', es', fs') ->
   exists new, fs' = fs ++ new /\ mapM (build_face m all) (filter (accepted3 ea all) ks) = Ok new /\
     foldM (add_point leb m) (flat_map (fun kf => f_points (snd kf)) new) pl = Ok pl' /\
     foldM (fun es kf => add_face_edges m (snd kf) es) new es = Ok es').
Proof.
  induction ks as [|k t IH]; intros pl es fs pl' es' fs' ND HK H.
  - cbn in H. injection H as <- <- <-. exists []. cbn. rewrite app_nil_r. auto.
  - destruct (HK k (or_introl eq_refl)) as (sh & Esh).
    cbn [foldM] in H. apply bind_ok in H. destruct H as ([[pl1 es1] fs1] & E & H).
    cbn [filter]. unfold accepted3 at 1. rewrite Esh.
    unfold add_face_3d in E. rewrite Esh in E. cbn [unwrap bind] in E.
    destruct (ea || (List.length sh =? 1)) eqn:EA; cbn [negb] in E.
    + apply bind_ok in E. destruct E as (cf & E1 & E). apply bind_ok in E. destruct E as (c & E2 & E).
      apply bind_ok in E. destruct E as (kd & E3 & E). apply bind_ok in E. destruct E as (ps & E4 & E).
      apply bind_ok in E. destruct E as (pl2 & E5 & E). apply bind_ok in E. destruct E as (es2 & E6 & E).
      injection E as -> -> <-.
      assert (NK : ~ In k (map fst fs)).
      { intros X. apply NoDup_remove_2 in ND. apply ND. apply in_app_iff. auto. }
      rewrite (mput_new _ fkey_eqb_eq) in H by exact NK.
      apply IH in H; [|rewrite map_app, <- app_assoc; exact ND|intros k' Hk'; apply HK; right; exact Hk'].
      destruct H as (new & -> & En & Ep & Ee).
      eexists (_ :: new). split; [rewrite <- app_assoc; reflexivity|].
      split; [cbn [mapM]; unfold build_face at 1; rewrite Esh; cbn [unwrap bind]; rewrite E1; cbn [bind]; rewrite E2; cbn [bind];
              rewrite E3; cbn [bind]; rewrite E4; cbn [bind]; rewrite En; reflexivity|].
      split.
      * cbn [flat_map snd f_points]. rewrite foldM_app, E5. exact Ep.
      * cbn [foldM snd]. rewrite E6. exact Ee.
    + injection E as <- <- <-. apply IH; [eapply NoDup_remove_1; exact ND|intros k' Hk'; apply HK; right; exact Hk'|exact H].
Qed.
End Feat.
