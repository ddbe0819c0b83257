(* The triangulation of a surface: one triangle, one cell, all cells. *)
From Coq Require Import String Reals QArith Qreals List Arith Bool Lia.
From Verif Require Import Base BaseFacts Kind MeshModel MeshQuerySpec ShapesData ShapesModel ShapesSpec ShapesProof ShapesTables PadModel PadSpec
  PadProof PadProof2 PadProof3 PadProof4 ConvertModel ConvertProof TopoModel TopoMaps TriSurfModel TriSurfSpec TriSurfProof.
Import ListNotations.
Local Open Scope nat_scope.

Lemma plane_tri_or_qua k : tri_or_qua k = true <-> plane_kind k.
Proof. unfold tri_or_qua, plane_kind. destruct (kind_class k); intuition discriminate. Qed.
Lemma plane_ndim k : plane_kind k -> kind_ndim k = 2.
Proof. unfold plane_kind. destruct k; vm_compute; intuition discriminate. Qed.
Lemma plane_nodes k t i : plane_kind k -> t < triangulate_ntriangle k -> i < 3 ->
  triangulate_triangle_nodes k t i = Some (tnode k t i) /\ tnode k t i < kind_nnode k + triangulate_extra_nnode k.
Proof.
  intros P Ht Hi. pose proof (tri_nodes_check k) as N. rewrite (proj2 (is_2d_class k) P) in N. cbn [negb orb] in N.
  apply andb_prop in N as [N _]. apply andb_prop in N as [N _].
  apply forallb_seq with (i := t) in N; [|exact Ht]. apply forallb_seq with (i := i) in N; [|exact Hi].
  unfold tnode. destruct (triangulate_triangle_nodes k t i); [|discriminate]. split; [auto|now apply Nat.ltb_lt].
Qed.

Lemma mapM_ok {A B} (f : A -> res B) (g : A -> B) l : (forall a, In a l -> f a = Ok (g a)) -> mapM f l = Ok (map g l).
Proof.
  induction l as [|a l IH]; intros H; [reflexivity|]. cbn [mapM map]. rewrite H by now left. cbn [bind].
  rewrite IH by (intros; apply H; now right). reflexivity.
Qed.

Section Surface.
Variable m : mesh R.
Variable s : list (geokind * list nat).
Hypothesis V : valid_surface m s.
Let D : ndim m = 2 \/ ndim m = 3 := proj1 V.

Definition as_cell (k : geokind) (pts : list nat) : cell := mkCell 0 0%Z k pts.

Lemma tri_corner_ok c k pts p n : nth_error s c = Some (k, pts) -> plane_kind k ->
  element_of m (as_cell k pts) p -> p_ok p = true -> n < kind_nnode k + triangulate_extra_nnode k ->
  exists x q, tri_corner p (ndim m) n = Ok (x, q) /\ List.length x = ndim m /\ element_of m (as_cell k pts) q /\ p_ok q = true /\
    forall i, i < ndim m -> nth i x 0%R = origin_x m s (corner_origin c k pts n) i.
Proof.
  intros Hs P (W & Ek & Es & X) O Hn. cbn [c_kind as_cell] in Ek.
  destruct (proj2 (proj2 V) k pts (nth_error_In _ _ Hs) P) as (Lp & Hp).
  assert (NX : forall i a, i < ndim m -> a < kind_nnode k -> node_x p i a = point_x m (nth a pts 0) i).
  { intros i a Hi Ha. unfold point_x. assert (Ea : nth_error pts a = Some (nth a pts 0)) by (apply nth_error_nth'; lia).
    destruct (nth_error (points m) (nth a pts 0)) as [pt|] eqn:Ept; [now apply (X a (nth a pts 0) pt)|].
    apply nth_error_None in Ept. specialize (Hp (nth a pts 0) (nth_error_In _ _ Ea)). lia. }
  unfold tri_corner, corner_origin. rewrite Ek. destruct (Nat.leb_spec (kind_nnode k) n) as [Hm|Hm].
  - destruct (Nat.leb_spec (triangulate_extra_nnode k) (n - kind_nnode k)); [lia|].
    destruct (Nat.ltb_spec n (kind_nnode k)); [lia|].
    rewrite <- Es. destruct (pad_coords_ok p (map Q2R (triangulate_extra_coords k (n - kind_nnode k))) W O) as (x & q & -> & Lx & Hx & Sm).
    exists x, q. split; [reflexivity|]. split; [auto|]. destruct Sm as (S1 & S2 & S3 & S4). split; [|split; [congruence|]].
    + split; [unfold pad_wf; rewrite S1, S2, S3; exact W|]. split; [cbn [c_kind as_cell]; congruence|]. split; [congruence|].
      intros a id pt i Ha Hid Hi. unfold node_x. rewrite S3. now apply (X a id pt).
    + intros i Hi. rewrite Hx by auto. unfold pos, origin_x. rewrite Hs, Ek. apply sum_n_ext. intros a Ha. rewrite NX; [reflexivity|lia|auto].
  - destruct (Nat.ltb_spec n (kind_nnode k)); [|lia].
    rewrite (mapM_ok _ (fun j => node_x p j n)).
    + cbn [bind]. eexists _, p. split; [reflexivity|]. rewrite map_length, seq_length. split; [auto|].
      split; [repeat split; auto; apply W|]. split; [auto|]. intros i Hi. rewrite nth_map_seq by lia. simpl. now apply NX.
    + intros j Hj. apply in_seq in Hj. rewrite (get_ok _ _ []) by (destruct W as (_ & _ & -> & _); lia). cbn [bind].
      apply get_ok. rewrite (wf_row p j W) by lia. now rewrite Ek.
Qed.

Definition tris_ok (L : list origin) (tr : triang) (T : list (list origin)) : Prop :=
  Forall2 (Forall2 (fun p o => nth_error (uniq L) p = Some o)) (t_tris tr) T.

Lemma uniq_grow L o p x : nth_error (uniq L) p = Some x -> nth_error (uniq (L ++ [o])) p = Some x.
Proof. rewrite uniq_snoc. apply note_keeps. Qed.
Lemma tris_grow L o tr T : tris_ok L tr T -> tris_ok (L ++ [o]) tr T.
Proof.
  unfold tris_ok. intros H. induction H as [|x y l l' Hxy _ IH]; constructor; auto.
  clear - Hxy. induction Hxy; constructor; auto. now apply uniq_grow.
Qed.

Definition cstate c L T k pts (st : pad * work) : Prop :=
  element_of m (as_cell k pts) (fst st) /\ p_ok (fst st) = true /\ core m s c L (snd st) /\
  List.length (w_extra (snd st)) = triangulate_extra_nnode k /\ tris_ok L (w_tr (snd st)) T.

Definition tri_of c k pts t : list origin :=
  [corner_origin c k pts (tnode k t 0); corner_origin c k pts (tnode k t 1); corner_origin c k pts (tnode k t 2)].

Lemma triangle_ok c k pts L T t st : nth_error s c = Some (k, pts) -> plane_kind k -> t < triangulate_ntriangle k ->
  cstate c L T k pts st ->
  exists st', foldM (fun (st : pad * work) i =>
          let! m0 := unwrap (triangulate_triangle_nodes k t i) in
          let! xp := tri_corner (fst st) (ndim m) m0 in
          let! s := on_corner (ndim m) (kind_nnode k) pts (snd st) t i m0 (fst xp) in
          Ok (snd xp, s))
        (seq 0 3) st = Ok st' /\ cstate c (L ++ tri_of c k pts t) (T ++ [tri_of c k pts t]) k pts st'.
Proof.
  intros Hs P Ht (E & O & C & Le & HT).
  destruct (proj2 (proj2 V) k pts (nth_error_In _ _ Hs) P) as (Lp & _).
  assert (Step : forall i L (st : pad * work), i < 3 -> element_of m (as_cell k pts) (fst st) -> p_ok (fst st) = true -> core m s c L (snd st) ->
     List.length (w_extra (snd st)) = triangulate_extra_nnode k ->
     exists st' p, (let! m0 := unwrap (triangulate_triangle_nodes k t i) in
          let! xp := tri_corner (fst st) (ndim m) m0 in
          let! s := on_corner (ndim m) (kind_nnode k) pts (snd st) t i m0 (fst xp) in
          Ok (snd xp, s)) = Ok st' /\
       element_of m (as_cell k pts) (fst st') /\ p_ok (fst st') = true /\ core m s c (L ++ [corner_origin c k pts (tnode k t i)]) (snd st') /\
       List.length (w_extra (snd st')) = triangulate_extra_nnode k /\
       nth_error (uniq (L ++ [corner_origin c k pts (tnode k t i)])) p = Some (corner_origin c k pts (tnode k t i)) /\
       w_conn (snd st') = upd (w_conn (snd st)) i p /\
       t_tris (w_tr (snd st')) = (if i =? 2 then t_tris (w_tr (snd st)) ++ [upd (w_conn (snd st)) i p] else t_tris (w_tr (snd st)))).
  { clear st L T E O C Le HT. intros i L st Hi E O C Le. destruct (plane_nodes k t i P Ht Hi) as (-> & Hn). cbn [unwrap bind].
    destruct (tri_corner_ok c k pts (fst st) (tnode k t i) Hs P E O Hn) as (x & q & -> & Lx & Eq & Oq & Hx). cbn [bind fst snd].
    destruct (corner_ok m s c k pts L (snd st) t i (tnode k t i) x Hs D Lp Le Hn Hi Lx Hx C) as (w' & p & -> & Cw & Lw & Np & Ec & Et).
    cbn [bind]. exists (q, w'), p. cbn [fst snd]. auto 10. }
  cbn [seq foldM].
  destruct (Step 0 L st ltac:(lia) E O C Le) as (st1 & p0 & -> & E1 & O1 & C1 & Le1 & N1 & K1 & T1). cbn [bind].
  destruct (Step 1 _ st1 ltac:(lia) E1 O1 C1 Le1) as (st2 & p1 & -> & E2 & O2 & C2 & Le2 & N2 & K2 & T2). cbn [bind].
  destruct (Step 2 _ st2 ltac:(lia) E2 O2 C2 Le2) as (st3 & p2 & -> & E3 & O3 & C3 & Le3 & N3 & K3 & T3). cbn [bind].
  exists st3. split; [reflexivity|]. cbn [Nat.eqb] in T1, T2, T3.
  assert (EL : L ++ tri_of c k pts t = ((L ++ [corner_origin c k pts (tnode k t 0)]) ++ [corner_origin c k pts (tnode k t 1)]) ++ [corner_origin c k pts (tnode k t 2)])
    by (rewrite <- !app_assoc; reflexivity).
  unfold cstate. rewrite EL. split; [auto|]. split; [auto|]. split; [auto|]. split; [auto|].
  unfold tris_ok. rewrite T3, T2, T1. apply Forall2_app.
  - now apply tris_grow, tris_grow, tris_grow.
  - constructor; [|constructor]. rewrite K2, K1. destruct C as (_ & _ & _ & LC).
    destruct (w_conn (snd st)) as [|a [|b [|d [|]]]]; try discriminate. cbn [upd].
    constructor; [now apply uniq_grow, uniq_grow|]. constructor; [now apply uniq_grow|]. constructor; [auto|constructor].
Qed.

Lemma cell_triangles_plane c k pts : plane_kind k -> cell_triangles c k pts = map (tri_of c k pts) (seq 0 (triangulate_ntriangle k)).
Proof. intros [E|E]; unfold cell_triangles; rewrite E; reflexivity. Qed.
Lemma cell_triangles_other c k pts : ~ plane_kind k -> cell_triangles c k pts = [].
Proof. intros N. unfold cell_triangles. unfold plane_kind in N. destruct (kind_class k); auto; exfalso; auto. Qed.

Definition pads_ok (pads : list (geokind * pad)) : Prop :=
  forall k p, mget kind_eqb pads k = Some p -> pad_wf p /\ p_kind p = k /\ p_space p = ndim m.

Lemma corner_cells c k pts n c' e : corner_origin c k pts n = Extra c' e -> c' = c.
Proof. unfold corner_origin. destruct (n <? kind_nnode k); congruence. Qed.

(* the state before cell c *)
Definition sstate c (L : list origin) (T : list (list origin)) (st : list (geokind * pad) * work) : Prop :=
  pads_ok (fst st) /\ coords_ok m s (uniq L) (w_tr (snd st)) /\ map_ok (uniq L) (w_map (snd st)) /\
  List.length (w_conn (snd st)) = 3 /\ tris_ok L (w_tr (snd st)) T /\
  forall c' e, In (Extra c' e) L -> c' < c.

Lemma add_cell_ok c k pts L T st : nth_error s c = Some (k, pts) -> sstate c L T st ->
  exists st', add_cell m st (k, pts) = Ok st' /\
    sstate (S c) (L ++ concat (cell_triangles c k pts)) (T ++ cell_triangles c k pts) st'.
Proof.
  intros Hs (PO & CO & MO & LC & TO & EL). destruct st as [pads w]. cbn [fst snd] in *. unfold add_cell.
  destruct (tri_or_qua k) eqn:EP; cbn [negb].
  2:{ exists (pads, w). split; [reflexivity|]. rewrite cell_triangles_other by (rewrite <- plane_tri_or_qua; congruence).
      cbn [concat]. rewrite !app_nil_r. split; [auto|]. do 4 (split; [auto|]). intros c' e H. specialize (EL _ _ H). lia. }
  apply plane_tri_or_qua in EP. destruct (proj2 (proj2 V) k pts (nth_error_In _ _ Hs) EP) as (Lp & Hp).
  assert (PD : exists pd, (match mget kind_eqb pads k with
              | Some p => Ok p
              | None => match pad_new (ndim m) k with Ok p => Ok p | _ => Panic end
              end) = Ok pd /\ pad_wf pd /\ p_kind pd = k /\ p_space pd = ndim m).
  { destruct (mget kind_eqb pads k) as [pd|] eqn:G; [exists pd; split; [reflexivity|]; now apply PO|].
    destruct (pad_new_ok (ndim m) k D) as (pd & -> & W & A & B & _); [rewrite plane_ndim by auto; lia|]. eauto. }
  destruct PD as (pd & -> & W & Ek & Es). cbn [bind].
  destruct (mesh_set_pad_points m (as_cell k pts) pd) as (q & Eq & El & O); auto; [apply V|].
  cbn [c_points as_cell] in Eq. rewrite Eq. cbn [bind]. unfold pad_triangulate.
  destruct El as (W' & Ek' & Es' & X'). cbn [c_kind as_cell] in Ek'. rewrite Ek'.
  rewrite (proj2 (plane_tri_or_qua k) EP). cbn [negb]. rewrite Es', Nat.eqb_refl. cbn [negb].
  set (f := fun (st : pad * work) t => foldM _ (seq 0 3) st).
  destruct (foldM_seq f (fun n st => cstate c (L ++ concat (map (tri_of c k pts) (seq 0 n))) (T ++ map (tri_of c k pts) (seq 0 n)) k pts st)
     (triangulate_ntriangle k) (q, mkWork (w_tr w) (w_map w) (repeat None (triangulate_extra_nnode k)) (w_conn w))) as (st' & -> & C').
  - cbn [seq map concat]. rewrite !app_nil_r. split; [repeat split; auto; apply W'|]. split; [auto|].
    cbn [snd w_extra w_tr]. split; [|split; [apply repeat_length|auto]].
    split; [auto|]. split; [auto|]. split; [|auto]. cbn [w_extra]. split.
    + intros e p He. apply nth_error_In, repeat_spec in He. discriminate.
    + intros e He HI. apply (uniq_in L) in HI. specialize (EL _ _ HI). lia.
  - intros t st Ht C. destruct (triangle_ok c k pts _ _ t st Hs EP Ht C) as (st' & E' & C'). exists st'. split; [exact E'|].
    rewrite seq_S, map_app, concat_app. cbn [map concat]. rewrite Nat.add_0_l, app_nil_r, !app_assoc. exact C'.
  - destruct st' as [pd' w']. rewrite cell_triangles_plane by auto. eexists. split; [reflexivity|].
    destruct C' as (E1 & O1 & (CO1 & MO1 & _ & LC1) & Le & TO1). cbn [fst snd] in *.
    split; [|do 4 (split; [auto|])].
    + intros k' p'. cbn [fst]. destruct (kind_eqb k k') eqn:EK.
      * apply kind_eqb_eq in EK as <-. rewrite (mget_mput_same kind_eqb kind_eqb_eq). intros [= <-].
        destruct E1 as (W1 & K1 & S1 & _). auto.
      * rewrite (mget_mput_other kind_eqb kind_eqb_eq); [apply PO|]. intros Q. rewrite (proj2 (kind_eqb_eq k k') Q) in EK. discriminate.
    + intros c' e. rewrite in_app_iff. intros [H|H]; [specialize (EL _ _ H); lia|].
      apply in_concat in H as (tri & H1 & H2). apply in_map_iff in H1 as (t & <- & _). unfold tri_of in H2.
      simpl in H2. destruct H2 as [H2|[H2|[H2|[]]]]; apply corner_cells in H2; lia.
Qed.

Lemma triangles_from_app a : forall c b, triangles_from c (a ++ b) = triangles_from c a ++ triangles_from (c + List.length a) b.
Proof.
  induction a as [|[k pts] a IH]; intros c b; simpl; [now rewrite Nat.add_0_r|]. rewrite IH, <- app_assoc. do 3 f_equal. lia.
Qed.

Lemma fold_prefix : forall s1 s2, s = s1 ++ s2 -> exists st, foldM (add_cell m) s1 ([], mkWork (mkTriang [] [] [] []) [] [] (repeat 0 3)) = Ok st /\
     sstate (List.length s1) (concat (surface_triangles s1)) (surface_triangles s1) st.
Proof.
  induction s1 as [|[k pts] s1 IH] using rev_ind; intros s2 E.
    - eexists. split; [reflexivity|]. split; [intros k p H; discriminate|]. cbn [snd w_tr w_map w_conn].
      split; [split; [auto|split; [auto|split; [simpl; now destruct (ndim m =? 3)|intros [|n] o H; discriminate]]]|].
      split; [split; [intros id p H; discriminate|simpl; auto]|]. split; [reflexivity|]. split; [constructor|]. simpl. intros c' e [].
    - rewrite <- app_assoc in E. destruct (IH _ E) as (st & E1 & S1).
      assert (Hn : nth_error s (List.length s1) = Some (k, pts)).
      { rewrite E, nth_error_app2, Nat.sub_diag by lia. reflexivity. }
      destruct (add_cell_ok (List.length s1) k pts _ _ st Hn S1) as (st' & E2 & S2).
      exists st'. rewrite foldM_app, E1. cbn [bind foldM]. rewrite E2. cbn [bind]. split; [reflexivity|].
      unfold surface_triangles in *. rewrite triangles_from_app. cbn [triangles_from]. rewrite Nat.add_0_l, app_nil_r, concat_app, app_length.
      simpl. replace (List.length s1 + 1) with (S (List.length s1)) by lia. exact S2.
Qed.
Lemma from_surface_ok : exists tr, from_surface m s = Ok tr /\ triangulates m s tr (uniq (concat (surface_triangles s))).
Proof.
  unfold from_surface.
  pose proof fold_prefix as H.
  destruct (H s [] ltac:(now rewrite app_nil_r)) as (st & -> & (_ & CO & _ & _ & TO & _)). cbn [bind].
  eexists. split; [reflexivity|]. split; [apply uniq_numbers|]. split; [apply uniq_in|].
  destruct CO as (A & B & C & X). auto 10.
Qed.
End Surface.
