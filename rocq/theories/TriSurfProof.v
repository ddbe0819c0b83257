(* The triangulation of a surface: numbering of the points by their first appearance. *)
From Coq Require Import String Reals QArith Qreals List Arith Bool Lia.
From Verif Require Import Base BaseFacts Kind MeshModel MeshQuerySpec ShapesData ShapesModel ShapesSpec ShapesProof ShapesTables PadModel PadSpec
  PadProof PadProof2 PadProof3 PadProof4 ConvertModel ConvertProof TopoModel TopoMaps TriSurfModel TriSurfSpec.
Import ListNotations.
Local Open Scope nat_scope.

Lemma origin_dec (a b : origin) : {a = b} + {a <> b}.
Proof. decide equality; apply Nat.eq_dec. Qed.

(** Numbering by first appearance *)
Definition note (lab : list origin) (o : origin) : list origin := if in_dec origin_dec o lab then lab else lab ++ [o].
Definition uniq (L : list origin) : list origin := fold_left note L [].

Lemma uniq_snoc L o : uniq (L ++ [o]) = note (uniq L) o.
Proof. unfold uniq. now rewrite fold_left_app. Qed.
Lemma note_in lab o x : In x (note lab o) <-> In x lab \/ x = o.
Proof.
  unfold note. destruct (in_dec origin_dec o lab); [intuition subst; auto|]. rewrite in_app_iff. simpl. intuition.
Qed.
Lemma note_grows lab o : exists l, note lab o = lab ++ l.
Proof. unfold note. destruct (in_dec origin_dec o lab); [exists []; now rewrite app_nil_r|eauto]. Qed.
Lemma uniq_in L : forall x, In x (uniq L) <-> In x L.
Proof.
  induction L as [|o L IH] using rev_ind; intros x; [reflexivity|]. rewrite uniq_snoc, note_in, IH, in_app_iff. simpl. intuition.
Qed.
Lemma nodup_snoc {A} (l : list A) a : NoDup l -> ~ In a l -> NoDup (l ++ [a]).
Proof.
  induction l as [|x l IH]; simpl; intros N H; [constructor; auto|]. inversion N; subst. constructor.
  - rewrite in_app_iff. simpl. intuition.
  - apply IH; auto.
Qed.
Lemma uniq_nodup L : NoDup (uniq L).
Proof.
  induction L as [|o L IH] using rev_ind; [constructor|]. rewrite uniq_snoc. unfold note.
  destruct (in_dec origin_dec o (uniq L)); [exact IH|]. now apply nodup_snoc.
Qed.
Lemma uniq_prefix L1 : forall L2, exists l, uniq (L1 ++ L2) = uniq L1 ++ l.
Proof.
  intros L2. induction L2 as [|o L2 (l & E)] using rev_ind; [exists []; now rewrite !app_nil_r|].
  rewrite app_assoc, uniq_snoc, E. destruct (note_grows (uniq L1 ++ l) o) as (l' & E'). exists (l ++ l'). now rewrite E', app_assoc.
Qed.
Lemma uniq_numbers L : numbers (uniq L) L.
Proof.
  split; [apply uniq_nodup|]. intros L1 L2 ->. destruct (uniq_prefix L1 L2) as (l & ->).
  exists (List.length (uniq L1)). intros o. rewrite firstn_app, firstn_all, Nat.sub_diag, app_nil_r. apply uniq_in.
Qed.

Lemma nth_error_note lab o : exists p, nth_error (note lab o) p = Some o.
Proof. apply In_nth_error. apply note_in. now right. Qed.
Lemma nth_error_grow {A} (l l' : list A) p x : nth_error l p = Some x -> nth_error (l ++ l') p = Some x.
Proof. intros H. rewrite nth_error_app1; auto. apply nth_error_Some. congruence. Qed.
Lemma note_keeps lab o p x : nth_error lab p = Some x -> nth_error (note lab o) p = Some x.
Proof. destruct (note_grows lab o) as (l & ->). apply nth_error_grow. Qed.

(** One corner *)
Section Corner.
Variable m : mesh R.
Variable s : list (geokind * list nat).

Definition coords_ok (lab : list origin) (tr : triang) : Prop :=
  List.length (t_xx tr) = List.length lab /\ List.length (t_yy tr) = List.length lab /\
  List.length (t_zz tr) = (if ndim m =? 3 then List.length lab else 0) /\
  forall n o, nth_error lab n = Some o ->
     nth n (t_xx tr) 0%R = origin_x m s o 0 /\ nth n (t_yy tr) 0%R = origin_x m s o 1 /\
     (ndim m = 3 -> nth n (t_zz tr) 0%R = origin_x m s o 2).

Definition map_ok (lab : list origin) (mp : list (nat * nat)) : Prop :=
  (forall id p, mget Nat.eqb mp id = Some p -> nth_error lab p = Some (Node id)) /\
  (forall id, mget Nat.eqb mp id = None -> ~ In (Node id) lab).
Definition extra_ok (c : nat) (lab : list origin) (ex : list (option nat)) : Prop :=
  (forall k p, nth_error ex k = Some (Some p) -> nth_error lab p = Some (Extra c k)) /\
  (forall k, nth_error ex k = Some None -> ~ In (Extra c k) lab).

Lemma push_point_ok lab tr x o : ~ In o lab -> coords_ok lab tr -> List.length x = ndim m -> ndim m = 2 \/ ndim m = 3 ->
  (forall i, i < ndim m -> nth i x 0%R = origin_x m s o i) ->
  exists tr', push_point (ndim m) tr x = Ok (List.length lab, tr') /\ coords_ok (lab ++ [o]) tr' /\ t_tris tr' = t_tris tr.
Proof.
  intros N (Lx & Ly & Lz & X) L D H. unfold push_point.
  rewrite (get_ok x 0 0%R) by lia. cbn [bind]. rewrite (get_ok x 1 0%R) by lia. cbn [bind].
  assert (Z : exists zz, (if ndim m =? 3 then let! c := get x 2 in Ok (t_zz tr ++ [c]) else Ok (t_zz tr)) = Ok zz /\
     List.length zz = (if ndim m =? 3 then List.length (lab ++ [o]) else 0) /\
     (ndim m = 3 -> zz = t_zz tr ++ [nth 2 x 0%R])).
  { destruct (Nat.eqb_spec (ndim m) 3) as [E|E].
    - rewrite (get_ok x 2 0%R) by lia. cbn [bind]. eexists. split; [reflexivity|]. rewrite !app_length, Lz. simpl. auto.
    - exists (t_zz tr). split; [reflexivity|]. split; [auto|congruence]. }
  destruct Z as (zz & -> & Lz' & Z). cbn [bind]. rewrite Lx. eexists. split; [reflexivity|]. split; [|reflexivity].
  unfold coords_ok. cbn [t_xx t_yy t_zz]. rewrite !app_length. simpl List.length. split; [lia|]. split; [lia|]. split; [now rewrite app_length in Lz'|].
  intros n o' Hn. destruct (Nat.lt_ge_cases n (List.length lab)) as [Hl|Hl].
  - rewrite nth_error_app1 in Hn by auto. destruct (X n o' Hn) as (X0 & X1 & X2).
    rewrite !app_nth1 by lia. split; [auto|]. split; [auto|]. intros D3. rewrite (Z D3). rewrite app_nth1; auto.
    rewrite Lz, D3. simpl. auto.
  - rewrite nth_error_app2 in Hn by auto. destruct (n - List.length lab) as [|d] eqn:E; [|destruct d; discriminate].
    injection Hn as <-. rewrite !app_nth2 by lia. replace (n - List.length (t_xx tr)) with 0 by lia.
    replace (n - List.length (t_yy tr)) with 0 by lia. simpl. split; [apply H; lia|]. split; [apply H; lia|].
    intros D3. rewrite (Z D3). rewrite app_nth2; [|rewrite Lz, D3; simpl; lia].
    replace (n - List.length (t_zz tr)) with 0 by (rewrite Lz, D3; simpl; lia). simpl. apply H. lia.
Qed.

Definition core (c : nat) (L : list origin) (w : work) : Prop :=
  coords_ok (uniq L) (w_tr w) /\ map_ok (uniq L) (w_map w) /\ extra_ok c (uniq L) (w_extra w) /\ List.length (w_conn w) = 3.

Lemma note_new lab o : ~ In o lab -> note lab o = lab ++ [o].
Proof. intros N. unfold note. destruct (in_dec origin_dec o lab); tauto. Qed.
Lemma note_old lab o : In o lab -> note lab o = lab.
Proof. intros N. unfold note. destruct (in_dec origin_dec o lab); tauto. Qed.
Lemma nth_error_last {A} (l : list A) a : nth_error (l ++ [a]) (List.length l) = Some a.
Proof. rewrite nth_error_app2 by lia. now rewrite Nat.sub_diag. Qed.

Lemma corner_ok c k pts L w t i n x : nth_error s c = Some (k, pts) ->
  ndim m = 2 \/ ndim m = 3 -> List.length pts = kind_nnode k -> List.length (w_extra w) = triangulate_extra_nnode k ->
  n < kind_nnode k + triangulate_extra_nnode k -> i < 3 -> List.length x = ndim m ->
  (forall i, i < ndim m -> nth i x 0%R = origin_x m s (corner_origin c k pts n) i) ->
  core c L w ->
  exists w' p, on_corner (ndim m) (kind_nnode k) pts w t i n x = Ok w' /\ core c (L ++ [corner_origin c k pts n]) w' /\
    List.length (w_extra w') = triangulate_extra_nnode k /\
    nth_error (uniq (L ++ [corner_origin c k pts n])) p = Some (corner_origin c k pts n) /\
    w_conn w' = upd (w_conn w) i p /\
    t_tris (w_tr w') = (if i =? 2 then t_tris (w_tr w) ++ [upd (w_conn w) i p] else t_tris (w_tr w)).
Proof.
  intros Hs D Lp Le Hn Hi Lx Hx (CO & (M1 & M2) & (E1 & E2) & LC).
  unfold on_corner. set (o := corner_origin c k pts n) in *.
  assert (Main : exists p w1, corner_point (ndim m) (kind_nnode k) pts w n x = Ok (p, w1) /\ core c (L ++ [o]) w1 /\ List.length (w_extra w1) = triangulate_extra_nnode k /\
      nth_error (uniq (L ++ [o])) p = Some o /\ w_conn w1 = w_conn w /\ t_tris (w_tr w1) = t_tris (w_tr w)).
  { unfold corner_point. destruct (Nat.ltb_spec n (kind_nnode k)) as [Hm|Hm].
    - rewrite (get_ok pts n 0) by lia. cbn [bind].
      assert (Eo : o = Node (nth n pts 0)). { unfold o, corner_origin. destruct (Nat.ltb_spec n (kind_nnode k)); [auto|lia]. }
      destruct (mget Nat.eqb (w_map w) (nth n pts 0)) as [p|] eqn:G.
      + exists p, w. split; [reflexivity|]. pose proof (M1 _ _ G) as Hp. rewrite <- Eo in Hp.
        assert (En : uniq (L ++ [o]) = uniq L) by (rewrite uniq_snoc; apply note_old; eapply nth_error_In; eauto).
        unfold core. rewrite En. split; [|auto]. split; [auto|]. split; [split; auto|]. split; [split; auto|auto].
      + pose proof (M2 _ G) as Nn. rewrite <- Eo in Nn.
        destruct (push_point_ok (uniq L) (w_tr w) x o Nn CO Lx D Hx) as (tr' & -> & CO' & ET). cbn [bind fst snd].
        eexists _, _. split; [reflexivity|]. cbn [w_extra w_conn w_tr].
        assert (En : uniq (L ++ [o]) = uniq L ++ [o]) by (rewrite uniq_snoc; now apply note_new).
        unfold core. rewrite En. cbn [w_tr w_map w_extra w_conn]. split; [|split; [auto|split; [apply nth_error_last|auto]]].
        split; [auto|]. split; [|split; [|auto]].
        * split.
          -- intros id p. destruct (Nat.eq_dec id (nth n pts 0)) as [->|Ni].
             ++ rewrite (mget_mput_same Nat.eqb Nat.eqb_eq). intros [= <-]. rewrite Eo. apply nth_error_last.
             ++ rewrite (mget_mput_other Nat.eqb Nat.eqb_eq) by auto. intros H. apply nth_error_grow. auto.
          -- intros id. destruct (Nat.eq_dec id (nth n pts 0)) as [->|Ni].
             ++ rewrite (mget_mput_same Nat.eqb Nat.eqb_eq). discriminate.
             ++ rewrite (mget_mput_other Nat.eqb Nat.eqb_eq) by auto. intros H. rewrite in_app_iff. simpl.
                intros [F|[F|[]]]; [exact (M2 _ H F)|]. rewrite Eo in F. injection F. auto.
        * split; [intros; apply nth_error_grow; auto|]. intros k0 H0. rewrite in_app_iff. simpl.
          intros [F|[F|[]]]; [exact (E2 _ H0 F)|]. rewrite Eo in F. discriminate.
    - rewrite (get_ok (w_extra w) _ None) by lia. cbn [bind].
      assert (Eo : o = Extra c (n - kind_nnode k)). { unfold o, corner_origin. destruct (Nat.ltb_spec n (kind_nnode k)); [lia|auto]. }
      assert (Ge : nth_error (w_extra w) (n - kind_nnode k) = Some (nth (n - kind_nnode k) (w_extra w) None)) by (apply nth_error_nth'; lia).
      destruct (nth (n - kind_nnode k) (w_extra w) None) as [p|] eqn:G.
      + exists p, w. split; [reflexivity|]. pose proof (E1 _ _ Ge) as Hp. rewrite <- Eo in Hp.
        assert (En : uniq (L ++ [o]) = uniq L) by (rewrite uniq_snoc; apply note_old; eapply nth_error_In; eauto).
        unfold core. rewrite En. split; [|auto]. split; [auto|]. split; [split; auto|]. split; [split; auto|auto].
      + pose proof (E2 _ Ge) as Nn. rewrite <- Eo in Nn.
        destruct (push_point_ok (uniq L) (w_tr w) x o Nn CO Lx D Hx) as (tr' & -> & CO' & ET). cbn [bind fst snd].
        rewrite set_ok by lia. cbn [bind].
        eexists _, _. split; [reflexivity|]. cbn [w_extra w_conn w_tr].
        assert (En : uniq (L ++ [o]) = uniq L ++ [o]) by (rewrite uniq_snoc; now apply note_new).
        unfold core. rewrite En. cbn [w_tr w_map w_extra w_conn]. rewrite upd_length.
        split; [|split; [auto|split; [apply nth_error_last|auto]]].
        split; [auto|]. split; [|split; [|auto]].
        * split; [intros; apply nth_error_grow; auto|]. intros id H0. rewrite in_app_iff. simpl.
          intros [F|[F|[]]]; [exact (M2 _ H0 F)|]. rewrite Eo in F. discriminate.
        * split.
          -- intros e p He. assert (Hl : e < List.length (w_extra w)) by (rewrite <- (upd_length (w_extra w) (n - kind_nnode k) (Some (List.length (uniq L)))); apply nth_error_Some; congruence).
             rewrite (nth_error_nth' _ None) in He by (now rewrite upd_length). injection He as He.
             rewrite nth_upd in He by lia. destruct (Nat.eqb_spec (n - kind_nnode k) e) as [Q0|Ne].
             ++ injection He as <-. rewrite Eo, Q0. apply nth_error_last.
             ++ apply nth_error_grow, E1. rewrite <- He. now apply nth_error_nth'.
          -- intros e He. assert (Hl : e < List.length (w_extra w)) by (rewrite <- (upd_length (w_extra w) (n - kind_nnode k) (Some (List.length (uniq L)))); apply nth_error_Some; congruence).
             rewrite (nth_error_nth' _ None) in He by (now rewrite upd_length). injection He as He.
             rewrite nth_upd in He by lia. destruct (Nat.eqb_spec (n - kind_nnode k) e) as [Q0|Ne]; [discriminate|].
             rewrite in_app_iff. simpl. intros [F|[F|[]]]; [|rewrite Eo in F; injection F; auto].
             revert F. apply E2. rewrite <- He. now apply nth_error_nth'. }
  destruct Main as (p & w1 & -> & (CO' & M' & E' & LC') & Le' & Hp & Ec & Et). cbn [bind fst snd].
  rewrite Ec, set_ok by lia. cbn [bind].
  eexists _, p. split; [reflexivity|]. cbn [w_tr w_map w_extra w_conn t_tris]. rewrite Et.
  split; [|auto]. split; [exact CO'|]. split; [exact M'|]. split; [exact E'|]. simpl. now rewrite upd_length.
Qed.
End Corner.
