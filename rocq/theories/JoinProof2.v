(* Proofs: the result of joining meshes *)
From Coq Require Import String List Arith Bool ZArith Reals Lra Lia Permutation Sorted.
From Verif Require Import Base BaseFacts Kind MeshModel MeshQuerySpec TopoModel TopoSpec TopoMaps TopoProof TopoFeat2 TopoFeat3 TopoFeat4 TopoFeat6 TopoFinal
  GeomModel GeomSpec GeomProof GridModel GridSpec GridProof PropGrid SearchModel SearchSpec SearchProof SearchProof2 JoinModel JoinSpec JoinProof.
Import ListNotations.
Open Scope nat_scope.

Lemma nth_error_app_l {A} (l l' : list A) i x : nth_error l i = Some x -> nth_error (l ++ l') i = Some x.
Proof. intros E. rewrite nth_error_app1; [exact E|]. apply nth_error_Some. congruence. Qed.
Lemma nth_error_lt {A} (l : list A) i x : nth_error l i = Some x -> i < List.length l.
Proof. intros E. apply nth_error_Some. congruence. Qed.

Lemma euclid_refl x : euclid x x = 0%R.
Proof. unfold euclid. assert (E : sqdist x x = 0%R) by (induction x as [|u x IH]; cbn; [reflexivity|rewrite IH; ring]). rewrite E. apply sqrt_0. Qed.
Lemma sort4_is_sorted ps : StronglySorted le (sort4 ps).
Proof.
  unfold sort4. eapply sorted_weaken; [|apply isort_sorted].
  - intros x y E. cbv beta in E. apply Nat.leb_le. exact E.
  - intros x y. rewrite !Nat.leb_le. lia.
  - intros x y z. rewrite !Nat.leb_le. lia.
Qed.

Section Points.
Variable sh : container -> container.
Variable g : grid.
Notation dec := (decide sh g).

Lemma join_points l : forall pts ids pts' ids', foldM (join_point sh g) l (pts, ids) = Ok (pts', ids') ->
  exists news js, pts' = pts ++ news /\ ids' = ids ++ js /\ List.length js = List.length l /\
    (forall i p, nth_error l i = Some p -> exists j, nth_error js i = Some j /\
       (dec (pt_coords p) = Ok (Some j) \/ (dec (pt_coords p) = Ok None /\ List.length pts <= j /\ nth_error pts' j = Some (mkPoint j (pt_marker p) (pt_coords p))))) /\
    (forall i i' p p' j, i < i' -> nth_error l i = Some p -> nth_error l i' = Some p' -> dec (pt_coords p) = Ok None -> dec (pt_coords p') = Ok None ->
       nth_error js i = Some j -> exists j', nth_error js i' = Some j' /\ j < j') /\
    (forall j, List.length pts <= j < List.length pts' -> exists i, nth_error js i = Some j).
Proof.
  induction l as [|p t IH]; intros pts ids pts' ids' H.
  - cbn in H. injection H as <- <-. exists [], []. rewrite !app_nil_r. split; [auto|]. split; [auto|]. split; [auto|].
    split; [intros [|i] p E; discriminate|]. split; [intros [|i] i' p p' j _ E; discriminate|]. intros j Hj. lia.
  - cbn [foldM] in H. apply bind_ok in H as ([pts1 ids1] & S & H). unfold join_point in S. cbn [fst snd] in S.
    apply bind_ok in S as (out & O & S). apply bind_ok in S as (found & Fd & S).
    assert (DE : dec (pt_coords p) = Ok found) by (unfold decide; rewrite O; cbn [bind]; exact Fd).
    destruct (IH _ _ _ _ H) as (news & js & P1 & P2 & P3 & P4 & P5 & P6). destruct found as [id|]; injection S as <- <-.
    + exists news, (id :: js). split; [exact P1|]. split; [rewrite P2, <- app_assoc; reflexivity|]. split; [cbn; lia|]. split; [|split].
      * intros [|i] q E; cbn in E; [injection E as <-; exists id; split; [reflexivity|left; exact DE]|]. apply P4, E.
      * intros [|i] [|i'] q q' j L E E' D1 D2 J; try lia; cbn in E; [injection E as <-; congruence|]. cbn in E', J |- *. apply (P5 i i' q q' j); auto. lia.
      * intros j Hj. destruct (P6 j Hj) as (i & E). exists (S i). exact E.
    + rewrite app_length in P4, P6. cbn [List.length] in P4, P6.
      exists (mkPoint (List.length pts) (pt_marker p) (pt_coords p) :: news), (List.length pts :: js).
      split; [rewrite P1, <- app_assoc; reflexivity|]. split; [rewrite P2, <- app_assoc; reflexivity|]. split; [cbn; lia|].
      assert (HD : nth_error pts' (List.length pts) = Some (mkPoint (List.length pts) (pt_marker p) (pt_coords p))).
      { rewrite P1, <- app_assoc. rewrite nth_error_app2, Nat.sub_diag by lia. reflexivity. }
      split; [|split].
      * intros [|i] q E; cbn in E; [injection E as <-; exists (List.length pts); split; [reflexivity|right; auto]|].
        destruct (P4 i q E) as (j & J & [D|(D & Lj & N)]); exists j; (split; [exact J|]); [left; exact D|right]. split; [exact D|]. split; [lia|exact N].
      * intros [|i] [|i'] q q' j L E E' D1 D2 J; try lia; cbn in E, E', J |- *.
        -- injection J as <-. destruct (P4 i' q' E') as (j' & J' & [D|(D & Lj & N)]); [congruence|]. exists j'. split; [exact J'|lia].
        -- apply (P5 i i' q q' j); auto. lia.
      * intros j Hj. destruct (Nat.eq_dec j (List.length pts)) as [->|Ne]; [exists 0; reflexivity|]. destruct (P6 j) as (i & E); [lia|]. exists (S i). exact E.
Qed.

Lemma join_points_total l : (forall p, In p l -> exists r, dec (pt_coords p) = Ok r) -> forall st, exists st', foldM (join_point sh g) l st = Ok st'.
Proof.
  induction l as [|p t IH]; intros T st; cbn [foldM]; [eauto|]. destruct (T p (or_introl eq_refl)) as (r & D). unfold decide in D. unfold join_point at 1.
  apply bind_ok in D as (out & O & D). rewrite O. cbn [bind]. rewrite D. cbn [bind]. destruct r; cbn [bind]; apply IH; intros q Hq; apply T; right; exact Hq.
Qed.
End Points.

Lemma join_cells ids l : forall cs cs', foldM (join_cell ids) l cs = Ok cs' ->
  exists news, cs' = cs ++ news /\ List.length news = List.length l /\
    forall i c, nth_error l i = Some c -> nth_error news i = Some (mkCell (List.length cs + i) (c_marker c) (c_kind c) (map (fun p => nth p ids 0) (c_points c))) /\
      forall p, In p (c_points c) -> p < List.length ids.
Proof.
  induction l as [|c t IH]; intros cs cs' H.
  - cbn in H. injection H as <-. exists []. rewrite app_nil_r. split; [auto|]. split; [auto|]. intros [|i] c E; discriminate.
  - cbn [foldM] in H. apply bind_ok in H as (cs1 & S & H). unfold join_cell in S. apply bind_ok in S as (ps & P & S). injection S as <-.
    destruct (IH _ _ H) as (news & E1 & E2 & E3). rewrite app_length in E3. cbn [List.length] in E3.
    assert (PP : ps = map (fun p => nth p ids 0) (c_points c) /\ forall p, In p (c_points c) -> p < List.length ids).
    { clear - P. apply mapM_ok in P. induction P as [|x y l r E P IH]; [split; [reflexivity|intros p []]|]. destruct IH as (-> & IH). apply get_inv in E as (L & E). split.
      - cbn [map]. f_equal. symmetry. apply nth_error_nth. exact E.
      - intros p [<-|Hp]; auto. }
    exists (mkCell (List.length cs) (c_marker c) (c_kind c) ps :: news). split; [rewrite E1, <- app_assoc; reflexivity|]. split; [cbn; lia|].
    intros [|i] c' E; cbn in E.
    + injection E as <-. rewrite Nat.add_0_r. destruct PP as (-> & PP). split; [reflexivity|exact PP].
    + destruct (E3 i c' E) as (F1 & F2). split; [|exact F2]. cbn [nth_error]. rewrite F1. do 2 f_equal. lia.
Qed.
Lemma join_cells_total ids l : (forall c p, In c l -> In p (c_points c) -> p < List.length ids) -> forall cs, exists cs', foldM (join_cell ids) l cs = Ok cs'.
Proof.
  induction l as [|c t IH]; intros T cs; cbn [foldM]; [eauto|]. unfold join_cell at 1.
  rewrite (mapM_total _ (fun p => nth p ids 0)) by (intros p Hp; apply get_ok; apply (T c p); [left; reflexivity|exact Hp]). cbn [bind]. apply IH. intros c' p Hc. apply (T c' p). right. exact Hc.
Qed.

(* markers *)
Definition bek (ids : list nat) (q : Z * nat * nat) : res ekey := let! q1 := get ids (snd (fst q)) in let! q2 := get ids (snd q) in Ok (sort2 (q1, q2)).
Definition bfk (ids : list nat) (q : Z * nat * nat * nat * option nat) : res fkey :=
  let '(mk, p1, p2, p3, p4) := q in
  let! q1 := get ids p1 in let! q2 := get ids p2 in let! q3 := get ids p3 in let! p4 := unwrap p4 in let! q4 := get ids p4 in Ok (sort4 [q1; q2; q3; q4]).
Lemma medge_form ids mm q : join_medge ids mm q = put_all ekey_eqb (bek ids) emk mm q.
Proof. destruct q as [[mk p1] p2]. unfold join_medge, put_all, bek. cbn [fst snd]. destruct (get ids p1); cbn; try reflexivity. destruct (get ids p2); reflexivity. Qed.
Lemma mface_form ids mm q : join_mface ids mm q = put_all fkey_eqb (bfk ids) fmk mm q.
Proof.
  destruct q as [[[[mk p1] p2] p3] p4]. unfold join_mface, put_all, bfk. destruct (get ids p1); cbn; try reflexivity. destruct (get ids p2); cbn; try reflexivity.
  destruct (get ids p3); cbn; try reflexivity. destruct p4 as [p4|]; cbn; try reflexivity. destruct (get ids p4); reflexivity.
Qed.

Lemma sort_out {K V} (leb : K -> K -> bool) (KT : forall a b, leb a b = true \/ leb b a = true)
  (KTr : forall a b c, leb a b = true -> leb b c = true -> leb a c = true) (KA : forall a b, leb a b = true -> leb b a = true -> a = b) (l : list (K * V)) :
  NoDup (map fst l) -> StronglySorted (fun x y => leb (fst y) (fst x) = false) (isort (fun x y => leb (fst x) (fst y)) l).
Proof.
  intros ND. pose proof (isort_perm (fun x y : K * V => leb (fst x) (fst y)) l) as P.
  assert (S : StronglySorted (fun x y => leb (fst x) (fst y) = true) (isort (fun x y => leb (fst x) (fst y)) l)).
  { apply isort_sorted; [intros; apply KT|intros ? ? ? X Y; eapply KTr; eauto]. }
  assert (ND' : NoDup (map fst (isort (fun x y => leb (fst x) (fst y)) l))) by (eapply Permutation_NoDup; [apply Permutation_map, Permutation_sym, P|exact ND]).
  clear P. induction S as [|x t S IH F]; constructor.
  - apply IH. cbn in ND'. inversion ND'; assumption.
  - cbn in ND'. inversion ND' as [|? ? N1 N2]; subst. rewrite Forall_forall in F |- *. intros y Hy. destruct (leb (fst y) (fst x)) eqn:E; [|reflexivity]. exfalso. apply N1.
    rewrite (KA _ _ (F y Hy) E). apply in_map. exact Hy.
Qed.
Lemma sorted_map {A B} (R : B -> B -> Prop) (h : A -> B) l : StronglySorted (fun x y => R (h x) (h y)) l -> StronglySorted R (map h l).
Proof. induction 1 as [|x t S IH F]; cbn; constructor; auto. rewrite Forall_forall in *. intros y Hy. apply in_map_iff in Hy as (z & <- & Hz). auto. Qed.

Lemma sorted_in {A} (R S : A -> A -> Prop) l : (forall x y, In x l -> In y l -> R x y -> S x y) -> StronglySorted R l -> StronglySorted S l.
Proof.
  induction l as [|x t IH]; intros H St; [constructor|]. inversion St as [|? ? S1 F]; subst. constructor.
  - apply IH; [|exact S1]. intros y z Hy Hz. apply H; right; assumption.
  - rewrite Forall_forall in *. intros y Hy. apply H; [left; reflexivity|right; exact Hy|auto].
Qed.
Lemma fkey_lex k : forall k', fkey_leb k' k = false -> lex_list k k'.
Proof.
  induction k as [|x s IH]; intros [|y t] E; cbn in E; try discriminate; [constructor|]. apply orb_false_iff in E as (E1 & E2). apply Nat.ltb_ge in E1.
  destruct (Nat.eq_dec y x) as [->|N]; [rewrite Nat.eqb_refl in E2; cbn in E2; apply lex_tail, IH, E2|apply lex_head; lia].
Qed.

Section Join.
Variable shp : list nat -> list nat.
Hypothesis shpP : forall l, Permutation (shp l) l.
Variable shuffle : emap -> emap.
Hypothesis shuffled : forall l, Permutation (shuffle l) l.
Variable sh : container -> container.
Hypothesis shP : forall c, Permutation (sh c) c.

Lemma join_two_inv a b m : join_two_meshes shp shuffle sh a b = Ok m ->
  ndim a = ndim b /\ exists g pts ids cs me mf, join_grid shp shuffle a = Ok g /\ foldM (join_point sh g) (points b) (points a, []) = Ok (pts, ids) /\
    foldM (join_cell ids) (cells b) (cells a) = Ok cs /\ foldM (join_medge ids) (marked_edges b) (marked_edges_map a) = Ok me /\
    foldM (join_mface ids) (marked_faces b) (marked_faces_map a) = Ok mf /\
    m = mkMesh (ndim a) pts cs (map out_edge (isort (fun x y => ekey_leb (fst x) (fst y)) me)) (map out_face (isort (fun x y => fkey_leb (fst x) (fst y)) mf)).
Proof.
  unfold join_two_meshes. destruct (ndim a =? ndim b) eqn:E; [|discriminate]. apply Nat.eqb_eq in E. cbn [negb]. intros H. split; [exact E|].
  apply bind_ok in H as (g & G & H). apply bind_ok in H as ([pts ids] & P & H). cbv beta iota in H. apply bind_ok in H as (cs & C & H).
  apply bind_ok in H as (me & ME & H). apply bind_ok in H as (mf & MF & H). injection H as <-. exists g, pts, ids, cs, me, mf. auto 10.
Qed.

Definition joined (a b m : mesh R) (f : nat -> nat) : Prop :=
  ndim m = ndim a /\ keeps_points a m /\ List.length (points a) <= List.length (points m) /\
  placed (tolR (ndim a)) b m f /\
  (forall ft, features_new Rleb shuffle a false = Ok ft -> merged (tolR (ndim a)) (/ 10000) (enclosed a ft) a b m f) /\
  (forall j, List.length (points a) <= j < List.length (points m) -> exists p, p < List.length (points b) /\ f p = j) /\
  (forall p q, p < q < List.length (points b) -> List.length (points a) <= f p -> List.length (points a) <= f q -> f p < f q) /\
  (forall i c, nth_error (cells a) i = Some c -> nth_error (cells m) i = Some c) /\
  List.length (cells m) = List.length (cells a) + List.length (cells b) /\
  carries_cells (List.length (cells a)) b m f.

Lemma joined_spec a b m : valid a -> consistent b -> coords_complete b -> join_two_meshes shp shuffle sh a b = Ok m ->
  valid m /\ exists f, joined a b m f /\
    (StronglySorted lex (map (fun q => (snd (fst q), snd q)) (marked_edges m)) /\
     forall mk x y, In (mk, x, y) (marked_edges m) <-> x <= y /\ exists q, last_first (edge_at x y) (marked_edges a) (map (move_edge f) (marked_edges b)) q /\ fst (fst q) = mk) /\
    (StronglySorted lex_list (map marked_face_points (marked_faces m)) /\
     forall q', In q' (marked_faces m) <-> StronglySorted le (marked_face_points q') /\ exists q, last_first (face_at (marked_face_points q')) (marked_faces a) (map (move_face f) (marked_faces b)) q /\ fmk q = fmk q').
Proof.
  intros V Cb CCb H. pose proof V as (Ca & CCa & D). apply join_two_inv in H as (En & g & pts & ids & cs & me & mf & G & P & Cs & ME & MF & ->).
  destruct (join_points sh g _ _ _ _ _ P) as (news & js & P1 & P2 & P3 & P4 & P5 & P6). cbn [app] in P2. subst ids.
  assert (DS : forall p, In p (points b) -> exists r, decide sh g (pt_coords p) = Ok r /\
    (forall id, r = Some id -> exists q, nth_error (points a) id = Some q /\ (euclid (pt_coords q) (pt_coords p) <= tolR (ndim a))%R) /\
    (r = None -> forall ft, features_new Rleb shuffle a false = Ok ft -> forall i q, nth_error (points a) i = Some q -> enclosed a ft (pt_coords q) -> ~ close (/ 10000) (pt_coords q) (pt_coords p))).
  { intros p Hp. apply (decide_spec shp shuffle shuffled sh shP a g (pt_coords p) V G). rewrite (CCb p Hp). auto. }
  set (f := fun p => nth p js 0).
  assert (PF : forall i p, nth_error (points b) i = Some p -> nth_error js i = Some (f i) /\
    ((exists q, f i < List.length (points a) /\ nth_error (points a) (f i) = Some q /\ (euclid (pt_coords q) (pt_coords p) <= tolR (ndim a))%R) \/
     (decide sh g (pt_coords p) = Ok None /\ List.length (points a) <= f i /\ nth_error pts (f i) = Some (mkPoint (f i) (pt_marker p) (pt_coords p)) /\
      forall ft, features_new Rleb shuffle a false = Ok ft -> forall i q, nth_error (points a) i = Some q -> enclosed a ft (pt_coords q) -> ~ close (/ 10000) (pt_coords q) (pt_coords p)))).
  { intros i p E. destruct (P4 i p E) as (j & J & Hj). assert (Fj : f i = j) by (unfold f; apply nth_error_nth; exact J). rewrite Fj. split; [exact J|].
    destruct (DS p (nth_error_In _ _ E)) as (r & Er & R1 & R2). destruct Hj as [Dj|(Dj & Lj & Nj)].
    - left. rewrite Er in Dj. injection Dj as ->. destruct (R1 j eq_refl) as (q & Nq & Dq). exists q. split; [eapply nth_error_lt; eauto|auto].
    - right. split; [exact Dj|]. split; [exact Lj|]. split; [exact Nj|]. rewrite Er in Dj. injection Dj as ->. exact (R2 eq_refl). }
  assert (KP : forall p pt, nth_error (points a) p = Some pt -> nth_error pts p = Some pt) by (intros p pt E; rewrite P1; apply nth_error_app_l; exact E).
  assert (LJ : List.length js = List.length (points b)) by exact P3.
  assert (FB : forall p, p < List.length (points b) -> f p < List.length pts).
  { intros p Hp. destruct (nth_error (points b) p) as [pt|] eqn:E; [|apply nth_error_None in E; lia]. destruct (PF p pt E) as (_ & [(q & L & _)|(_ & _ & N & _)]); [rewrite P1, app_length; lia|eapply nth_error_lt; eauto]. }
  assert (NEWP : forall j pt, nth_error pts j = Some pt -> List.length (points a) <= j -> exists p q, nth_error (points b) p = Some q /\ f p = j /\ pt = mkPoint j (pt_marker q) (pt_coords q)).
  { intros j pt E L. destruct (P6 j) as (i & J); [split; [exact L|eapply nth_error_lt; eauto]|]. pose proof (nth_error_lt _ _ _ J) as Li. rewrite LJ in Li.
    destruct (nth_error (points b) i) as [q|] eqn:Eq; [|apply nth_error_None in Eq; lia]. destruct (PF i q Eq) as (Fi & Hq). assert (Fj : f i = j) by congruence.
    exists i, q. split; [exact Eq|]. split; [exact Fj|]. rewrite Fj in Hq. destruct Hq as [(q' & L' & _)|(_ & _ & N & _)]; [lia|congruence]. }
  destruct (join_cells _ _ _ _ Cs) as (cnew & C1 & C2 & C3).
  assert (PM : forall i c, nth_error cs i = Some c -> c_id c = i /\ List.length (c_points c) = kind_nnode (c_kind c) /\ forall q, In q (c_points c) -> q < List.length pts).
  { intros i c E. rewrite C1 in E. destruct (lt_dec i (List.length (cells a))) as [Li|Li].
    - rewrite nth_error_app1 in E by exact Li. destruct (proj2 Ca i c E) as (A1 & A2 & A3). split; [exact A1|]. split; [exact A2|]. intros q Hq. rewrite P1, app_length. specialize (A3 q Hq). lia.
    - rewrite nth_error_app2 in E by lia. pose proof (nth_error_lt _ _ _ E) as Lc. rewrite C2 in Lc.
      destruct (nth_error (cells b) (i - List.length (cells a))) as [c0|] eqn:E0; [|apply nth_error_None in E0; lia]. destruct (C3 _ _ E0) as (N0 & B0). rewrite N0 in E. injection E as <-.
      cbn [c_id c_points c_kind]. split; [lia|]. split; [rewrite map_length; apply (proj2 Cb _ _ E0)|]. intros q Hq. apply in_map_iff in Hq as (p & <- & Hp). apply FB. rewrite <- LJ. apply B0. exact Hp. }
  split.
  { split; [split|split].
    - cbn [points]. intros i p E. destruct (lt_dec i (List.length (points a))) as [Li|Li].
      + rewrite P1, nth_error_app1 in E by exact Li. apply (proj1 Ca). exact E.
      + destruct (NEWP i p E ltac:(lia)) as (p' & q & _ & _ & ->). reflexivity.
    - cbn [cells points]. exact PM.
    - intros p Hp. cbn [points ndim] in *. apply In_nth_error in Hp as (i & E). destruct (lt_dec i (List.length (points a))) as [Li|Li].
      + rewrite P1, nth_error_app1 in E by exact Li. apply CCa. eapply nth_error_In; eauto.
      + destruct (NEWP i p E ltac:(lia)) as (p' & q & Nq & _ & ->). cbn [pt_coords]. rewrite En. apply CCb. eapply nth_error_In; eauto.
    - exact D. }
  exists f. split; [|split].
  - unfold joined. cbn [ndim points cells]. split; [reflexivity|]. split; [exact KP|]. split; [rewrite P1, app_length; lia|]. split; [|split; [|split; [|split; [|split; [|split]]]]].
    + intros p pt E. cbn [points]. pose proof (CCb pt (nth_error_In _ _ E)) as LB. destruct (PF p pt E) as (_ & [(q & L & Nq & Dq)|(_ & _ & N & _)]).
      * exists q. split; [apply KP; exact Nq|]. split; [|exact Dq]. rewrite (CCa q (nth_error_In _ _ Nq)). congruence.
      * eexists. split; [exact N|]. cbn [pt_coords]. split; [reflexivity|]. rewrite euclid_refl. unfold tolR. apply Rmult_le_pos; [apply sqrt_pos|lra].
    + intros ft F p pt E. destruct (PF p pt E) as (_ & [(q & L & Nq & Dq)|(Dp & L & N & Far)]); [left; eauto|right]. split; [exact L|]. split; [exact N|]. split; [exact (Far ft F)|].
      intros p' Lp' Ff. destruct (nth_error (points b) p') as [pt'|] eqn:E'; [|apply nth_error_None in E'; lia]. destruct (PF p pt E) as (J & _).
      destruct (PF p' pt' E') as (J' & [(q & L' & _)|(Dp' & _)]); [lia|]. destruct (lt_eq_lt_dec p p') as [[X|X]|X]; [|auto|].
      * destruct (P5 p p' pt pt' (f p) X E E' Dp Dp' J) as (j' & Y & Z). rewrite J' in Y. injection Y as <-. lia.
      * destruct (P5 p' p pt' pt (f p') X E' E Dp' Dp J') as (j' & Y & Z). rewrite J in Y. injection Y as <-. lia.
    + intros j Hj. destruct (nth_error pts j) as [pt|] eqn:E; [|apply nth_error_None in E; lia]. destruct (NEWP j pt E ltac:(lia)) as (p & q & Nq & Fp & _). exists p. split; [eapply nth_error_lt; eauto|exact Fp].
    + intros p q Hpq Lp Lq. destruct (nth_error (points b) p) as [pt|] eqn:E; [|apply nth_error_None in E; lia]. destruct (nth_error (points b) q) as [qt|] eqn:E'; [|apply nth_error_None in E'; lia].
      destruct (PF p pt E) as (J & [(x & X & _)|(Dp & _)]); [lia|]. destruct (PF q qt E') as (J' & [(x & X & _)|(Dq & _)]); [lia|].
      destruct (P5 p q pt qt (f p) ltac:(lia) E E' Dp Dq J) as (j' & Y & Z). rewrite J' in Y. injection Y as <-. lia.
    + intros i c E. rewrite C1. apply nth_error_app_l. exact E.
    + rewrite C1, app_length, C2. reflexivity.
    + intros i c E. cbn [cells]. destruct (C3 i c E) as (N & _). eexists. split; [rewrite C1, nth_error_app2 by lia; rewrite Nat.add_comm, Nat.add_sub; exact N|]. cbn [c_kind c_marker c_points]. auto.
  - cbn [marked_edges]. rewrite (foldM_ext _ (put_all ekey_eqb (bek js) emk)) in ME by (intros; apply medge_form). rewrite emap_form in ME.
    destruct (last_first_spec ekey_eqb ekey_eqb_eq ek emk (bek js) (move_edge f) (marked_edges a) (marked_edges b) me) as (ND & S); [| |exact ME|].
    { intros [[mk p1] p2] k _ E. unfold bek in E. cbn [fst snd] in E. apply bind_ok in E as (q1 & E1 & E). apply bind_ok in E as (q2 & E2 & E). injection E as <-.
      apply get_inv in E1 as (_ & E1). apply get_inv in E2 as (_ & E2). unfold ek, move_edge, f. cbn [fst snd]. rewrite (nth_error_nth _ _ 0 E1), (nth_error_nth _ _ 0 E2). reflexivity. }
    { intros [[mk p1] p2]. reflexivity. }
    split.
    + rewrite map_map. cbn [out_edge fst snd]. apply sorted_map. eapply sorted_weaken; [|apply (sort_out ekey_leb ekey_leb_total ekey_leb_trans ekey_leb_anti me ND)].
      intros [[x1 x2] v] [[y1 y2] w] E. cbn [fst snd] in *. unfold lex. cbn [fst snd]. apply not_true_iff_false in E. rewrite ekey_leb_iff in E. cbn [fst snd] in E. lia.
    + intros mk x y. rewrite in_map_iff. split.
      * intros ([k v] & E & I). destruct k as [k1 k2]. unfold out_edge in E. cbn [fst snd] in E. injection E as -> -> ->. apply perm_in in I. apply S in I as (q & (K & LF) & M).
        assert (L : x <= y). { unfold ek, sort2 in K. cbn [fst snd] in K. destruct (snd q <? snd (fst q)) eqn:E; [apply Nat.ltb_lt in E|apply Nat.ltb_ge in E]; injection K as <- <-; lia. }
        split; [exact L|]. exists q. split; [|exact M]. revert L LF. unfold last_first. 
        intros L LF. assert (Z : forall q, ek q = (x, y) <-> edge_at x y q) by (intros q'; apply sort2_iff; exact L). split; [apply Z; exact K|].
        destruct LF as [(u & w & E & N)|(N & u & w & E & N')]; [left|right].
        -- exists u, w. split; [exact E|]. intros q' Hq X. apply (N q' Hq). apply Z. exact X.
        -- split; [intros q' Hq X; apply (N q' Hq); apply Z; exact X|]. exists u, w. split; [exact E|]. intros q' Hq X. apply (N' q' Hq). apply Z. exact X.
      * intros (L & q & (K & LF) & M). assert (Z : forall q, ek q = (x, y) <-> edge_at x y q) by (intros q'; apply sort2_iff; exact L).
        exists ((x, y), mk). split; [reflexivity|]. apply perm_in. apply S. exists q. split; [|exact M]. split; [apply Z; exact K|].
        destruct LF as [(u & w & E & N)|(N & u & w & E & N')]; [left|right].
        -- exists u, w. split; [exact E|]. intros q' Hq X. apply (N q' Hq). apply Z. exact X.
        -- split; [intros q' Hq X; apply (N q' Hq); apply Z; exact X|]. exists u, w. split; [exact E|]. intros q' Hq X. apply (N' q' Hq). apply Z. exact X.
  - cbn [marked_faces]. rewrite (foldM_ext _ (put_all fkey_eqb (bfk js) fmk)) in MF by (intros; apply mface_form). rewrite fmap_form in MF.
    destruct (last_first_spec fkey_eqb fkey_eqb_eq fk fmk (bfk js) (move_face f) (marked_faces a) (marked_faces b) mf) as (ND & S); [| |exact MF|].
    { intros [[[[mk p1] p2] p3] p4] k _ E. unfold bfk in E. apply bind_ok in E as (q1 & E1 & E). apply bind_ok in E as (q2 & E2 & E). apply bind_ok in E as (q3 & E3 & E).
      apply bind_ok in E as (p4' & E4' & E). destruct p4 as [p4|]; [|discriminate]. injection E4' as <-. apply bind_ok in E as (q4 & E4 & E). injection E as <-.
      apply get_inv in E1 as (_ & E1). apply get_inv in E2 as (_ & E2). apply get_inv in E3 as (_ & E3). apply get_inv in E4 as (_ & E4).
      unfold fk, move_face, f. cbn [marked_face_points option_map app]. rewrite (nth_error_nth _ _ 0 E1), (nth_error_nth _ _ 0 E2), (nth_error_nth _ _ 0 E3), (nth_error_nth _ _ 0 E4). reflexivity. }
    { intros [[[[mk p1] p2] p3] p4]. reflexivity. }
    (* keys have three or four sorted entries *)
    assert (KL : forall k v, In (k, v) mf -> StronglySorted le k /\ marked_face_points (out_face (k, v)) = k).
    { intros k v I. apply S in I as (q & (K & _) & _). unfold fk in K. subst k. split; [apply sort4_is_sorted|].
      assert (L : List.length (sort4 (marked_face_points q)) = 3 \/ List.length (sort4 (marked_face_points q)) = 4).
      { unfold sort4. rewrite isort_length. destruct q as [[[[mk p1] p2] p3] [p4|]]; cbn; auto. }
      unfold out_face. cbn [fst snd]. destruct (sort4 (marked_face_points q)) as [|x0 [|x1 [|x2 [|x3 [|x4 t]]]]]; cbn in L; try lia; reflexivity. }
    split.
    + rewrite map_map. apply sorted_map. eapply sorted_in; [|apply (sort_out fkey_leb fkey_leb_total fkey_leb_trans fkey_leb_anti mf ND)].
      intros [k v] [k' v'] I I' E. apply perm_in in I. apply perm_in in I'. destruct (KL k v I) as (_ & ->). destruct (KL k' v' I') as (_ & ->). apply fkey_lex. exact E.
    + intros q'. rewrite in_map_iff. split.
      * intros ([k v] & E & I). apply perm_in in I. destruct (KL k v I) as (SK & MK). rewrite E in MK. split; [rewrite MK; exact SK|]. apply S in I as (q & (K & LF) & M).
        exists q. split; [|rewrite M, <- E; reflexivity]. rewrite MK. assert (Z : forall q, fk q = k <-> face_at k q).
        { intros q0. unfold face_at, fk. rewrite <- (sort4_sorted k SK) at 1. split; [intros X; apply Permutation_sym; apply sort4_perm; exact X|intros X; apply sort4_perm; apply Permutation_sym; exact X]. }
        split; [apply Z; exact K|]. destruct LF as [(u & w & E' & N)|(N & u & w & E' & N')]; [left|right].
        -- exists u, w. split; [exact E'|]. intros q0 Hq X. apply (N q0 Hq). apply Z. exact X.
        -- split; [intros q0 Hq X; apply (N q0 Hq); apply Z; exact X|]. exists u, w. split; [exact E'|]. intros q0 Hq X. apply (N' q0 Hq). apply Z. exact X.
      * intros (SK & q & (K & LF) & M). set (k := marked_face_points q') in *. assert (Z : forall q, fk q = k <-> face_at k q).
        { intros q0. unfold face_at, fk. rewrite <- (sort4_sorted k SK) at 1. split; [intros X; apply Permutation_sym; apply sort4_perm; exact X|intros X; apply sort4_perm; apply Permutation_sym; exact X]. }
        exists (k, fmk q'). split; [unfold k, out_face; cbn [fst snd]; destruct q' as [[[[mk p1] p2] p3] [p4|]]; reflexivity|]. apply perm_in. apply S. exists q. split; [|exact M].
        split; [apply Z; exact K|]. destruct LF as [(u & w & E' & N)|(N & u & w & E' & N')]; [left|right].
        -- exists u, w. split; [exact E'|]. intros q0 Hq X. apply (N q0 Hq). apply Z. exact X.
        -- split; [intros q0 Hq X; apply (N q0 Hq); apply Z; exact X|]. exists u, w. split; [exact E'|]. intros q0 Hq X. apply (N' q0 Hq). apply Z. exact X.
Qed.

(* when it succeeds *)
Definition markers_ok (b : mesh R) : Prop :=
  (forall mk p q, In (mk, p, q) (marked_edges b) -> p < List.length (points b) /\ q < List.length (points b)) /\
  (forall mk p q r s, In (mk, p, q, r, s) (marked_faces b) -> p < List.length (points b) /\ q < List.length (points b) /\ r < List.length (points b) /\ exists s', s = Some s' /\ s' < List.length (points b)).

Lemma join_upto a b ft : valid a -> consistent b -> coords_complete b -> ndim a = ndim b -> features_new Rleb shuffle a false = Ok ft ->
  (forall j, j < ndim a -> exists p q x y, In p (ft_points ft) /\ In q (ft_points ft) /\ coord_is a p j x /\ coord_is a q j y /\ x <> y) ->
  (forall pt, In pt (points a) -> enclosed a ft (pt_coords pt)) ->
  exists g pts ids cs, join_grid shp shuffle a = Ok g /\ foldM (join_point sh g) (points b) (points a, []) = Ok (pts, ids) /\ List.length ids = List.length (points b) /\
    foldM (join_cell ids) (cells b) (cells a) = Ok cs.
Proof.
  intros V Cb CCb En F W Enc. destruct (join_grid_total shp shpP shuffle shuffled a ft V F W Enc) as (g & G).
  destruct (join_points_total sh g (points b)) with (st := (points a, @nil nat)) as ([pts ids] & P).
  { intros p Hp. destruct (decide_spec shp shuffle shuffled sh shP a g (pt_coords p) V G) as (r & Er & _); [rewrite (CCb p Hp); auto|eauto]. }
  destruct (join_points sh g _ _ _ _ _ P) as (news & js & _ & E & L & _). cbn in E. subst ids.
  destruct (join_cells_total js (cells b)) with (cs := cells a) as (cs & C).
  { intros c p Hc Hp. rewrite L. apply In_nth_error in Hc as (n & Hc). apply (proj2 Cb n c Hc). exact Hp. }
  exists g, pts, js, cs. auto.
Qed.
Lemma join_total a b ft : valid a -> consistent b -> coords_complete b -> ndim a = ndim b -> features_new Rleb shuffle a false = Ok ft ->
  (forall j, j < ndim a -> exists p q x y, In p (ft_points ft) /\ In q (ft_points ft) /\ coord_is a p j x /\ coord_is a q j y /\ x <> y) ->
  (forall pt, In pt (points a) -> enclosed a ft (pt_coords pt)) -> markers_ok b -> exists m, join_two_meshes shp shuffle sh a b = Ok m.
Proof.
  intros V Cb CCb En F W Enc (M1 & M2). destruct (join_upto a b ft V Cb CCb En F W Enc) as (g & pts & ids & cs & G & P & L & C).
  unfold join_two_meshes. rewrite (proj2 (Nat.eqb_eq _ _) En). cbn [negb]. rewrite G. cbn [bind]. rewrite P. cbn [bind]. rewrite C. cbn [bind].
  destruct (put_all_total ekey_eqb (bek ids) emk (marked_edges b)) with (mm := marked_edges_map a) as (me & ME).
  { intros [[mk p] q] I. destruct (M1 mk p q I) as (A & B). unfold bek. cbn [fst snd]. rewrite (get_ok ids p 0), (get_ok ids q 0) by lia. cbn. eauto. }
  rewrite (foldM_ext _ (put_all ekey_eqb (bek ids) emk)) by (intros; apply medge_form). rewrite ME. cbn [bind].
  destruct (put_all_total fkey_eqb (bfk ids) fmk (marked_faces b)) with (mm := marked_faces_map a) as (mf & MF).
  { intros [[[[mk p] q] r] s] I. destruct (M2 mk p q r s I) as (A & B & C' & s' & -> & D). unfold bfk. rewrite (get_ok ids p 0), (get_ok ids q 0), (get_ok ids r 0) by lia. cbn [bind unwrap].
    rewrite (get_ok ids s' 0) by lia. cbn [bind]. eauto. }
  rewrite (foldM_ext _ (put_all fkey_eqb (bfk ids) fmk)) by (intros; apply mface_form). rewrite MF. cbn [bind]. eauto.
Qed.
Lemma join_triangular a b m mk p q r : In (mk, p, q, r, None) (marked_faces b) -> join_two_meshes shp shuffle sh a b <> Ok m.
Proof.
  intros I H. apply join_two_inv in H as (_ & g & pts & ids & cs & me & mf & _ & _ & _ & _ & MF & _).
  rewrite (foldM_ext _ (put_all fkey_eqb (bfk ids) fmk)) in MF by (intros; apply mface_form). revert MF I. generalize (marked_faces b), (marked_faces_map a). clear.
  induction l as [|q0 t IH]; intros mm MF I; [destruct I|]. cbn [foldM] in MF. apply bind_ok in MF as (mm1 & E & MF). destruct I as [->|I]; [|exact (IH mm1 MF I)].
  unfold put_all in E. apply bind_ok in E as (k & E & _). unfold bfk in E. apply bind_ok in E as (q1 & _ & E). apply bind_ok in E as (q2 & _ & E). apply bind_ok in E as (q3 & _ & E). discriminate.
Qed.

(* several meshes *)
Definition carried (nd k : nat) (mi m : mesh R) (f : nat -> nat) : Prop := placed (tolR nd) mi m f /\ carries_cells k mi m f.
Lemma carried_step nd k mi m a b f g : joined a b m g -> carried nd k mi a f -> carried nd k mi m f.
Proof.
  intros (_ & KP & _ & _ & _ & _ & _ & KC & _) (A & B). split.
  - intros p pt E. destruct (A p pt E) as (pt' & N & L & D). exists pt'. split; [apply KP; exact N|auto].
  - intros i c E. destruct (B i c E) as (c' & N & R). exists c'. split; [apply KC; exact N|exact R].
Qed.
Lemma cells_before_app ms m k : k <= List.length ms -> cells_before (ms ++ [m]) k = cells_before ms k.
Proof. intros L. unfold cells_before. rewrite firstn_app. replace (k - List.length ms) with 0 by lia. rewrite firstn_O, app_nil_r. reflexivity. Qed.
Lemma cells_before_all ms m : cells_before (ms ++ [m]) (S (List.length ms)) = cells_before ms (List.length ms) + List.length (cells m).
Proof.
  unfold cells_before. rewrite firstn_all2 by (rewrite app_length; cbn; lia). rewrite firstn_all2 by lia. rewrite map_app. cbn [map].
  induction ms as [|x t IH]; cbn; [lia|]. rewrite IH. lia.
Qed.
Definition all_carried (nd : nat) (done : list (mesh R)) (m : mesh R) : Prop :=
  ndim m = nd /\ valid m /\ List.length (cells m) = cells_before done (List.length done) /\
  (forall m0, hd_error done = Some m0 -> keeps_points m0 m /\ forall i c, nth_error (cells m0) i = Some c -> nth_error (cells m) i = Some c) /\
  forall k mk, nth_error done k = Some mk -> exists f, carried nd (cells_before done k) mk m f.
Lemma carried_one m : valid m -> all_carried (ndim m) [m] m.
Proof.
  intros V. split; [reflexivity|]. split; [exact V|]. split; [unfold cells_before; cbn; lia|]. split; [intros m0 E; injection E as <-; split; [intros p pt E; exact E|auto]|].
  intros [|k] mk E; cbn in E; [injection E as <-|destruct k; discriminate]. exists (fun p => p). split.
  - intros p pt E. exists pt. split; [exact E|]. split; [reflexivity|]. rewrite euclid_refl. unfold tolR. apply Rmult_le_pos; [apply sqrt_pos|lra].
  - intros i c E. exists c. cbn. split; [exact E|]. rewrite map_id. auto.
Qed.
Lemma all_carried_step nd done a b m : done <> [] -> all_carried nd done a -> consistent b -> coords_complete b -> join_two_meshes shp shuffle sh a b = Ok m -> all_carried nd (done ++ [b]) m.
Proof.
  intros NE (N & V & L & K0 & K) Cb CCb H. destruct (joined_spec a b m V Cb CCb H) as (Vm & f & J & _). pose proof J as (J1 & J2 & J3 & J4 & J5 & J6 & J7 & J8 & J9 & J10).
  split; [congruence|]. split; [exact Vm|]. split; [rewrite app_length; cbn [List.length]; rewrite Nat.add_1_r, cells_before_all, J9; lia|]. split.
  - intros m0 E. destruct done as [|x t]; [congruence|]. cbn in E. destruct (K0 m0) as (A & B); [exact E|]. split; [intros p pt Ep; apply J2, A, Ep|intros i c Ec; apply J8, B, Ec].
  - intros k mk E. destruct (lt_dec k (List.length done)) as [Lk|Lk].
    + rewrite nth_error_app1 in E by exact Lk. destruct (K k mk E) as (fk & C). exists fk. rewrite cells_before_app by lia. eapply carried_step; eauto.
    + rewrite nth_error_app2 in E by lia. destruct (k - List.length done) as [|z] eqn:Ez; cbn in E; [injection E as <-|destruct z; discriminate]. replace k with (List.length done) by lia.
      exists f. rewrite cells_before_app by lia. split; [rewrite <- N; exact J4|]. rewrite <- L. exact J10.
Qed.
Lemma join_rest nd rest : forall done a m, done <> [] -> all_carried nd done a -> Forall (fun b => consistent b /\ coords_complete b) rest ->
  foldM (join_two_meshes shp shuffle sh) rest a = Ok m -> all_carried nd (done ++ rest) m.
Proof.
  induction rest as [|b t IH]; intros done a m NE A Fr H; cbn [foldM] in H; [injection H as <-; rewrite app_nil_r; exact A|].
  apply bind_ok in H as (a1 & H1 & H). inversion Fr as [|? ? (Cb & CCb) Ft]; subst. replace (done ++ b :: t) with ((done ++ [b]) ++ t) by (rewrite <- app_assoc; reflexivity).
  apply (IH _ a1); auto; [destruct done; discriminate|]. eapply all_carried_step; eauto.
Qed.
Lemma join_meshes_spec m0 ms m : valid m0 -> Forall (fun b => consistent b /\ coords_complete b) ms -> join_meshes shp shuffle sh (m0 :: ms) = Ok m -> all_carried (ndim m0) (m0 :: ms) m.
Proof.
  intros V Fm H. destruct ms as [|b rest]; [discriminate|]. unfold join_meshes in H.
  apply (join_rest (ndim m0) (b :: rest) [m0] m0 m); [discriminate|apply carried_one; exact V|exact Fm|]. cbn [foldM]. exact H.
Qed.
Lemma join_rest_ndim rest : forall a m, foldM (join_two_meshes shp shuffle sh) rest a = Ok m -> Forall (fun b => ndim b = ndim a) rest.
Proof.
  induction rest as [|b t IH]; intros a m H; cbn [foldM] in H; constructor; apply bind_ok in H as (a1 & H1 & H); apply join_two_inv in H1 as (En & g & pts & ids & cs & me & mf & _ & _ & _ & _ & _ & E).
  - auto.
  - specialize (IH _ _ H). rewrite E in IH. exact IH.
Qed.
End Join.
