(* The labels of marked edges and faces. *)
From Coq Require Import String Reals QArith Qreals List Lia Lra Bool Arith ZArith Permutation Sorted.
From Verif Require Import Base BaseFacts Expr ExprProof ShapesData Kind MeshModel GraphModel MeshQuerySpec TopoModel TopoSpec TopoMaps TopoProof TopoFeat3 TopoFeat6 TopoFinal
  ShapesModel ShapesSpec ShapesProof ShapesShared GeomModel GeomProof PadModel PadSpec PadProof PadProof2 PadProof3 PadProof4 GaussSpec SearchProof
  NormalModel NormalSpec NormalProof NormalProof2 NormalProof3 NormalProof4 NormalProof5 TriSurfModel DrawModel DrawSpec DrawProof DrawMeshModel DrawMeshSpec
  DrawMeshProof DrawMeshProof2 DrawMeshProof3 DrawMeshProof4.
Import ListNotations.
Local Open Scope list_scope.
Local Open Scope R_scope.

Lemma has_edge_sort (m : mesh R) p q ce : has_edge m (fst (sort2 (p, q))) (snd (sort2 (p, q))) ce <-> has_edge m p q ce.
Proof.
  unfold sort2. cbn [fst snd]. destruct (Nat.ltb_spec q p); [|reflexivity]. cbn [fst snd].
  split; intros (a & b & E & S2); exists a, b; (split; [exact E|]); unfold same_pair in *; lia.
Qed.
Lemma sort2_le p q : (fst (sort2 (p, q)) <= snd (sort2 (p, q)))%nat.
Proof. unfold sort2. cbn [fst snd]. destruct (Nat.ltb_spec q p); cbn [fst snd]; lia. Qed.
Lemma wanted_ext ea (P Q : nat * nat -> Prop) : (forall x, P x <-> Q x) -> wanted ea P -> wanted ea Q.
Proof.
  intros H. unfold wanted. destruct ea.
  - intros (x & Hx). exists x. now apply H.
  - intros (x & Hx & U). exists x. split; [now apply H|]. intros y Hy. apply U. now apply H.
Qed.
Lemma first_ext (P Q : nat * nat -> Prop) x : (forall x, P x <-> Q x) -> first_with P x -> first_with Q x.
Proof. intros H (A & B). split; [now apply H|]. intros y Hy. apply B. now apply H. Qed.
Lemma half_way_tip n x y z s u : List.length x = n -> List.length y = n -> (forall i, (i < n)%nat -> nth i z 0 = nth i x 0 + s * nth i u 0) ->
  (forall i, (i < n)%nat -> nth i y 0 = nth i x 0 + 1 / 2 * s * nth i u 0) -> half_way (x, z) y.
Proof. intros Lx Ly Z Y. split; cbn [fst snd]; [congruence|]. intros i Hi. rewrite Ly in Hi. rewrite Z, Y by auto. field. Qed.

Section Features.
Variables (shuffle : emap -> emap).
Hypothesis Sh : forall l, Permutation (shuffle l) l.

Lemma edge_labels_plane big mult tol m ea ft : consistent m -> coords_complete m -> ndim m = 2%nat -> 0 < tol -> features_new Rleb shuffle m ea = Ok ft ->
  exists sel ll d, edge_markers big mult tol m ft = Ok (map fst ll, map snd ll) /\
    (forall me, sel me = true <-> wanted ea (has_edge m (snd (fst me)) (snd me))) /\
    Forall2 (edge_label m (mult * d) tol) (filter sel (marked_edges m)) ll /\
    (ll <> [] -> diagonal m (fun p => In p (ft_points ft)) d).
Proof.
  intros C K D T F. destruct (arrow_diagonal shuffle Sh big mult m ea ft C K (or_introl D) F) as (d & Ed & Hd).
  destruct (edges_2d Rleb shuffle Sh m ea ft C D F) as (_ & _ & Wt & _).
  set (sel := fun me : Z * nat * nat => match mget ekey_eqb (ft_edges ft) (sort2 (snd (fst me), snd me)) with Some _ => true | None => false end).
  assert (Hsel : forall me, sel me = true <-> wanted ea (has_edge m (snd (fst me)) (snd me))).
  { intros [[mk p] q]. cbn [fst snd]. unfold sel. cbn [fst snd]. specialize (Wt (fst (sort2 (p, q))) (snd (sort2 (p, q)))).
    rewrite <- surjective_pairing in Wt || idtac.
    split.
    - intros H. destruct (mget ekey_eqb (ft_edges ft) (sort2 (p, q))) as [ed|] eqn:E; [|discriminate].
      apply (wanted_ext ea (has_edge m (fst (sort2 (p, q))) (snd (sort2 (p, q))))); [intros; apply has_edge_sort|].
      apply Wt. exists ed. apply get_edge_iff. now rewrite <- surjective_pairing.
    - intros H. destruct Wt as (_ & Wt). destruct Wt as (ed & G).
      { split; [apply sort2_le|]. apply (wanted_ext ea (has_edge m p q)); auto. intros; symmetry; apply has_edge_sort. }
      apply get_edge_iff in G. rewrite <- surjective_pairing in G. now rewrite G. }
  unfold edge_markers. rewrite D in *. cbn [Nat.eqb]. rewrite Ed. set (s := mult * d).
  match goal with |- context [foldM ?st0 ?l0 _] => destruct (foldM_labels st0 sel (edge_label m s tol) l0) with (st := (@nil label, @nil arrow)) as (ll & El & Fl) end.
  { intros [[mk p] q] st _. unfold sel. cbn [fst snd]. destruct (mget ekey_eqb (ft_edges ft) (sort2 (p, q))) as [ed|] eqn:E; [|reflexivity].
    assert (G : get_edge ft (fst (sort2 (p, q))) (snd (sort2 (p, q))) = Ok ed) by (apply get_edge_iff; now rewrite <- surjective_pairing).
    destruct (edge_data Rleb shuffle Sh m ea ft C K D F _ _ ed G) as (ce & pd & Hf & Ep & Sp & Sd & D1 & _ & H).
    destruct (side_at m (e_kind ed) (e_points ed) [0; 0] [0] K (or_introl D) Sd) as (sd & mag & un & qq & x & Pd & Ele & N & En & L & Lu & X & U).
    { now rewrite D1. }
    { rewrite D1. intros j Hj. destruct j as [|j]; [reflexivity|lia]. }
    rewrite En. cbn [bind fst snd]. rewrite D in *. rewrite (get_ok _ 0 0) by lia. cbn [bind]. rewrite (get_ok _ 1 0) by lia. cbn [bind].
    destruct (tip_ok 2 (1 / 2 * s) x un (or_introl eq_refl) L Lu) as (y & Ey & Ly & Y). destruct (tip_ok 2 s x un (or_introl eq_refl) L Lu) as (z & Ez & Lz & Z).
    rewrite Ey. cbn [bind]. rewrite shown_ok by auto. cbn [bind]. rewrite Ez. cbn [bind].
    eexists (mkLabel y (text_angle tol (nth 0 un 0) (nth 1 un 0)) mk None, (x, z)). split; [reflexivity|].
    exists ce. cbn [fst snd lb_number lb_paren lb_pos lb_angle]. destruct (H sd 0 Pd) as (Xp & O). split; [eapply first_ext; [|exact Hf]; intros; apply has_edge_sort|]. split.
    { exists pd, un. split; auto. split; [|eapply O; eauto]. unfold arrow_at. rewrite Sp. cbn [fst snd]. do 3 (split; [assumption|]).
      intros i Hi. rewrite <- Xp, Z, X by auto. auto. }
    do 2 (split; [reflexivity|]). split; [eapply half_way_tip; eauto|].
    destruct (angle_along tol (nth 0 un 0) (nth 1 un 0) T) as (A1 & A2). unfold along. cbn [fst snd]. split; auto. rewrite !Z by lia.
    set (al := text_angle tol (nth 0 un 0) (nth 1 un 0)) in *.
    replace ((nth 1 x 0 + s * nth 1 un 0 - nth 1 x 0) * cos (al * PI / 180) - (nth 0 x 0 + s * nth 0 un 0 - nth 0 x 0) * sin (al * PI / 180))
      with ((nth 1 un 0 * cos (al * PI / 180) - nth 0 un 0 * sin (al * PI / 180)) * s) by ring.
    rewrite Rabs_mult. apply Rmult_le_compat_r; [apply Rabs_pos|exact A2]. }
  exists sel, ll, d. split; [exact El|]. split; auto. split; auto. intros Ne.
  destruct (filter sel (marked_edges m)) as [|me l] eqn:Ef; [inversion Fl; subst; congruence|].
  assert (Hm : In me (filter sel (marked_edges m))) by (rewrite Ef; now left). apply filter_In in Hm as (_ & Hm). unfold sel in Hm.
  destruct (mget ekey_eqb (ft_edges ft) (sort2 (snd (fst me), snd me))) as [ed|] eqn:E; [|discriminate].
  assert (G : get_edge ft (fst (sort2 (snd (fst me), snd me))) (snd (sort2 (snd (fst me), snd me))) = Ok ed) by (apply get_edge_iff; now rewrite <- surjective_pairing).
  destruct (edge_data Rleb shuffle Sh m ea ft C K D F _ _ ed G) as (_ & _ & _ & _ & _ & Sd & _).
  destruct (sound_point _ _ _ Sd) as (p & Hp). apply (Hd p).
  destruct (points_and_limits Rleb shuffle Sh m ea ft Rleb_total C (or_introl D) F) as (_ & U & _). apply U. left. eauto.
Qed.

Lemma coord_total m p i : coords_complete m -> (p < List.length (points m))%nat -> (i < ndim m)%nat -> exists a, coord_is m p i a /\ coord m p i = Ok a.
Proof.
  intros K Hp Hi. destruct (nth_error (points m) p) as [pt|] eqn:E; [|apply nth_error_None in E; lia]. pose proof (K pt (nth_error_In _ _ E)) as L.
  destruct (nth_error (pt_coords pt) i) as [a|] eqn:E2; [|apply nth_error_None in E2; lia].
  exists a. split; [exists pt; auto|]. unfold coord, get. rewrite E. cbn [bind]. now rewrite E2.
Qed.

Lemma edge_labels_space big mult tol m (ft : @features R) : coords_complete m -> ndim m = 3%nat ->
  (forall mk p q, In (mk, p, q) (marked_edges m) -> (p < List.length (points m))%nat /\ (q < List.length (points m))%nat) ->
  exists ls, edge_markers big mult tol m ft = Ok (ls, []) /\ Forall2 (mid_label m) (marked_edges m) ls.
Proof.
  intros K D Rg. unfold edge_markers. rewrite D. cbn [Nat.eqb]. cbv zeta.
  assert (G : forall l acc, (forall mk p q, In (mk, p, q) l -> (p < List.length (points m))%nat /\ (q < List.length (points m))%nat) ->
    exists ls, foldM (fun (st : list label * list arrow) (me : Z * nat * nat) => let '(marker, p1, p2) := me in
      let! x := mapM (fun i => let! a := coord m p1 i in let! b := coord m p2 i in Ok (1 / 2 * (a + b))) (seq 0 3) in
      let! y := shown 3 x in Ok (fst st ++ [mkLabel y 0 marker None], snd st)) l (acc, []) = Ok (acc ++ ls, []) /\ Forall2 (mid_label m) l ls).
  { induction l as [|[[mk p] q] l IH]; intros acc R; [exists []; cbn [foldM]; rewrite app_nil_r; auto|]. cbn [foldM].
    destruct (R mk p q (or_introl eq_refl)) as (Hp & Hq).
    assert (Gi : forall i, (i < 3)%nat -> exists v, (let! a := coord m p i in let! b := coord m q i in Ok (1 / 2 * (a + b))) = Ok v /\
      exists a b, coord_is m p i a /\ coord_is m q i b /\ v = (a + b) / 2).
    { intros i Hi. destruct (coord_total m p i K Hp ltac:(lia)) as (a & Ha & Ea), (coord_total m q i K Hq ltac:(lia)) as (b & Hb & Eb).
      rewrite Ea, Eb. cbn [bind]. eexists. split; [reflexivity|]. exists a, b. do 2 (split; [assumption|]). field. }
    destruct (Gi 0%nat) as (v0 & E0 & H0); [lia|]. destruct (Gi 1%nat) as (v1 & E1 & H1); [lia|]. destruct (Gi 2%nat) as (v2 & E2 & H2); [lia|].
    cbn [seq mapM]. rewrite E0. cbn [bind]. rewrite E1. cbn [bind]. rewrite E2. cbn [bind shown Nat.eqb get nth_error fst snd].
    destruct (IH (acc ++ [mkLabel [v0; v1; v2] 0 mk None])) as (ls & El & Fl); [intros; apply (R mk0); now right|].
    exists (mkLabel [v0; v1; v2] 0 mk None :: ls). split; [rewrite <- app_assoc in El; exact El|]. constructor; auto.
    unfold mid_label. cbn [fst snd lb_number lb_paren lb_pos lb_angle]. do 3 (split; [reflexivity|]). split; [reflexivity|].
    intros i Hi. destruct i as [|[|[|i]]]; [exact H0|exact H1|exact H2|lia]. }
  destruct (G (marked_edges m) []) as (ls & El & Fl); [exact Rg|]. exists ls. split; auto.
Qed.

Lemma face_labels big mult m ea ft : consistent m -> coords_complete m -> ndim m = 3%nat -> features_new Rleb shuffle m ea = Ok ft ->
  exists sel ll d, face_markers big mult m ft = Ok (map fst ll, map snd ll) /\
    (forall mf, sel mf = true <-> wanted ea (has_face4 m (marked_face_points mf))) /\
    Forall2 (face_label m (mult * d)) (filter sel (marked_faces m)) ll /\
    (ll <> [] -> diagonal m (fun p => In p (ft_points ft)) d).
Proof.
  intros C K D F. destruct (arrow_diagonal shuffle Sh big mult m ea ft C K (or_intror D) F) as (d & Ed & Hd).
  destruct (faces_3d Rleb shuffle m ea ft C D F) as (_ & Wt & _).
  set (sel := fun mf : Z * nat * nat * nat * option nat => match mget fkey_eqb (ft_faces ft) (sort4 (marked_face_points mf)) with Some _ => true | None => false end).
  assert (Hsel : forall mf, sel mf = true <-> wanted ea (has_face4 m (marked_face_points mf))).
  { intros mf. unfold sel. rewrite <- Wt. split.
    - destruct (mget fkey_eqb (ft_faces ft) (sort4 (marked_face_points mf))) as [fc|] eqn:E; [|discriminate]. intros _. exists fc. now apply get_face_iff.
    - intros (fc & G). apply get_face_iff in G. now rewrite G. }
  unfold face_markers. rewrite D in *. cbn [Nat.eqb]. rewrite Ed. set (s := mult * d).
  match goal with |- context [foldM ?st0 ?l0 _] => destruct (foldM_labels st0 sel (face_label m s) l0) with (st := (@nil label, @nil arrow)) as (ll & El & Fl) end.
  { intros [[[[mk p1] p2] p3] p4] st _. unfold sel. cbn [marked_face_points fst snd].
    set (ps := [p1; p2; p3] ++ match p4 with Some p => [p] | None => [] end).
    destruct (mget fkey_eqb (ft_faces ft) (sort4 ps)) as [fc|] eqn:E; [|reflexivity]. apply get_face_iff in E.
    destruct (face_data Rleb shuffle m ea ft C K D F ps fc E) as (cf & pd & Hf & Ep & Sp & Sd & Ek & _ & H).
    pose proof (proj1 (face_kind_dim _ _ Ek)) as D2.
    destruct (side_at m (f_kind fc) (f_points fc) (face_middle (f_kind fc)) [fst (middle (f_kind fc)); snd (middle (f_kind fc))] K (or_intror D) Sd)
      as (sd & mag & un & qq & x & Pd & Ele & N & En & L & Lu & X & U).
    { now rewrite D2. }
    { rewrite D2. apply middle_nth. }
    rewrite En. cbn [bind fst snd]. rewrite D in *.
    destruct (tip_ok 3 (1 / 2 * s) x un (or_intror eq_refl) L Lu) as (y & Ey & Ly & Y). destruct (tip_ok 3 s x un (or_intror eq_refl) L Lu) as (z & Ez & Lz & Z).
    rewrite Ey. cbn [bind]. rewrite shown_ok by auto. cbn [bind]. rewrite Ez. cbn [bind].
    eexists (mkLabel y 0 mk None, (x, z)). split; [reflexivity|].
    exists cf. cbn [fst snd lb_number lb_paren lb_pos lb_angle]. destruct (H sd (fst (middle (f_kind fc))) (snd (middle (f_kind fc))) Pd) as (Xp & O). split; [exact Hf|]. split.
    { exists pd, (f_kind fc), un. split; auto. split; auto. split; [|eapply O; eauto]. unfold arrow_at. rewrite Sp. cbn [fst snd]. do 3 (split; [assumption|]).
      intros i Hi. rewrite <- Xp, Z, X by auto. auto. }
    do 3 (split; [reflexivity|]). eapply half_way_tip; eauto. }
  exists sel, ll, d. split; [exact El|]. split; auto. split; auto. intros Ne.
  destruct (filter sel (marked_faces m)) as [|mf l] eqn:Ef; [inversion Fl; subst; congruence|].
  assert (Hm : In mf (filter sel (marked_faces m))) by (rewrite Ef; now left). apply filter_In in Hm as (_ & Hm). unfold sel in Hm.
  destruct (mget fkey_eqb (ft_faces ft) (sort4 (marked_face_points mf))) as [fc|] eqn:E; [|discriminate]. apply get_face_iff in E.
  destruct (face_data Rleb shuffle m ea ft C K D F _ fc E) as (_ & _ & _ & _ & _ & Sd & _).
  destruct (sound_point _ _ _ Sd) as (p & Hp). apply (Hd p).
  destruct (points_and_limits Rleb shuffle Sh m ea ft Rleb_total C (or_intror D) F) as (_ & U & _). apply U. right. left. eauto.
Qed.
End Features.
