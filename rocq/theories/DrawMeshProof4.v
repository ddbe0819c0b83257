(* The length of the arrows; the labels of marked edges and faces. *)
From Coq Require Import String Reals QArith Qreals List Lia Lra Bool Arith ZArith Permutation Sorted.
From Verif Require Import Base BaseFacts Expr ExprProof ShapesData Kind MeshModel GraphModel MeshQuerySpec TopoModel TopoSpec TopoMaps TopoProof TopoFeat3 TopoFeat6 TopoFinal
  ShapesModel ShapesSpec ShapesProof ShapesShared GeomModel GeomProof PadModel PadSpec PadProof PadProof2 PadProof3 PadProof4 GaussSpec SearchProof
  NormalModel NormalSpec NormalProof NormalProof2 NormalProof3 NormalProof4 NormalProof5 TriSurfModel DrawModel DrawSpec DrawProof DrawMeshModel DrawMeshSpec DrawMeshProof DrawMeshProof2 DrawMeshProof3.
Import ListNotations.
Local Open Scope list_scope.
Local Open Scope R_scope.

Lemma foldM_labels {A B C} (step : list B * list C -> A -> res (list B * list C)) (sel : A -> bool) (P : A -> B * C -> Prop) l :
  (forall x st, In x l -> if sel x then exists b, step st x = Ok (fst st ++ [fst b], snd st ++ [snd b]) /\ P x b else step st x = Ok st) ->
  forall st, exists bs, foldM step l st = Ok (fst st ++ map fst bs, snd st ++ map snd bs) /\ Forall2 P (filter sel l) bs.
Proof.
  induction l as [|x l IH]; intros H st; cbn [foldM filter]; [exists []; cbn [map]; rewrite !app_nil_r; destruct st; auto|].
  pose proof (H x st (or_introl eq_refl)) as Hx. destruct (sel x).
  - destruct Hx as (b & E & Pb). rewrite E. cbn [bind].
    destruct (IH (fun y a Hy => H y a (or_intror Hy)) (fst st ++ [fst b], snd st ++ [snd b])) as (bs & Eb & F).
    exists (b :: bs). cbn [fst snd] in Eb. rewrite Eb, <- !app_assoc. auto.
  - rewrite Hx. cbn [bind]. apply IH. intros y a Hy. apply H. now right.
Qed.

Lemma Rabs_sq x : Rabs x * Rabs x = x ^ 2.
Proof. rewrite <- Rabs_mult, Rabs_right; [ring|]. apply Rle_ge, Rle_0_sqr. Qed.
Lemma fold_sum (g : nat -> R) l : forall a, fold_left (fun s i => s + g i) l a = a + sum (map g l).
Proof. induction l as [|i l IH]; intros a; cbn [fold_left map sum]; [ring|]. rewrite IH. ring. Qed.

Lemma angle_along tol u0 u1 : 0 < tol -> -90 <= text_angle tol u0 u1 <= 90 /\
  Rabs (u1 * cos (text_angle tol u0 u1 * PI / 180) - u0 * sin (text_angle tol u0 u1 * PI / 180)) <= tol.
Proof.
  intros T. unfold text_angle, Rltb. pose proof PI_RGT_0 as Pp. destruct (Rlt_dec (Rabs u1) tol) as [H1|H1].
  - split; [lra|]. replace (0 * PI / 180) with 0 by field. rewrite cos_0, sin_0. replace (u1 * 1 - u0 * 0) with u1 by ring. lra.
  - destruct (Rlt_dec (Rabs u0) tol) as [H0|H0].
    + split; [lra|]. replace (90 * PI / 180) with (PI / 2) by field. rewrite cos_PI2, sin_PI2. replace (u1 * 0 - u0 * 1) with (- u0) by ring. rewrite Rabs_Ropp. lra.
    + assert (N0 : u0 <> 0) by (intros ->; rewrite Rabs_R0 in H0; lra). pose proof (atan_bound (u1 / u0)) as B. set (t := atan (u1 / u0)) in *. split.
      * assert (A : t * 180 / PI * PI = t * 180) by (field; lra). split; apply Rmult_le_reg_r with PI; auto; rewrite A; nra.
      * replace (t * 180 / PI * PI / 180) with t by (field; lra).
        assert (C : 0 < cos t) by (apply cos_gt_0; lra).
        assert (E : tan t = u1 / u0) by apply tan_atan. unfold tan in E.
        assert (Es : sin t = u1 / u0 * cos t) by (rewrite <- E; field; lra). rewrite Es.
        replace (u1 * cos t - u0 * (u1 / u0 * cos t)) with 0 by (field; auto). rewrite Rabs_R0. lra.
Qed.

Section Features.
Variables (shuffle : emap -> emap).
Hypothesis Sh : forall l, Permutation (shuffle l) l.

Lemma listed_range m ea ft p : consistent m -> coords_complete m -> (ndim m = 2 \/ ndim m = 3)%nat -> features_new Rleb shuffle m ea = Ok ft ->
  In p (ft_points ft) -> (p < List.length (points m))%nat.
Proof.
  intros C K Dm F Hp. destruct (points_and_limits Rleb shuffle Sh m ea ft Rleb_total C Dm F) as (_ & U & _). cbv zeta in U. apply U in Hp. clear U.
  assert (Rc : forall cl, In cl (cells m) -> In p (c_points cl) -> (p < List.length (points m))%nat).
  { intros cl Hc. apply (proj2 C _ _ (cell_by_id m cl C Hc)). }
  destruct Dm as [D|D].
  - destruct (edges_2d Rleb shuffle Sh m ea ft C D F) as (_ & NF & _).
    destruct Hp as [(a & b & ed & G & I)|[(k & fc & G & _)|(cl & (Hc & _) & I)]]; eauto.
    + destruct (edge_data Rleb shuffle Sh m ea ft C K D F a b ed G) as (_ & _ & _ & _ & _ & (_ & _ & R) & _). auto.
    + exfalso. apply get_face_iff in G. rewrite NF in G. discriminate.
  - destruct (faces_3d Rleb shuffle m ea ft C D F) as (_ & _ & Srt & _ & _ & _ & I2).
    assert (Fc : forall k fc, get_face ft k = Ok fc -> In p (f_points fc) -> (p < List.length (points m))%nat).
    { intros k fc G I. pose proof (Srt k fc G) as Sk. rewrite <- (sort4_sorted k Sk) in G.
      destruct (face_data Rleb shuffle m ea ft C K D F k fc G) as (_ & _ & _ & _ & _ & (_ & _ & R) & _). auto. }
    destruct Hp as [(a & b & ed & G & I)|[(k & fc & G & I)|(cl & (Hc & _) & I)]]; eauto.
    destruct (I2 a b ed G) as (_ & k & fc & e & p0 & q0 & G' & _ & _ & (_ & SN)). apply (Fc k fc); auto.
    apply (in_map Some) in I. rewrite <- SN in I. apply in_map_iff in I. destruct I as (i & Ei & _). eapply nth_error_In. exact Ei.
Qed.

Lemma arrow_diagonal big mult m ea ft : consistent m -> coords_complete m -> (ndim m = 2 \/ ndim m = 3)%nat -> features_new Rleb shuffle m ea = Ok ft ->
  exists d, arrow_length big mult (ndim m) (ft_limits ft) = mult * d /\ forall p, In p (ft_points ft) -> diagonal m (fun p => In p (ft_points ft)) d.
Proof.
  intros C K Dm F. exists (sqrt (fold_left (fun s i => s + Rabs (extent big (ft_limits ft) i) * Rabs (extent big (ft_limits ft) i)) (seq 0 (ndim m)) 0)).
  split; [unfold arrow_length; ring|]. intros p Hp. pose proof (listed_range m ea ft p C K Dm F Hp) as Hl.
  destruct (points_and_limits Rleb shuffle Sh m ea ft Rleb_total C Dm F) as (_ & U & _ & _ & L). cbv zeta in U, L.
  assert (Ex : forall j, (j < ndim m)%nat -> exists x, coord_is m p j x).
  { intros j Hj. destruct (nth_error (points m) p) as [pt|] eqn:E; [|apply nth_error_None in E; lia].
    destruct (nth_error (pt_coords pt) j) as [x|] eqn:E2; [exists x, pt; auto|].
    apply nth_error_None in E2. pose proof (K pt (nth_error_In _ _ E)). lia. }
  assert (Xs : forall j, (j < ndim m)%nat -> exists a b, nth j (fst (ft_limits ft)) None = Some a /\ nth j (snd (ft_limits ft)) None = Some b /\
    ((exists p, In p (ft_points ft) /\ coord_is m p j a) /\ forall x, (exists p, In p (ft_points ft) /\ coord_is m p j x) -> a <= x) /\
    ((exists p, In p (ft_points ft) /\ coord_is m p j b) /\ forall x, (exists p, In p (ft_points ft) /\ coord_is m p j x) -> x <= b)).
  { intros j Hj. destruct (Ex j Hj) as (x & Hx). destruct (L j Hj) as (A & B). apply U in Hp.
    destruct (nth j (fst (ft_limits ft)) None) as [a|]; [|exfalso; apply (A x); eauto].
    destruct (nth j (snd (ft_limits ft)) None) as [b|]; [|exfalso; apply (B x); eauto].
    exists a, b. split; auto. split; auto. destruct A as ((pa & A1 & A1') & A2), B as ((pb & B1 & B1') & B2). split; split.
    - exists pa. split; auto. now apply U.
    - intros y (q & Hq & Hy). specialize (A2 y (ex_intro _ q (conj (proj1 (U q) Hq) Hy))). unfold Rleb in A2. destruct (Rle_dec a y); [auto|discriminate].
    - exists pb. split; auto. now apply U.
    - intros y (q & Hq & Hy). specialize (B2 y (ex_intro _ q (conj (proj1 (U q) Hq) Hy))). unfold Rleb in B2. destruct (Rle_dec y b); [auto|discriminate]. }
  exists (fun j => match nth j (fst (ft_limits ft)) None with Some a => a | None => 0 end), (fun j => match nth j (snd (ft_limits ft)) None with Some a => a | None => 0 end).
  split.
  - intros j Hj. cbv zeta. destruct (Xs j Hj) as (a & b & -> & -> & A & B). auto.
  - f_equal. rewrite fold_sum, Rplus_0_l. apply sum_n_ext. intros j Hj. destruct (Xs j Hj) as (a & b & Ea & Eb & _). unfold extent. rewrite Ea, Eb. apply Rabs_sq.
Qed.

Lemma nnode_pos k : (0 < kind_nnode k)%nat.
Proof. destruct k; vm_compute; lia. Qed.
Lemma sound_point m kd ps : sound_side m kd ps -> exists p, In p ps.
Proof. intros (_ & L & _). pose proof (nnode_pos kd). destruct ps as [|p ps]; [cbn in L; lia|]. exists p. now left. Qed.

Lemma normals_plane sh2 sh3 big mult m ea ft : (forall l, Permutation (sh2 l) l) -> consistent m -> coords_complete m -> ndim m = 2%nat ->
  features_new Rleb shuffle m ea = Ok ft ->
  exists arrows own d, normal_vectors sh2 sh3 big mult m ft = Ok arrows /\ NoDup own /\
    (forall ce, In ce own <-> exists a b, forall y, has_edge m a b y <-> y = ce) /\ Forall2 (edge_arrow m (mult * d)) own arrows /\
    (arrows <> [] -> diagonal m (fun p => In p (ft_points ft)) d).
Proof.
  intros Sh2 C K D F. destruct (normals_2d Rleb shuffle Sh sh2 sh3 big mult m ea ft Sh2 C K D F) as (arrows & own & E & N & O & A).
  destruct (arrow_diagonal big mult m ea ft C K (or_introl D) F) as (d & Ed & Hd). rewrite D in Ed. rewrite Ed in A.
  exists arrows, own, d. do 4 (split; [assumption|]). intros Ne. destruct own as [|ce own]; [inversion A; subst; congruence|].
  destruct (proj1 (O ce) (or_introl eq_refl)) as (a & b & Ub).
  destruct (edges_2d Rleb shuffle Sh m ea ft C D F) as (_ & _ & Wt & _).
  assert (G : exists a' b' ed, get_edge ft a' b' = Ok ed).
  { assert (H : exists a' b', (a' <= b')%nat /\ forall y, has_edge m a' b' y <-> y = ce).
    { destruct (le_lt_dec a b) as [L|L]; [exists a, b; auto|]. exists b, a. split; [lia|]. intros y. rewrite <- Ub.
      split; intros (p & q & E1 & S2); exists p, q; (split; [exact E1|]); unfold same_pair in *; lia. }
    destruct H as (a' & b' & L & Ub'). exists a', b'. apply Wt. split; auto. assert (has_edge m a' b' ce) by now apply Ub'. unfold wanted. destruct ea; [eauto|].
    exists ce. split; auto. intros y Hy. symmetry. now apply Ub'. }
  destruct G as (a' & b' & ed & G). destruct (edge_data Rleb shuffle Sh m ea ft C K D F a' b' ed G) as (_ & _ & _ & _ & _ & Sd & _).
  destruct (sound_point _ _ _ Sd) as (p & Hp). apply (Hd p).
  destruct (points_and_limits Rleb shuffle Sh m ea ft Rleb_total C (or_introl D) F) as (_ & U & _). apply U. left. eauto.
Qed.

Lemma normals_space sh2 sh3 big mult m ea ft : (forall l, Permutation (sh3 l) l) -> consistent m -> coords_complete m -> ndim m = 3%nat ->
  features_new Rleb shuffle m ea = Ok ft ->
  exists af ash own d, normal_vectors sh2 sh3 big mult m ft = Ok (af ++ ash) /\ NoDup own /\
    (forall cf, In cf own <-> exists ps, forall y, has_face4 m ps y <-> y = cf) /\ Forall2 (face_arrow m (mult * d)) own af /\
    Forall2 (fun cl ar => shell_arrow m (mult * d) (c_id cl) ar) (filter (fun cl => (kind_ndim (c_kind cl) =? 2)%nat) (cells m)) ash /\
    (af ++ ash <> [] -> diagonal m (fun p => In p (ft_points ft)) d).
Proof.
  intros Sh3 C K D F. destruct (normals_3d Rleb shuffle sh2 sh3 big mult m ea ft Sh3 C K D F) as (af & ash & own & E & N & O & A & B).
  destruct (arrow_diagonal big mult m ea ft C K (or_intror D) F) as (d & Ed & Hd). rewrite D in Ed. rewrite Ed in A, B.
  exists af, ash, own, d. do 5 (split; [assumption|]). intros Ne.
  destruct (points_and_limits Rleb shuffle Sh m ea ft Rleb_total C (or_intror D) F) as (_ & U & _).
  destruct own as [|cf own].
  - inversion A; subst. cbn [app] in Ne. destruct (filter (fun cl => (kind_ndim (c_kind cl) =? 2)%nat) (cells m)) as [|cl l] eqn:Ef; [inversion B; subst; congruence|].
    assert (H : In cl (filter (fun cl => (kind_ndim (c_kind cl) =? 2)%nat) (cells m))) by (rewrite Ef; now left). apply filter_In in H as (H & H2). apply Nat.eqb_eq in H2.
    destruct (proj2 C _ _ (cell_by_id m cl C H)) as (_ & L & _). pose proof (nnode_pos (c_kind cl)). destruct (c_points cl) as [|p ps] eqn:Ep; [cbn in L; lia|].
    apply (Hd p). apply U. right. right. exists cl. split; [split; auto|]. rewrite Ep. now left.
  - destruct (proj1 (O cf) (or_introl eq_refl)) as (ps & Ub).
    destruct (faces_3d Rleb shuffle m ea ft C D F) as (_ & Wt & _).
    assert (G : exists fc, get_face ft (sort4 ps) = Ok fc).
    { apply Wt. assert (has_face4 m ps cf) by now apply Ub. unfold wanted. destruct ea; [eauto|]. exists cf. split; auto. intros y Hy. symmetry. now apply Ub. }
    destruct G as (fc & G). destruct (face_data Rleb shuffle m ea ft C K D F ps fc G) as (_ & _ & _ & _ & _ & Sd & _).
    destruct (sound_point _ _ _ Sd) as (p & Hp). apply (Hd p). apply U. right. left. eauto.
Qed.
End Features.
