(* The arrows of boundary faces and shells. *)
From Coq Require Import String Reals QArith Qreals List Lia Lra Bool Arith ZArith Permutation Sorted.
From Verif Require Import Base BaseFacts Expr ExprProof ShapesData Kind MeshModel GraphModel MeshQuerySpec TopoModel TopoSpec TopoMaps TopoProof TopoFeat3 TopoFeat6 TopoFinal
  ShapesModel ShapesSpec ShapesProof ShapesShared GeomModel GeomProof PadModel PadSpec PadProof PadProof2 PadProof3 PadProof4 GaussSpec
  NormalModel NormalSpec NormalProof NormalProof2 NormalProof3 NormalProof4 NormalProof5 TriSurfModel DrawModel DrawSpec DrawProof DrawMeshModel DrawMeshSpec DrawMeshProof DrawMeshProof2.
Import ListNotations.
Local Open Scope list_scope.
Local Open Scope R_scope.

Lemma middle_list kd : face_middle kd = [fst (middle kd); snd (middle kd)] ++ [nth 2 (face_middle kd) 0].
Proof. unfold face_middle, middle. destruct (kind_class kd); reflexivity. Qed.
Lemma middle_nth kd j : (j < 2)%nat -> nth j (face_middle kd) 0 = nth j [fst (middle kd); snd (middle kd)] 0.
Proof. intros H. rewrite middle_list. rewrite app_nth1; [reflexivity|exact H]. Qed.

Lemma foldM_app_all {A B} (f : A -> res B) (P : A -> B -> Prop) l : (forall x, In x l -> exists b, f x = Ok b /\ P x b) ->
  forall acc, exists bs, foldM (fun acc x => let! b := f x in Ok (acc ++ [b])) l acc = Ok (acc ++ bs) /\ Forall2 P l bs.
Proof.
  induction l as [|x l IH]; intros H acc; cbn [foldM]; [exists []; rewrite app_nil_r; auto|].
  destruct (H x (or_introl eq_refl)) as (b & E & Pb). rewrite E. cbn [bind]. destruct (IH (fun y Hy => H y (or_intror Hy)) (acc ++ [b])) as (bs & Eb & F).
  exists (b :: bs). rewrite Eb, <- app_assoc. auto.
Qed.

Section Features.
Variables (leb : R -> R -> bool) (shuffle : emap -> emap).

Lemma face_data m ea ft : consistent m -> coords_complete m -> ndim m = 3%nat ->
  features_new leb shuffle m ea = Ok ft -> forall ps fc, get_face ft (sort4 ps) = Ok fc ->
  exists cf p, first_with (has_face4 m ps) cf /\ get_pad m (fst cf) = Ok p /\ p_space p = 3%nat /\ sound_side m (f_kind fc) (f_points fc) /\
    kind_face_kind (p_kind p) = Some (f_kind fc) /\ face_marker m ps (f_marker fc) /\
    forall sd r t, pad_of_side m (f_kind fc) (f_points fc) sd ->
      (forall i, (i < 3)%nat -> pos sd [r; t] i = pos p (face_point (p_kind p) (snd cf) r t) i) /\
      forall mag un q, calc_normal_vector sd 3 [r; t] = Ok (mag, un, q) -> (0 < mag -> unit_vector 3 un) -> outward p (face_point (p_kind p) (snd cf) r t) un.
Proof.
  intros C K D F ps fc G. destruct (faces_3d leb shuffle m ea ft C D F) as (_ & Wt & _ & Dt & _).
  destruct (Dt ps fc G) as (Mk & cf & Hf & En). destruct En as (cl & Hc & Ic & Dc & Hlt & Ek & Em).
  rewrite (face_nnode_kind _ _ Ek) in Em. pose proof (proj1 (face_kind_dim _ _ Ek)) as D2.
  destruct (side_pads m cl (f_kind fc) (f_points fc) (face_node_id (c_kind cl) (snd cf)) C K (or_intror D) Hc) as (p & s & Ep & Es & Wp & Kp & Sp & Ks & Sd & _); auto; try lia.
  rewrite D in Sp. exists cf, p. split; auto. split; [congruence|]. split; auto. split.
  { split; [lia|]. destruct (map_some_nth _ _ _ Em) as (L & N). split; auto. intros q Hq. apply In_nth_error in Hq as (i & Hi).
    assert (Li : (i < kind_nnode (f_kind fc))%nat) by (rewrite <- L; apply nth_error_Some; congruence).
    specialize (N i Li). rewrite Hi in N. destruct (proj2 C _ _ (cell_by_id m cl C Hc)) as (_ & _ & Rc).
    apply Rc. eapply nth_error_In; eauto. }
  rewrite <- Kp in *. split; auto. split; auto. intros sd r t Hsd.
  assert (sd = s) by (destruct Hsd as (p0 & A & B), Es as (p0' & A' & B'); congruence). subst sd.
  split; [intros i Hi; apply face_pos; auto; [congruence|lia]|].
  intros mag un q N U j Hj. rewrite Sp.
  destruct (face_normal p s (snd cf) r t mag un q Wp Sp ltac:(congruence) Hlt Sd N j Hj) as (A & B).
  split; intros P; [destruct (A P)|destruct (B P)]; auto.
Qed.

Lemma one_face_arrow m ea ft s : consistent m -> coords_complete m -> ndim m = 3%nat ->
  features_new leb shuffle m ea = Ok ft -> forall ps fc, get_face ft (sort4 ps) = Ok fc ->
  exists cf ar, first_with (has_face4 m ps) cf /\ draw_arrow m (f_kind fc) (f_points fc) (face_middle (f_kind fc)) s = Ok ar /\ face_arrow m s cf ar.
Proof.
  intros C K D F ps fc G. destruct (face_data m ea ft C K D F ps fc G) as (cf & p & Hf & Ep & Sp & Sd & Ek & _ & H).
  pose proof (proj1 (face_kind_dim _ _ Ek)) as D2.
  destruct (draw_arrow_ok m (f_kind fc) (f_points fc) (face_middle (f_kind fc)) [fst (middle (f_kind fc)); snd (middle (f_kind fc))] s K (or_intror D) Sd)
    as (sd & mag & un & q & ar & Pd & El & N & U & E & A).
  { now rewrite D2. }
  { rewrite D2. apply middle_nth. }
  destruct (H sd (fst (middle (f_kind fc))) (snd (middle (f_kind fc))) Pd) as (X & O). rewrite D in *. exists cf, ar. split; auto. split; auto.
  exists p, (f_kind fc), un. split; auto. split; auto. cbv zeta. split.
  - destruct A as (L1 & L2 & L3 & A). pose proof El as (_ & _ & Ss & _). rewrite D in Ss. rewrite Ss in *. unfold arrow_at. rewrite Sp.
    do 3 (split; [assumption|]). intros i Hi. rewrite <- X by auto. now apply A.
  - eapply O; eauto.
Qed.

Lemma has_face4_key (m : mesh R) k k' cf : consistent m -> StronglySorted le k -> StronglySorted le k' -> has_face4 m k cf -> has_face4 m k' cf -> k = k'.
Proof.
  intros C S1 S2 (qs & (cl & Hc & Ei & _ & _ & E) & P) (qs' & (cl' & Hc' & Ei' & _ & _ & E') & P').
  assert (cl' = cl). { pose proof (cell_by_id m cl C Hc) as A. pose proof (cell_by_id m cl' C Hc') as B. rewrite Ei in A. rewrite Ei' in B. congruence. }
  subst cl'. assert (qs = qs').
  { rewrite E in E'. clear - E'. revert qs' E'. induction qs as [|x q IH]; intros [|y q'] H; try discriminate; [reflexivity|].
    cbn [map] in H. injection H as -> H. f_equal. now apply IH. }
  subst qs'. apply sorted_perm_eq; auto. now rewrite P, P'.
Qed.

Definition single_face (ft : @features R) (kf : fkey * face) : bool :=
  match mget fkey_eqb (ft_all_faces ft) (fst kf) with Some cs => (List.length cs =? 1)%nat | None => false end.

Lemma one_shell_arrow m s cl : consistent m -> coords_complete m -> ndim m = 3%nat -> In cl (cells m) -> kind_ndim (c_kind cl) = 2%nat ->
  exists ar, draw_arrow m (c_kind cl) (c_points cl) (face_middle (c_kind cl)) s = Ok ar /\ shell_arrow m s (c_id cl) ar.
Proof.
  intros C K D Hc D2. pose proof (cell_by_id m cl C Hc) as Hn. destruct (proj2 C _ _ Hn) as (_ & L & Rg).
  destruct (draw_arrow_ok m (c_kind cl) (c_points cl) (face_middle (c_kind cl)) [fst (middle (c_kind cl)); snd (middle (c_kind cl))] s K (or_intror D))
    as (sd & mag & un & q & ar & Pd & El & N & U & E & A).
  { split; [lia|]. split; auto. }
  { now rewrite D2. }
  { rewrite D2. apply middle_nth. }
  exists ar. split; auto. pose proof El as (Ws & Ks & Ss & _). cbn [c_kind] in Ks. exists sd, un. split.
  { unfold get_pad, get. rewrite Hn. cbn [bind]. destruct Pd as (p0 & -> & Ep). exact Ep. }
  cbv zeta. rewrite Ks. split; auto. rewrite D in *. intros j Hj.
  destruct (normal_3d sd 3 [fst (middle (c_kind cl)); snd (middle (c_kind cl))] mag un q Ws Ss (eq_sym (eq_trans (f_equal kind_ndim Ks) D2)) N) as (_ & _ & _ & J & Lu & M & O1 & O2 & Dt & Un & _). cbv zeta in M, O1, O2, Dt.
  assert (X : forall i, (i < 3)%nat -> ent (p_jac q) i 0 = j i 0%nat /\ ent (p_jac q) i 1 = j i 1%nat).
  { intros i Hi. split; (eapply jacobian_unique; [exact J|exact Hj|rewrite Ss; auto|rewrite Ks, D2; lia]). }
  assert (G : forall g : R -> R -> nat -> R, sum_n 3 (fun i => g (ent (p_jac q) i 0) (ent (p_jac q) i 1) i) = sum_n 3 (fun i => g (j i 0%nat) (j i 1%nat) i)).
  { intros g. apply sum_n_ext. intros i Hi. cbn beta. destruct (X i Hi) as (A1 & A2). now rewrite A1, A2. }
  split; [etransitivity; [symmetry; apply (G (fun a _ i => nth i un 0 * a))|exact O1]|]. split; [etransitivity; [symmetry; apply (G (fun _ a i => nth i un 0 * a))|exact O2]|]. intros P.
  assert (Pm : 0 < mag).
  { rewrite M. apply sqrt_lt_R0. rewrite (G (fun a _ _ => a ^ 2)), (G (fun _ a _ => a ^ 2)), (G (fun a b _ => a * b)). exact P. }
  split; [now apply U|]. unfold Rltb in Dt. destruct (Rlt_dec 0 mag); [|lra].
  rewrite (det_ext 3 _ (fun i k => match k with 0%nat => ent (p_jac q) i 0 | 1%nat => ent (p_jac q) i 1 | _ => nth i un 0 end)); [lra|].
  intros i k Hi Hk. destruct (X i Hi) as (A1 & A2). destruct k as [|[|k]]; auto.
Qed.

Lemma normals_3d sh2 sh3 big mult m ea ft : (forall l, Permutation (sh3 l) l) -> consistent m -> coords_complete m -> ndim m = 3%nat ->
  features_new leb shuffle m ea = Ok ft ->
  let s := arrow_length big mult 3 (ft_limits ft) in
  exists af ash own, normal_vectors sh2 sh3 big mult m ft = Ok (af ++ ash) /\ NoDup own /\
    (forall cf, In cf own <-> exists ps, forall y, has_face4 m ps y <-> y = cf) /\ Forall2 (face_arrow m s) own af /\
    Forall2 (fun cl ar => shell_arrow m s (c_id cl) ar) (filter (fun cl => (kind_ndim (c_kind cl) =? 2)%nat) (cells m)) ash.
Proof.
  intros Sh3 C K D F s. unfold normal_vectors. rewrite D. cbn [Nat.eqb]. fold s.
  destruct (faces_3d leb shuffle m ea ft C D F) as (ND & Wt & Srt & _).
  pose proof (features_map_3d leb shuffle m ea ft D F) as Em. destruct (face_map_spec4 m _ Em (nodup_ids m C)) as (_ & Sp & _).
  assert (Ge : forall k fc, In (k, fc) (sh3 (ft_faces ft)) -> get_face ft k = Ok fc).
  { intros k fc H. apply get_face_iff, (in_mget _ fkey_eqb_eq); auto. eapply Permutation_in; [apply Sh3|exact H]. }
  match goal with |- context [foldM ?st0 ?l0 []] => destruct (foldM_arrows st0 (single_face ft)
    (fun x b => exists cf, (forall y, has_face4 m (fst x) y <-> y = cf) /\ face_arrow m s cf b) l0) with (acc := @nil arrow) as (bs & Eb & Fb) end.
  { intros [k fc] acc Hx. pose proof (Ge k fc Hx) as G. pose proof (Srt k fc G) as Sk. rewrite <- (sort4_sorted k Sk) in G.
    pose proof (proj1 (Wt k) (ex_intro _ fc G)) as Wd.
    specialize (Sp k). rewrite (sort4_sorted k Sk) in Sp. unfold single_face. cbn [fst snd].
    destruct (mget fkey_eqb (ft_all_faces ft) k) as [cs|] eqn:Ec.
    2:{ exfalso. unfold wanted in Wd. destruct ea; [destruct Wd as (x & Wd)|destruct Wd as (x & Wd & _)]; exact (Sp x Wd). }
    cbn [unwrap bind]. destruct (Nat.eqb_spec (List.length cs) 1) as [L1|L1]; [|reflexivity].
    destruct (one_face_arrow m ea ft s C K D F k fc G) as (cf & ar & (Hf & _) & E & A). rewrite E. cbn [bind]. exists ar. split; auto.
    exists cf. split; auto. destruct Sp as (_ & _ & Ho). destruct cs as [|x [|]]; try discriminate L1. intros y. rewrite <- Ho. cbn [In].
    assert (x = cf) by (apply Ho in Hf; destruct Hf as [|[]]; auto). subst x. intuition. }
  cbn [app] in Eb.
  destruct (owners_list (fun k cf => has_face4 m k cf) (face_arrow m s) (filter (single_face ft) (sh3 (ft_faces ft))) bs) as (own & N & FQ & M); auto.
  { apply nodup_filter. eapply Permutation_NoDup; [|exact ND]. apply Permutation_map, Permutation_sym, Sh3. }
  { intros k k' cf H1 H2 E1 E2. eapply has_face4_key; eauto.
    - apply in_map_iff in H1 as ([k0 fc] & Ek & H1). cbn [fst] in Ek. subst k0. apply filter_In in H1 as (H1 & _). apply Ge in H1. eauto.
    - apply in_map_iff in H2 as ([k0 fc] & Ek & H2). cbn [fst] in Ek. subst k0. apply filter_In in H2 as (H2 & _). apply Ge in H2. eauto. }
  assert (Es : ft_shells ft = map c_id (filter (fun cl => (kind_ndim (c_kind cl) =? 2)%nat) (cells m))).
  { revert F. clear - D. unfold features_new. rewrite D. cbn [Nat.leb Nat.eqb andb negb]. intros F. apply bind_ok in F as ([[[[em fm] pl] es] fs] & _ & F).
    apply bind_ok in F as (pl' & _ & F). injection F as <-. reflexivity. }
  assert (Ef : exists ash, foldM (fun (l : list arrow) c => let! cl := get (cells m) c in
        let! a := draw_arrow m (c_kind cl) (c_points cl) (face_middle (c_kind cl)) s in Ok (l ++ [a])) (ft_shells ft) bs = Ok (bs ++ ash) /\
      Forall2 (fun cl ar => shell_arrow m s (c_id cl) ar) (filter (fun cl => (kind_ndim (c_kind cl) =? 2)%nat) (cells m)) ash).
  { rewrite Es. destruct (foldM_app_all (fun cl => draw_arrow m (c_kind cl) (c_points cl) (face_middle (c_kind cl)) s) (fun cl ar => shell_arrow m s (c_id cl) ar)
      (filter (fun cl => (kind_ndim (c_kind cl) =? 2)%nat) (cells m))) with (acc := bs) as (ash & E & Fs).
    { intros cl H. apply filter_In in H as (H & H2). apply Nat.eqb_eq in H2. now apply one_shell_arrow. }
    exists ash. split; auto. rewrite <- E.
    assert (G : forall l acc, (forall cl, In cl l -> In cl (cells m)) ->
      foldM (fun (l : list arrow) c => let! cl := get (cells m) c in
        let! a := draw_arrow m (c_kind cl) (c_points cl) (face_middle (c_kind cl)) s in Ok (l ++ [a])) (map c_id l) acc =
      foldM (fun acc cl => let! b := draw_arrow m (c_kind cl) (c_points cl) (face_middle (c_kind cl)) s in Ok (acc ++ [b])) l acc).
    { induction l as [|cl l IH]; intros acc H; [reflexivity|]. cbn [map foldM]. unfold get at 1. rewrite (cell_by_id m cl C) by (apply H; now left). cbn [bind].
      destruct (draw_arrow m (c_kind cl) (c_points cl) (face_middle (c_kind cl)) s); cbn [bind]; auto. apply IH. intros; apply H; now right. }
    apply G. intros cl H. now apply filter_In in H. }
  destruct Ef as (ash & Ef & Fs).
  exists bs, ash, own. split; [rewrite Eb; cbn [bind]; exact Ef|]. split; auto. split; auto. intros cf. rewrite M. split.
  - intros (k & _ & U). exists k. exact U.
  - intros (ps & U).
    assert (Wd : exists fc, get_face ft (sort4 ps) = Ok fc).
    { apply Wt. assert (has_face4 m ps cf) by now apply U. unfold wanted. destruct ea; [eauto|]. exists cf. split; auto. intros y Hy. symmetry. now apply U. }
    destruct Wd as (fc & G). pose proof (Srt _ _ G) as Sk.
    assert (Eqv : forall y, has_face4 m (sort4 ps) y <-> has_face4 m ps y).
    { intros y. split.
      - intros H. pose proof (Sp (sort4 ps)) as A. pose proof (Sp ps) as B. rewrite (sort4_sorted _ Sk) in A.
        destruct (mget fkey_eqb (ft_all_faces ft) (sort4 ps)); [apply B, A, H|exfalso; exact (A y H)].
      - intros H. pose proof (Sp (sort4 ps)) as A. pose proof (Sp ps) as B. rewrite (sort4_sorted _ Sk) in A.
        destruct (mget fkey_eqb (ft_all_faces ft) (sort4 ps)); [apply A, B, H|exfalso; exact (B y H)]. }
    exists (sort4 ps). split; [|intros y; now rewrite Eqv]. apply in_map_iff. exists (sort4 ps, fc). split; auto. apply filter_In. split.
    + apply (Permutation_in _ (Permutation_sym (Sh3 _))). apply get_face_iff, mget_in in G; [exact G|exact fkey_eqb_eq].
    + unfold single_face. cbn [fst]. specialize (Sp ps). destruct (mget fkey_eqb (ft_all_faces ft) (sort4 ps)) as [cs|]; [|exfalso; apply (Sp cf); now apply U].
      destruct Sp as (Nn & Nd & Ho). destruct cs as [|x [|y l]]; [congruence|reflexivity|]. exfalso.
      assert (x = cf) by (apply U, Ho; simpl; auto). assert (y = cf) by (apply U, Ho; simpl; auto). subst. inversion Nd; subst. simpl in *. tauto.
Qed.
End Features.
