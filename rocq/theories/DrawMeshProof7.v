(* Boundary edges and faces of solids; labels are not on nodes. *)
From Coq Require Import String Reals QArith Qreals List Lia Lra Bool Arith ZArith Permutation Sorted.
From Verif Require Import Base BaseFacts Expr ExprProof ShapesData Kind MeshModel GraphModel MeshQuerySpec TopoModel TopoSpec TopoMaps TopoProof TopoFeat3 TopoFeat6 TopoFinal
  ShapesModel ShapesSpec ShapesProof ShapesShared GeomModel GeomProof PadModel PadSpec PadProof PadProof2 PadProof3 PadProof4 GaussSpec SearchProof
  NormalModel NormalSpec NormalProof TriSurfModel TriSurfSpec DrawModel DrawSpec DrawProof DrawMeshModel DrawMeshSpec
  DrawMeshProof DrawMeshProof2 DrawMeshProof3 DrawMeshProof5 DrawMeshProof6.
From Verif Require TriSurfProof2.
Import ListNotations.
Local Open Scope list_scope.
Local Open Scope R_scope.

Lemma face_nodes_det (m : mesh R) c f kd ps kd' ps' : consistent m -> face_nodes m c f kd ps -> face_nodes m c f kd' ps' -> kd = kd' /\ ps = ps'.
Proof.
  intros C (cl & Hc & Ei & _ & _ & Ek & E) (cl' & Hc' & Ei' & _ & _ & Ek' & E').
  assert (cl' = cl). { pose proof (cell_by_id m cl C Hc) as A. pose proof (cell_by_id m cl' C Hc') as B. rewrite Ei in A. rewrite Ei' in B. congruence. }
  subst cl'. split; [congruence|]. rewrite E in E'. clear - E'. revert ps' E'. induction ps as [|x q IH]; intros [|y q'] H; try discriminate; [reflexivity|].
  cbn [map] in H. injection H as -> H. f_equal. now apply IH.
Qed.

Section Features.
Variables (leb : R -> R -> bool) (shuffle : emap -> emap).

Lemma boundary_lines m ea ft : consistent m -> coords_complete m -> ndim m = 3%nat -> features_new leb shuffle m ea = Ok ft ->
  exists ks lines, boundary_edges_3d m ft = Ok lines /\ NoDup ks /\ Forall2 (line_of m) ks lines /\
    forall a b, In (a, b) ks <-> (a <= b)%nat /\ exists cf kd pts e p q, lone_face m cf /\ face_nodes m (fst cf) (snd cf) kd pts /\
      side_of kd pts e p q /\ same_pair a b p q.
Proof.
  intros C K D F. destruct (boundary_edges_total_3d leb shuffle m ea ft C D F) as (ks & Ek).
  destruct (TopoFeat6.boundary_edges_3d leb shuffle m ea ft ks C D F Ek) as (N & B).
  destruct (faces_3d leb shuffle m ea ft C D F) as (_ & Wt & Srt & Dt & _).
  assert (Cf : forall a b, In (a, b) ks <-> (a <= b)%nat /\ exists cf kd pts e p q, lone_face m cf /\ face_nodes m (fst cf) (snd cf) kd pts /\
      side_of kd pts e p q /\ same_pair a b p q).
  { intros a b. rewrite B. split; intros (L & H); (split; [exact L|]).
    - destruct H as (k & fc & e & p & q & G & (cf & Hf & U) & R). pose proof (Srt k fc G) as Sk. rewrite <- (sort4_sorted k Sk) in G.
      destruct (Dt k fc G) as (_ & cf' & (Hf' & _) & En). pose proof (U _ Hf') as Eq. subst cf'.
      exists cf, (f_kind fc), (f_points fc), e, p, q. split; [|auto]. exists k. intros y. split; [intros Hy; symmetry; now apply U|intros ->; exact Hf].
    - destruct H as (cf & kd & pts & e & p & q & (ps & U) & En & R).
      assert (G : exists fc, get_face ft (sort4 ps) = Ok fc).
      { apply Wt. assert (has_face4 m ps cf) by now apply U. unfold wanted. destruct ea; [eauto|]. exists cf. split; auto. intros y Hy. symmetry. now apply U. }
      destruct G as (fc & G). destruct (Dt ps fc G) as (_ & cf' & (Hf' & _) & En'). apply U in Hf'. subst cf'.
      destruct (face_nodes_det m _ _ _ _ _ _ C En En') as (-> & ->). pose proof (Srt _ _ G) as Sk.
      exists (sort4 ps), fc, e, p, q. split; [exact G|]. split; [|exact R].
      pose proof (features_map_3d leb shuffle m ea ft D F) as Em. destruct (face_map_spec4 m _ Em (nodup_ids m C)) as (_ & Sp & _).
      pose proof (Sp (sort4 ps)) as A1. pose proof (Sp ps) as A2. rewrite (sort4_sorted _ Sk) in A1.
      assert (Eqv : forall y, has_face4 m (sort4 ps) y <-> y = cf).
      { intros y. rewrite <- U. destruct (mget fkey_eqb (ft_all_faces ft) (sort4 ps)) as [l|].
        - destruct A1 as (_ & _ & A1), A2 as (_ & _ & A2). now rewrite <- A1, <- A2.
        - split; intros Hy; exfalso; [apply (A1 y)|apply (A2 y)]; auto. }
      exists cf. split; [now apply Eqv|]. intros y Hy. symmetry. now apply Eqv. }
  assert (Rg : forall a b, In (a, b) ks -> (a < List.length (points m))%nat /\ (b < List.length (points m))%nat).
  { intros a b H. apply Cf in H as (_ & cf & kd & pts & e & p & q & _ & (cl & Hc & _ & _ & _ & _ & Ep) & Sd & Sm).
    assert (Gp : forall x, In x pts -> (x < List.length (points m))%nat).
    { intros x Hx. apply (in_map Some) in Hx. rewrite <- Ep in Hx. apply in_map_iff in Hx as (i & Ei & _).
      apply (proj2 C _ _ (cell_by_id m cl C Hc)). eapply nth_error_In; eauto. }
    destruct Sd as (_ & Hp & Hq). apply nth_error_In in Hp, Hq. apply Gp in Hp, Hq. unfold same_pair in Sm. lia. }
  unfold DrawMeshModel.boundary_edges_3d. rewrite D. cbn [Nat.eqb negb]. rewrite Ek. cbn [bind].
  match goal with |- context [mapM ?g0 ?l0] => destruct (mapM_forall2 g0 (line_of m) l0) as (lines & El & Fl) end.
  { intros [a b] H. destruct (Rg a b H) as (Ha & Hb). cbn [fst snd].
    rewrite (get_ok _ _ (mkPoint 0 0%Z [])) by auto. cbn [bind]. rewrite (get_ok _ _ (mkPoint 0 0%Z [])) by auto. cbn [bind].
    pose proof (K _ (nth_In _ (mkPoint 0 0%Z []) Ha)) as La. pose proof (K _ (nth_In _ (mkPoint 0 0%Z []) Hb)) as Lb. rewrite D in La, Lb.
    rewrite shown_ok by auto. cbn [bind]. rewrite shown_ok by auto. cbn [bind]. eexists. split; [reflexivity|]. unfold line_of. cbn [fst snd]. rewrite D.
    split; auto. split; auto. intros i Hi. split; eexists; (split; [apply nth_error_nth'; eauto|apply nth_error_nth'; lia]). }
  exists ks, lines. auto.
Qed.

Lemma boundary_surface sh3 m ea ft : (forall l, Permutation (sh3 l) l) -> consistent m -> coords_complete m -> ndim m = 3%nat -> features_new leb shuffle m ea = Ok ft ->
  exists own sf tr lab, draw_boundary_faces sh3 m ft = Ok (match t_tris tr with [] => None | _ => Some tr end) /\ NoDup own /\ (forall cf, In cf own <-> lone_face m cf) /\
    Forall2 (fun cf kp => face_nodes m (fst cf) (snd cf) (fst kp) (snd kp)) own sf /\ triangulates m sf tr lab.
Proof.
  intros Sh3 C K D F. destruct (faces_3d leb shuffle m ea ft C D F) as (ND & Wt & Srt & Dt & _).
  pose proof (features_map_3d leb shuffle m ea ft D F) as Em. destruct (face_map_spec4 m _ Em (nodup_ids m C)) as (_ & Sp & _).
  assert (Ge : forall k fc, In (k, fc) (sh3 (ft_faces ft)) -> get_face ft k = Ok fc).
  { intros k fc H. apply get_face_iff, (in_mget _ fkey_eqb_eq); auto. eapply Permutation_in; [apply Sh3|exact H]. }
  destruct (foldM_arrows (fun (acc : list face) (kf : fkey * face) =>
      let! owners := unwrap (mget fkey_eqb (ft_all_faces ft) (fst kf)) in
      Ok (if (List.length owners =? 1)%nat then acc ++ [snd kf] else acc)) (single_face ft)
      (fun x b => exists cf, (forall y, has_face4 m (fst x) y <-> y = cf) /\ face_nodes m (fst cf) (snd cf) (f_kind b) (f_points b)) (sh3 (ft_faces ft)))
      with (acc := @nil face) as (bs & Eb & Fb).
  { intros [k fc] acc Hx. pose proof (Ge k fc Hx) as G. pose proof (Srt k fc G) as Sk. rewrite <- (sort4_sorted k Sk) in G.
    pose proof (proj1 (Wt k) (ex_intro _ fc G)) as Wd.
    specialize (Sp k). rewrite (sort4_sorted k Sk) in Sp. unfold single_face. cbn [fst snd].
    destruct (mget fkey_eqb (ft_all_faces ft) k) as [cs|] eqn:Ec.
    2:{ exfalso. unfold wanted in Wd. destruct ea; [destruct Wd as (x & Wd)|destruct Wd as (x & Wd & _)]; exact (Sp x Wd). }
    cbn [unwrap bind]. destruct (Nat.eqb_spec (List.length cs) 1) as [L1|L1]; [|reflexivity].
    destruct (Dt k fc G) as (_ & cf & (Hf & _) & En). exists fc. split; auto.
    exists cf. split; auto. destruct Sp as (_ & _ & Ho). destruct cs as [|x [|]]; try discriminate L1. intros y. rewrite <- Ho. cbn [In].
    assert (x = cf) by (apply Ho in Hf; destruct Hf as [|[]]; auto). subst x. intuition. }
  cbn [app] in Eb.
  destruct (owners_list (fun k cf => has_face4 m k cf) (fun cf b => face_nodes m (fst cf) (snd cf) (f_kind b) (f_points b)) (filter (single_face ft) (sh3 (ft_faces ft))) bs) as (own & N & FQ & M); auto.
  { apply nodup_filter. eapply Permutation_NoDup; [|exact ND]. apply Permutation_map, Permutation_sym, Sh3. }
  { intros k k' cf H1 H2 E1 E2. eapply has_face4_key; eauto.
    - apply in_map_iff in H1 as ([k0 fc] & Ek & H1). cbn [fst] in Ek. subst k0. apply filter_In in H1 as (H1 & _). apply Ge in H1. eauto.
    - apply in_map_iff in H2 as ([k0 fc] & Ek & H2). cbn [fst] in Ek. subst k0. apply filter_In in H2 as (H2 & _). apply Ge in H2. eauto. }
  set (sf := map (fun f => (f_kind f, f_points f)) bs).
  assert (Fs : Forall2 (fun cf kp => face_nodes m (fst cf) (snd cf) (fst kp) (snd kp)) own sf).
  { unfold sf. clear - FQ. induction FQ; cbn [map]; constructor; auto. }
  assert (V : valid_surface m sf).
  { split; [auto|]. split; [auto|]. intros k pts H _. clear - C H Fs. induction Fs as [|cf kp own sf Hn Fs IH]; [destruct H|]. destruct H as [->|H]; [|auto].
    destruct Hn as (cl & Hc & Ei & D3 & Hf & Ek & Ep). cbn [fst snd] in *. split.
    - rewrite (NormalProof3.face_nnode_kind _ _ Ek) in Ep. apply (f_equal (@List.length _)) in Ep. now rewrite !map_length, seq_length in Ep.
    - intros x Hx. apply (in_map Some) in Hx. rewrite <- Ep in Hx. apply in_map_iff in Hx as (i & Ex & _).
      apply (proj2 C _ _ (cell_by_id m cl C Hc)). eapply nth_error_In; eauto. }
  destruct (TriSurfProof2.from_surface_ok m sf V) as (tr & Et & T). eexists own, sf, tr, _. split; [|split; [exact N|split; [|split; [exact Fs|exact T]]]].
  - unfold draw_boundary_faces, triangulate_3d_boundary. rewrite D. cbn [Nat.eqb negb]. unfold boundary_faces. rewrite Eb. cbn [bind]. fold sf. rewrite Et. reflexivity.
  - intros cf. rewrite M. split; [intros (k & _ & U); exists k; exact U|]. intros (ps & U).
    assert (Wd : exists fc, get_face ft (sort4 ps) = Ok fc).
    { apply Wt. assert (has_face4 m ps cf) by now apply U. unfold wanted. destruct ea; [eauto|]. exists cf. split; auto. intros y Hy. symmetry. now apply U. }
    destruct Wd as (fc & G). pose proof (Srt _ _ G) as Sk.
    assert (Eqv : forall y, has_face4 m (sort4 ps) y <-> has_face4 m ps y).
    { intros y. pose proof (Sp (sort4 ps)) as A. pose proof (Sp ps) as B. rewrite (sort4_sorted _ Sk) in A.
      destruct (mget fkey_eqb (ft_all_faces ft) (sort4 ps)).
      - destruct A as (_ & _ & A), B as (_ & _ & B). now rewrite <- A, <- B.
      - split; intros Hy; exfalso; [apply (A y)|apply (B y)]; auto. }
    exists (sort4 ps). split; [|intros y; now rewrite Eqv]. apply in_map_iff. exists (sort4 ps, fc). split; auto. apply filter_In. split.
    + apply (Permutation_in _ (Permutation_sym (Sh3 _))). apply get_face_iff, mget_in in G; [exact G|exact fkey_eqb_eq].
    + unfold single_face. cbn [fst]. specialize (Sp ps). destruct (mget fkey_eqb (ft_all_faces ft) (sort4 ps)) as [cs|]; [|exfalso; apply (Sp cf); now apply U].
      destruct Sp as (Nn & Nd & Ho). destruct cs as [|x [|y l]]; [congruence|reflexivity|]. exfalso.
      assert (x = cf) by (apply U, Ho; simpl; auto). assert (y = cf) by (apply U, Ho; simpl; auto). subst. inversion Nd; subst. simpl in *. tauto.
Qed.
End Features.
