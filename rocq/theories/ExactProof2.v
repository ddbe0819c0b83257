(* Collections of blocks and lists of blocks that fit together exactly. *)
From Coq Require Import String Reals List Lia Lra Bool Arith ZArith Permutation Sorted.
From Verif Require Import Base BaseFacts Kind GraphModel MeshModel MeshQuerySpec TopoModel TopoSpec TopoMaps TopoProof TopoFeat3 TopoFinal GeomModel GeomSpec GeomProof GridModel GridSpec GridProof SearchModel SearchSpec SearchProof SearchProof2
  JoinModel JoinSpec JoinProof JoinProof2 JoinProof3 PropJoin ShapesModel ShapesSpec PadModel PadSpec PadProof PadProof2 PadProof3 BlockModel BlockSpec BlockProof BlockProof2 BlockProof3 BlockProof10 PropBlock StructModel StructSpec StructProof StructProof4 RingSpec RingProof2 BlocksSpec BlocksProof BlocksProof2 BlocksProof3 BlocksProof4 BlocksProof5 BlocksProof6 BlocksProof7 BlocksProof8 BlocksProof9 ExactSpec ExactProof DiskModel DiskSpec DiskProof.
Import ListNotations.
Local Open Scope list_scope.
Local Open Scope R_scope.

Lemma parts_of {A} (P : region -> mesh R -> Prop) (run : A -> res (mesh R)) (rg : A -> region) l ms : mapM run l = Ok ms -> (forall i mi, In i l -> run i = Ok mi -> P (rg i) mi) -> Forall2 P (map rg l) ms.
Proof.
  intros H One. apply mapM_ok in H. revert ms H. induction l as [|i l IH]; intros ms H; inversion H; subst; cbn [map]; constructor.
  - apply One; [left; reflexivity|assumption].
  - apply IH; [intros j mj Ij; apply One; right; exact Ij|assumption].
Qed.
Lemma target_in nd target : (nd = 2 \/ nd = 3)%nat -> kind_class target = (if (nd =? 2)%nat then CQua else CHex) -> In target (targets nd).
Proof. intros [-> | ->] K; destruct target; try discriminate K; cbn; tauto. Qed.

Section Whole.
Variables (zdet : R) (shp : list nat -> list nat) (shuffle : emap -> emap) (sh : container -> container) (shc : list (nat * nat) -> list (nat * nat)).
Hypothesis Hz : 0 <= zdet.
Hypothesis AO : any_order shp shuffle sh.
Hypothesis P2 : forall l, Permutation (shc l) l.
Variable target : geokind.

Lemma one_part nd em fm g b mi : of_region zdet nd em fm g b -> (forall w, In w (g_weights g) -> not_fine (tolR nd) target w) -> kind_class target = (if (nd =? 2)%nat then CQua else CHex) ->
  subdivide sh shc b target = Ok mi -> region_mesh nd target em fm g mi /\ shared target g mi.
Proof.
  intros O Fine K E. assert (Ft : fits b target) by (unfold fits; rewrite (o_ndim _ _ _ _ _ _ O); exact K). split.
  - exact (region_meshed zdet sh shc Hz (proj2 (proj2 AO)) P2 nd em fm g b target O Fine mi Ft E).
  - exact (region_shared zdet sh shc nd em fm g b target mi Hz (proj2 (proj2 AO)) P2 O Fine Ft E).
Qed.
Lemma exact_2d bl : regions_fine (tolR 2) target (regions_2d bl) -> well_2d bl -> kind_class target = CQua -> (2 <= List.length (k2_regions bl))%nat ->
  (forall g, In g (regions_2d bl) -> off_center 2 target g /\ forall d, det_center 2 (g_nodes g) d -> zdet < d) ->
  one_to_one 2 target (regions_2d bl) -> separated 2 (tolR 2) target (regions_2d bl) -> enclosing 2 target (regions_2d bl) ->
  exists m, good 2 target (regions_2d bl) m /\ forall renumber, from_blocks_2d zdet shp shuffle sh shc bl target renumber = maybe_renumber renumber m.
Proof.
  intros Fine W K L H Inj Sep En. destruct (meshes_2d zdet sh shc bl target Hz (proj2 (proj2 AO)) P2 W K Fine H) as (ms & E).
  assert (Lw : forall g, In g (regions_2d bl) -> List.length (g_weights g) = 2%nat).
  { intros g Ig. apply in_map_iff in Ig as (i & <- & _). unfold region_2d. destruct (nth i (k2_regions bl) _) as [[[[mk p0] p1] p2] p3]. cbn [g_weights]. destruct (nth i (k2_weights bl) _) as [[|? ?] [|? ?]]; reflexivity. }
  destruct (good_join shp shuffle sh AO 2 target (or_introl eq_refl) (target_in 2 target (or_introl eq_refl) K) (fun g => marks_edge 2 (k2_medges bl) g) (fun _ _ _ => False) (regions_2d bl) ms) as (m & Em & G); try assumption.
  - unfold regions_2d. rewrite map_length, seq_length. exact L.
  - unfold parts, regions_2d. eapply parts_of; [exact E|]. intros i mi Ii Ei. apply bind_ok in Ei as (b & Eb & Ei). apply region_block_2d in Eb as (_ & _ & _ & _ & _ & O); [|exact Hz]. eapply one_part; [exact O| |exact K|exact Ei]. intros w Iw. eapply Fine; [|exact Iw]. unfold regions_2d. apply in_map. exact Ii.
  - exists m. split; [exact G|]. intros renumber. unfold from_blocks_2d. rewrite E. cbn [bind]. rewrite Em. reflexivity.
Qed.
Lemma exact_3d bl : regions_fine (tolR 3) target (regions_3d bl) -> well_3d bl -> kind_class target = CHex -> (2 <= List.length (k3_regions bl))%nat ->
  (forall g, In g (regions_3d bl) -> off_center 3 target g /\ forall d, det_center 3 (g_nodes g) d -> zdet < d) ->
  one_to_one 3 target (regions_3d bl) -> separated 3 (tolR 3) target (regions_3d bl) -> enclosing 3 target (regions_3d bl) ->
  exists m, good 3 target (regions_3d bl) m /\ forall renumber, from_blocks_3d zdet shp shuffle sh shc bl target renumber = maybe_renumber renumber m.
Proof.
  intros Fine W K L H Inj Sep En. destruct (meshes_3d zdet sh shc bl target Hz (proj2 (proj2 AO)) P2 W K Fine H) as (ms & E).
  assert (Lw : forall g, In g (regions_3d bl) -> List.length (g_weights g) = 3%nat).
  { intros g Ig. apply in_map_iff in Ig as (i & <- & _). unfold region_3d. destruct (nth i (k3_regions bl) _) as [[mk [[[p0 p1] p2] p3]] [[[p4 p5] p6] p7]]. cbn [g_weights]. destruct (nth i (k3_weights bl) _) as [[[|? ?] [|? ?]] [|? ?]]; reflexivity. }
  destruct (good_join shp shuffle sh AO 3 target (or_intror eq_refl) (target_in 3 target (or_intror eq_refl) K) (fun g => marks_edge 3 (k3_medges bl) g) (fun g => marks_face (k3_mfaces bl) g) (regions_3d bl) ms) as (m & Em & G); try assumption.
  - unfold regions_3d. rewrite map_length, seq_length. exact L.
  - unfold parts, regions_3d. eapply parts_of; [exact E|]. intros i mi Ii Ei. apply bind_ok in Ei as (b & Eb & Ei). apply region_block_3d in Eb as (_ & _ & _ & _ & _ & O); [|exact Hz]. eapply one_part; [exact O| |exact K|exact Ei]. intros w Iw. eapply Fine; [|exact Iw]. unfold regions_3d. apply in_map. exact Ii.
  - exists m. split; [exact G|]. intros renumber. unfold from_blocks_3d. rewrite E. cbn [bind]. rewrite Em. reflexivity.
Qed.

(* a list of blocks *)
Lemma exact_blocks nd gs bs : (nd = 2 \/ nd = 3)%nat -> Forall2 (of_region zdet nd nothing nothing) gs bs -> regions_fine (tolR nd) target gs -> kind_class target = (if (nd =? 2)%nat then CQua else CHex) -> (2 <= List.length gs)%nat ->
  (forall g, In g gs -> off_center nd target g) -> one_to_one nd target gs -> separated nd (tolR nd) target gs -> enclosing nd target gs ->
  exists m, good nd target gs m /\ forall renumber, mesh_blocks shp shuffle sh shc bs target renumber = maybe_renumber renumber m.
Proof.
  intros Hnd Of Fine K L Off Inj Sep En. destruct (blocks_total zdet shp shuffle sh shc Hz AO P2 nd target Hnd gs bs Of Fine Off K) as (ms & _ & E).
  assert (Lw : forall g, In g gs -> List.length (g_weights g) = nd).
  { intros g Ig. apply In_nth_error in Ig as (i & Eg). apply Forall2_nth in Of as (Ln & Of). destruct (nth_error bs i) as [b|] eqn:Eb; [|apply nth_error_None in Eb; assert (i < List.length gs)%nat by (apply nth_error_Some; congruence); lia]. exact (o_weights _ _ _ _ _ _ (Of i g b Eg Eb)). }
  destruct (good_join shp shuffle sh AO nd target Hnd (target_in nd target Hnd K) (fun _ => nothing) (fun _ => nothing) gs ms) as (m & Em & G); try assumption.
  - unfold parts. apply mapM_ok in E. revert ms E. clear - Of Fine K Hz AO P2. induction Of as [|g b gs bs O Of IH]; intros ms E; inversion E as [|? mi ? ms' Ei E']; subst; constructor.
    + eapply one_part; [exact O| |exact K|exact Ei]. intros w Iw. eapply Fine; [left; reflexivity|exact Iw].
    + apply IH; [|exact E']. intros g' w Ig. apply Fine. right. exact Ig.
  - exists m. split; [exact G|]. intros renumber. unfold mesh_blocks. rewrite E. cbn [bind]. rewrite Em. reflexivity.
Qed.
End Whole.
