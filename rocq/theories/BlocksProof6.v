(* Collections of blocks: the whole mesh. *)
From Coq Require Import String Reals List Lia Lra Bool Arith ZArith Permutation Sorted.
From Verif Require Import Base BaseFacts Kind MeshModel MeshQuerySpec TopoModel TopoSpec TopoMaps TopoProof GeomModel GeomSpec GeomProof GridModel GridSpec GridProof SearchModel SearchSpec SearchProof SearchProof2
  JoinModel JoinSpec JoinProof JoinProof2 JoinProof3 PropJoin ShapesModel ShapesSpec PadModel PadSpec BlockModel BlockSpec BlockProof BlockProof2 BlockProof3 BlockProof10 PropBlock GraphModel StructModel StructSpec StructProof StructProof4 RingSpec RingProof2 BlocksSpec BlocksProof BlocksProof2 BlocksProof3 BlocksProof4 BlocksProof5.
Import ListNotations.
Local Open Scope list_scope.
Local Open Scope R_scope.

Section Whole.
Variables (zdet : R) (shp : list nat -> list nat) (shuffle : emap -> emap) (sh : container -> container) (shc : list (nat * nat) -> list (nat * nat)).
Hypothesis Hz : 0 <= zdet.
Hypothesis AO : any_order shp shuffle sh.
Hypothesis P2 : forall l, Permutation (shc l) l.
Variable target : geokind.

Lemma meshed_all (nd : nat) (blk : nat -> res block) (rg : nat -> region) EM FM n ms :
  (forall g w, In g (map rg (seq 0 n)) -> In w (g_weights g) -> not_fine (tolR nd) target w) ->
  (forall i b, blk i = Ok b -> of_region zdet nd (EM (rg i)) (FM (rg i)) (rg i) b) ->
  mapM (fun i => let! b := blk i in subdivide sh shc b target) (seq 0 n) = Ok ms ->
  (forall i, (i < n)%nat -> exists b, blk i = Ok b /\ kind_class target = if (nd =? 2)%nat then CQua else CHex) /\
  Forall2 (fun g mi => region_mesh nd target (EM g) (FM g) g mi) (map rg (seq 0 n)) ms.
Proof.
  intros Fine Of H. apply mapM_ok in H.
  assert (One : forall i mi, In i (seq 0 n) -> (let! b := blk i in subdivide sh shc b target) = Ok mi ->
    (exists b, blk i = Ok b /\ kind_class target = if (nd =? 2)%nat then CQua else CHex) /\ region_mesh nd target (EM (rg i)) (FM (rg i)) (rg i) mi).
  { intros i mi Ii E. apply bind_ok in E as (b & Eb & E). specialize (Of i b Eb). assert (Ft : fits b target).
    { assert (Dc : forall c1 c2 : geoclass, {c1 = c2} + {c1 <> c2}) by decide equality. destruct (Dc (kind_class target) (if (b_ndim b =? 2)%nat then CQua else CHex)) as [X|X]; [exact X|]. destruct (C45_wrong_class zdet sh shc b target Hz (o_made _ _ _ _ _ _ Of) X) as (msg & Er). rewrite Er in E. discriminate E. }
    split; [exists b; split; [exact Eb|]; unfold fits in Ft; rewrite (o_ndim _ _ _ _ _ _ Of) in Ft; exact Ft|].
    apply (region_meshed zdet sh shc Hz (proj2 (proj2 AO)) P2 nd _ _ (rg i) b target Of); [|exact Ft|exact E]. intros w Iw. eapply Fine; [apply in_map; exact Ii|exact Iw]. }
  split.
  - intros i Hi. destruct (Forall2_get _ _ _ i i H) as (mi & _ & E); [rewrite nth_error_nth' with (d := 0%nat) by (rewrite seq_length; exact Hi); rewrite seq_nth by exact Hi; reflexivity|]. eapply One; [apply in_seq; lia|exact E].
  - revert One H. clear. generalize (seq 0 n). intros l. revert ms. induction l as [|i l IH]; intros ms One H; inversion H; subst; cbn [map]; constructor.
    + eapply One; [left; reflexivity|eassumption].
    + apply IH; [intros j mj Ij; apply One; right; exact Ij|assumption].
Qed.

Lemma of_2d bl m0 m renumber : regions_fine (tolR 2) target (regions_2d bl) -> from_blocks_2d zdet shp shuffle sh shc bl target renumber = Ok m0 ->
  m0 = m -> exists ms m', well_2d bl /\ kind_class target = CQua /\ (2 <= List.length (k2_regions bl))%nat /\
    Forall2 (fun g mi => region_mesh 2 target (marks_edge 2 (k2_medges bl) g) (fun _ _ => False) g mi) (regions_2d bl) ms /\
    join_meshes shp shuffle sh ms = Ok m' /\ maybe_renumber renumber m' = Ok m.
Proof.
  intros Fine H <-. unfold from_blocks_2d in H. apply bind_ok in H as (ms & H1 & H). apply bind_ok in H as (m' & H2 & H3). exists ms, m'.
  destruct (meshed_all 2 (block_2d zdet bl) (region_2d bl) (fun g => marks_edge 2 (k2_medges bl) g) (fun _ _ _ => False) (List.length (k2_regions bl)) ms) as (A & B); [exact Fine| |exact H1|].
  { intros i b E. apply region_block_2d in E as (_ & _ & _ & _ & _ & X); [exact X|exact Hz]. }
  assert (L : (2 <= List.length (k2_regions bl))%nat).
  { pose proof B as B'. apply Forall2_nth in B' as (L & _). rewrite map_length, seq_length in L. destruct (le_lt_dec 2 (List.length ms)) as [X|X]; [lia|]. destruct (C28_few shp shuffle sh ms X) as (e & E). rewrite E in H2. discriminate H2. }
  split; [|split; [destruct (A 0%nat) as (_ & _ & X); [lia|exact X]|split; [exact L|split; [exact B|split; [exact H2|exact H3]]]]].
  assert (Last : exists b, block_2d zdet bl (List.length (k2_regions bl) - 1) = Ok b) by (destruct (A (List.length (k2_regions bl) - 1)%nat) as (b & Eb & _); [lia|exists b; exact Eb]). destruct Last as (b & Eb).
  apply region_block_2d in Eb as (_ & L1 & L2 & _); [|exact Hz]. split; [lia|]. split; [lia|]. intros g Ig. apply in_map_iff in Ig as (i & <- & Ii). apply in_seq in Ii. destruct (A i) as (b' & Eb' & _); [lia|].
  apply region_block_2d in Eb' as (_ & _ & _ & X1 & X2 & X3); [|exact Hz]. split; [exact X1|]. split; [exact (o_sums _ _ _ _ _ _ X3)|exact X2].
Qed.
Lemma of_3d bl m0 m renumber : regions_fine (tolR 3) target (regions_3d bl) -> from_blocks_3d zdet shp shuffle sh shc bl target renumber = Ok m0 ->
  m0 = m -> exists ms m', well_3d bl /\ kind_class target = CHex /\ (2 <= List.length (k3_regions bl))%nat /\
    Forall2 (fun g mi => region_mesh 3 target (marks_edge 3 (k3_medges bl) g) (marks_face (k3_mfaces bl) g) g mi) (regions_3d bl) ms /\
    join_meshes shp shuffle sh ms = Ok m' /\ maybe_renumber renumber m' = Ok m.
Proof.
  intros Fine H <-. unfold from_blocks_3d in H. apply bind_ok in H as (ms & H1 & H). apply bind_ok in H as (m' & H2 & H3). exists ms, m'.
  destruct (meshed_all 3 (block_3d zdet bl) (region_3d bl) (fun g => marks_edge 3 (k3_medges bl) g) (fun g => marks_face (k3_mfaces bl) g) (List.length (k3_regions bl)) ms) as (A & B); [exact Fine| |exact H1|].
  { intros i b E. apply region_block_3d in E as (_ & _ & _ & _ & _ & X); [exact X|exact Hz]. }
  assert (L : (2 <= List.length (k3_regions bl))%nat).
  { pose proof B as B'. apply Forall2_nth in B' as (L & _). rewrite map_length, seq_length in L. destruct (le_lt_dec 2 (List.length ms)) as [X|X]; [lia|]. destruct (C28_few shp shuffle sh ms X) as (e & E). rewrite E in H2. discriminate H2. }
  split; [|split; [destruct (A 0%nat) as (_ & _ & X); [lia|exact X]|split; [exact L|split; [exact B|split; [exact H2|exact H3]]]]].
  assert (Last : exists b, block_3d zdet bl (List.length (k3_regions bl) - 1) = Ok b) by (destruct (A (List.length (k3_regions bl) - 1)%nat) as (b & Eb & _); [lia|exists b; exact Eb]). destruct Last as (b & Eb).
  apply region_block_3d in Eb as (_ & L1 & L2 & _); [|exact Hz]. split; [lia|]. split; [lia|]. intros g Ig. apply in_map_iff in Ig as (i & <- & Ii). apply in_seq in Ii. destruct (A i) as (b' & Eb' & _); [lia|].
  apply region_block_3d in Eb' as (_ & _ & _ & X1 & X2 & X3); [|exact Hz]. split; [exact X1|]. split; [exact (o_sums _ _ _ _ _ _ X3)|exact X2].
Qed.

Lemma whole (nd : nat) EM FM gs ms m' m renumber : (nd = 2 \/ nd = 3)%nat -> Forall2 (fun g mi => region_mesh nd target (EM g) (FM g) g mi) gs ms ->
  join_meshes shp shuffle sh ms = Ok m' -> maybe_renumber renumber m' = Ok m ->
  consistent m /\ coords_complete m /\ all_used m /\ built nd (tolR nd) target gs m.
Proof.
  intros Hnd RM J Rn. destruct AO as (_ & O2 & O3). destruct (joined_maps shp shuffle O2 sh O3 nd target gs ms m' Hnd EM FM RM J) as (V & N & _ & Lc & fs & Mv). destruct V as (V1 & V2 & _).
  assert (X : consistent m' /\ coords_complete m' /\ all_used m' /\ built nd (tolR nd) target gs m').
  { split; [exact V1|]. split; [exact V2|]. split; [eapply maps_used; eassumption|eapply maps_built; eassumption]. }
  destruct renumber; cbn in Rn; [|injection Rn as <-; exact X]. destruct X as (X1 & X2 & X3 & X4). eapply renumber_built; eassumption.
Qed.
End Whole.
