(* Collections of blocks: every block gets its mesh; joining a mesh to one that consists of a single cell. *)
From Coq Require Import String Reals List Lia Lra Bool Arith ZArith Permutation Sorted.
From Verif Require Import Base BaseFacts Kind GraphModel MeshModel MeshQuerySpec TopoModel TopoSpec TopoMaps TopoProof TopoFeat3 TopoFinal GeomModel GeomSpec GeomProof GridModel GridSpec GridProof SearchModel SearchSpec SearchProof SearchProof2
  JoinModel JoinSpec JoinProof JoinProof2 JoinProof3 PropJoin ShapesModel ShapesSpec PadModel PadSpec PadProof PadProof2 PadProof3 BlockModel BlockSpec BlockProof BlockProof2 BlockProof3 BlockProof10 PropBlock StructModel StructSpec StructProof StructProof4 RingSpec RingProof2 BlocksSpec BlocksProof BlocksProof2 BlocksProof3 BlocksProof4 BlocksProof5 BlocksProof6.
Import ListNotations.
Local Open Scope list_scope.
Local Open Scope R_scope.

(* ---------------------------------------------------------------- the setters succeed *)
Lemma get_in {A} (l : list A) i : (i < List.length l)%nat -> exists x, get l i = Ok x.
Proof. intros L. unfold get. destruct (nth_error l i) eqn:E; [eauto|]. apply nth_error_None in E. lia. Qed.
Lemma corners_total {A} (l : list A) (f : A -> list R) ps : (forall p, In p ps -> (p < List.length l)%nat) -> exists cs, mapM (fun p => let! c := get l p in Ok (f c)) ps = Ok cs.
Proof.
  induction ps as [|p ps IH]; intros H; [eexists; reflexivity|]. destruct IH as (cs & E); [intros q I; apply H; right; exact I|]. destruct (get_in l p) as (x & Ex); [apply H; left; reflexivity|].
  exists (f x :: cs). cbn [mapM]. rewrite Ex. cbn [bind]. rewrite E. reflexivity.
Qed.
Lemma call_total r b' : r = (Ok tt, b') -> call r = Ok b'. Proof. intros ->. reflexivity. Qed.

Lemma mark_edges_total zdet kind n pp mm b : 0 <= zdet -> made zdet b -> n = (if (b_ndim b =? 2)%nat then 4 else 12)%nat ->
  (forall e i, (e < n)%nat -> (i < 2)%nat -> (edge_node_id kind e i < List.length pp)%nat) -> exists b', mark_block_edges kind n pp mm b = Ok b'.
Proof.
  intros Hz M Hn Hpp. unfold mark_block_edges. destruct mm as [|x0 mm0]; [eauto|]. set (mm := x0 :: mm0). assert (Hs : forall e, In e (seq 0 n) -> (e < n)%nat) by (intros e I; apply in_seq in I; lia).
  revert M Hn Hs. generalize (seq 0 n). intros es. revert b. induction es as [|e es IH]; intros b M Hn Hs; [eexists; reflexivity|]. cbn [foldM].
  assert (Le : (e < n)%nat) by (apply Hs; left; reflexivity). destruct (get_in pp (edge_node_id kind e 0)) as (p & Ep); [apply Hpp; lia|]. destruct (get_in pp (edge_node_id kind e 1)) as (q & Eq); [apply Hpp; lia|].
  rewrite Ep, Eq. cbn [bind]. destruct (mget ekey_eqb mm (sort2 (p, q))) as [mk|].
  - destruct (C61_edge_setter zdet b e mk Hz M) as (A & _). destruct A as (b1 & E1 & _ & W1); [rewrite <- Hn; exact Le|]. pose proof (made_em zdet b e mk M) as M1. rewrite E1 in M1. cbn [snd] in M1. rewrite E1. cbn [call fst snd bind].
    apply IH; [exact M1|rewrite W1; exact Hn|intros e' I; apply Hs; right; exact I].
  - cbn [bind]. apply IH; [exact M|exact Hn|intros e' I; apply Hs; right; exact I].
Qed.
Lemma mark_faces_total pp mm b : b_ndim b = 3%nat -> List.length pp = 8%nat -> exists b', mark_block_faces pp mm b = Ok b'.
Proof.
  intros Hn Hpp. unfold mark_block_faces. destruct mm as [|x0 mm0]; [eauto|]. set (mm := x0 :: mm0). assert (Hs : forall e, In e (seq 0 6) -> (e < 6)%nat) by (intros e I; apply in_seq in I; lia).
  revert Hn Hs. generalize (seq 0 6). intros es. revert b. induction es as [|e es IH]; intros b Hn Hs; [eexists; reflexivity|]. cbn [foldM].
  assert (Le : (e < 6)%nat) by (apply Hs; left; reflexivity).
  assert (G : exists ps, mapM (fun i => get pp (face_node_id Hex8 e i)) (seq 0 4) = Ok ps).
  { assert (Hf : forall i, (i < 4)%nat -> (face_node_id Hex8 e i < 8)%nat).
    { intros i Hi. do 6 (destruct e as [|e]; [do 4 (destruct i as [|i]; [vm_compute; lia|]); lia|]). lia. }
    assert (K : forall l, (forall i, In i l -> (i < 4)%nat) -> exists ps, mapM (fun i => get pp (face_node_id Hex8 e i)) l = Ok ps).
    { induction l as [|i l IHl]; intros Hl; [eexists; reflexivity|]. destruct IHl as (ps & E); [intros j I; apply Hl; right; exact I|]. destruct (get_in pp (face_node_id Hex8 e i)) as (x & Ex); [rewrite Hpp; apply Hf, Hl; left; reflexivity|].
      exists (x :: ps). cbn [mapM]. rewrite Ex. cbn [bind]. rewrite E. reflexivity. }
    apply K. intros i I. apply in_seq in I. lia. }
  destruct G as (ps & ->). cbn [bind]. destruct (mget fkey_eqb mm (sort4 ps)) as [mk|].
  - destruct (C61_face_setter b e mk) as (A & _). destruct A as (b1 & E1 & _ & W1); [auto|]. rewrite E1. cbn [call fst snd bind].
    apply IH; [rewrite W1; exact Hn|intros e' I; apply Hs; right; exact I].
  - cbn [bind]. apply IH; [exact Hn|intros e' I; apply Hs; right; exact I].
Qed.

Definition not_flat (zdet : R) (nd : nat) (g : region) : Prop := forall d, det_center nd (g_nodes g) d -> zdet < d.

Lemma block_2d_total zdet bl i : 0 <= zdet -> (i < List.length (k2_regions bl))%nat -> (i < List.length (k2_weights bl))%nat -> (i < List.length (k2_constraints bl))%nat ->
  let g := region_2d bl i in
  (forall p, In p (g_ids g) -> (p < List.length (k2_points bl))%nat) -> (forall w, In w (g_weights g) -> 1 <= sum w) -> (forall e c, In (e, c) (g_sides g) -> (e < 4)%nat) ->
  not_flat zdet 2 g -> exists b, block_2d zdet bl i = Ok b.
Proof.
  intros Hz L1 L2 L3 g Hp Hw Hs Nf. unfold block_2d. destruct (get_in _ _ L1) as (r & Er). destruct (get_in _ _ L2) as (w & Ew). destruct (get_in _ _ L3) as (c & Ec).
  assert (Eg : g = let '(mk, p0, p1, p2, p3) := r in mkRegion mk [p0; p1; p2; p3] (map (fun p => let c := nth p (k2_points bl) (0, 0) in [fst c; snd c]) [p0; p1; p2; p3])
    (match w with ((_ :: _) as wx, (_ :: _) as wy) => [wx; wy] | _ => repeat [1; 1] 2 end) (match c with Some (e, c) => [(e, In2d c)] | None => [] end)).
  { destruct (get_nth _ _ _ (0%Z, 0, 0, 0, 0)%nat Er) as (_ & ->). destruct (get_nth _ _ _ ([], []) Ew) as (_ & ->). destruct (get_nth _ _ _ None Ec) as (_ & ->). reflexivity. }
  clearbody g. rewrite Er. cbn [bind]. destruct r as [[[[mk p0] p1] p2] p3]. subst g. unfold not_flat in Nf. cbn [g_ids g_weights g_nodes g_sides] in Hp, Hw, Hs, Nf.
  destruct (corners_total (k2_points bl) (fun c => [fst c; snd c]) [p0; p1; p2; p3] Hp) as (cs & Ecs). rewrite Ecs. cbn [bind]. apply (corners_get _ _ (0, 0)) in Ecs as (_ & Ecs). cbv zeta in Nf. rewrite <- Ecs in Nf.
  assert (Gd : good_size 2 cs) by (split; [left; reflexivity|left; rewrite Ecs; reflexivity]).
  assert (Rc : rect 2 cs) by (intros m Hm; rewrite Ecs in Hm |- *; cbn in Hm; do 4 (destruct m as [|m]; [reflexivity|]); lia).
  destruct (C62_new zdet 2 cs Hz Gd Rc) as (d & D & A & _). destruct (A (Nf d D)) as (b0 & E0 & N0 & _). rewrite E0. cbn [bind]. rewrite Ew. cbn [bind]. destruct w as [wx wy]. cbn [fst snd].
  set (b1 := set_marker b0 mk). assert (M1 : made zdet b1) by (apply made_marker, (made_new _ _ _ _ E0)). assert (N1 : b_ndim b1 = 2%nat) by exact N0. clearbody b1.
  assert (X : exists b2, (if ((0 <? List.length wx)%nat && (0 <? List.length wy)%nat)%bool then call (set_div_weights_2d b1 wx wy) else Ok b1) = Ok b2 /\ made zdet b2 /\ b_ndim b2 = 2%nat).
  { destruct wx as [|x wx]; [exists b1; auto|]. destruct wy as [|y wy]; [exists b1; auto|]. cbn [List.length Nat.ltb Nat.leb andb].
    destruct (C54_weights_2d zdet b1 (x :: wx) (y :: wy) Hz M1) as (B & _). destruct B as (b2 & dx & dy & E2 & (_ & S2 & _) & _); [exact N1|discriminate|discriminate|apply Hw; left; reflexivity|apply Hw; right; left; reflexivity|].
    exists b2. rewrite E2. split; [reflexivity|]. split; [|congruence]. pose proof (made_w2 zdet b1 (x :: wx) (y :: wy) M1) as M2. rewrite E2 in M2. exact M2. }
  destruct X as (b2 & -> & M2 & N2). cbn [bind]. rewrite Ec. cbn [bind].
  assert (X : exists b3, match c with Some c => call (set_edge_constraint b2 (fst c) (Some (snd c))) | None => Ok b2 end = Ok b3 /\ made zdet b3 /\ b_ndim b3 = 2%nat).
  { destruct c as [[e c]|]; [|exists b2; auto]. cbn [fst snd]. destruct (C47_edge_setter b2 e (Some c)) as (B & _). destruct B as (b3 & E3 & _ & W3); [split; [exact N2|eapply Hs; left; reflexivity]|].
    exists b3. pose proof (made_ec zdet b2 e (Some c) M2) as M3. rewrite E3 in M3 |- *. split; [reflexivity|]. split; [exact M3|rewrite W3; exact N2]. }
  destruct X as (b3 & -> & M3 & N3). cbn [bind]. apply (mark_edges_total zdet); [exact Hz|exact M3|rewrite N3; reflexivity|]. intros e k He Hk. cbn [List.length]. do 4 (destruct e as [|e]; [do 2 (destruct k as [|k]; [vm_compute; lia|]); lia|]). lia.
Qed.
Lemma block_3d_total zdet bl i : 0 <= zdet -> (i < List.length (k3_regions bl))%nat -> (i < List.length (k3_weights bl))%nat -> (i < List.length (k3_constraints bl))%nat ->
  let g := region_3d bl i in
  (forall p, In p (g_ids g) -> (p < List.length (k3_points bl))%nat) -> (forall w, In w (g_weights g) -> 1 <= sum w) -> (forall e c, In (e, c) (g_sides g) -> (e < 6)%nat) ->
  not_flat zdet 3 g -> exists b, block_3d zdet bl i = Ok b.
Proof.
  intros Hz L1 L2 L3 g Hp Hw Hs Nf. unfold block_3d. destruct (get_in _ _ L1) as (r & Er). destruct (get_in _ _ L2) as (w & Ew). destruct (get_in _ _ L3) as (c & Ec).
  assert (Eg : g = let '(mk, (p0, p1, p2, p3), (p4, p5, p6, p7)) := r in mkRegion mk [p0; p1; p2; p3; p4; p5; p6; p7] (map (fun p => let c := nth p (k3_points bl) (0, 0, 0) in [fst (fst c); snd (fst c); snd c]) [p0; p1; p2; p3; p4; p5; p6; p7])
    (match w with ((_ :: _) as wx, (_ :: _) as wy, (_ :: _) as wz) => [wx; wy; wz] | _ => repeat [1; 1] 3 end) (match c with Some (e, c) => [(e, In3d c)] | None => [] end)).
  { destruct (get_nth _ _ _ (0%Z, (0, 0, 0, 0), (0, 0, 0, 0))%nat Er) as (_ & ->). destruct (get_nth _ _ _ ([], [], []) Ew) as (_ & ->). destruct (get_nth _ _ _ None Ec) as (_ & ->). reflexivity. }
  clearbody g. rewrite Er. cbn [bind]. destruct r as [[mk [[[p0 p1] p2] p3]] [[[p4 p5] p6] p7]]. subst g. unfold not_flat in Nf. cbn [g_ids g_weights g_nodes g_sides] in Hp, Hw, Hs, Nf.
  destruct (corners_total (k3_points bl) (fun c => [fst (fst c); snd (fst c); snd c]) [p0; p1; p2; p3; p4; p5; p6; p7] Hp) as (cs & Ecs). rewrite Ecs. cbn [bind]. apply (corners_get _ _ (0, 0, 0)) in Ecs as (_ & Ecs). cbv zeta in Nf. rewrite <- Ecs in Nf.
  assert (Gd : good_size 3 cs) by (split; [right; reflexivity|left; rewrite Ecs; reflexivity]).
  assert (Rc : rect 3 cs) by (intros m Hm; rewrite Ecs in Hm |- *; cbn in Hm; do 8 (destruct m as [|m]; [reflexivity|]); lia).
  destruct (C62_new zdet 3 cs Hz Gd Rc) as (d & D & A & _). destruct (A (Nf d D)) as (b0 & E0 & N0 & _). rewrite E0. cbn [bind]. rewrite Ew. cbn [bind]. destruct w as [[wx wy] wz].
  set (b1 := set_marker b0 mk). assert (M1 : made zdet b1) by (apply made_marker, (made_new _ _ _ _ E0)). assert (N1 : b_ndim b1 = 3%nat) by exact N0. clearbody b1.
  assert (X : exists b2, (if ((0 <? List.length wx)%nat && (0 <? List.length wy)%nat && (0 <? List.length wz)%nat)%bool then call (set_div_weights_3d b1 wx wy wz) else Ok b1) = Ok b2 /\ made zdet b2 /\ b_ndim b2 = 3%nat).
  { destruct wx as [|x wx]; [exists b1; auto|]. destruct wy as [|y wy]; [exists b1; auto|]. destruct wz as [|z wz]; [exists b1; auto|]. cbn [List.length Nat.ltb Nat.leb andb].
    destruct (C54_weights_3d zdet b1 (x :: wx) (y :: wy) (z :: wz) Hz M1) as (B & _).
    destruct B as (b2 & dx & dy & dz & E2 & (_ & S2 & _) & _); [exact N1|discriminate|discriminate|discriminate|apply Hw; left; reflexivity|apply Hw; right; left; reflexivity|apply Hw; right; right; left; reflexivity|].
    exists b2. rewrite E2. split; [reflexivity|]. split; [|congruence]. pose proof (made_w3 zdet b1 (x :: wx) (y :: wy) (z :: wz) M1) as M2. rewrite E2 in M2. exact M2. }
  destruct X as (b2 & -> & M2 & N2). cbn [bind]. rewrite Ec. cbn [bind].
  assert (X : exists b3, match c with Some c => call (set_face_constraint b2 (fst c) (Some (snd c))) | None => Ok b2 end = Ok b3 /\ made zdet b3 /\ b_ndim b3 = 3%nat).
  { destruct c as [[e c]|]; [|exists b2; auto]. cbn [fst snd]. destruct (C47_face_setter b2 e (Some c)) as (B & _). destruct B as (b3 & E3 & _ & W3); [split; [exact N2|eapply Hs; left; reflexivity]|].
    exists b3. pose proof (made_fc zdet b2 e (Some c) M2) as M3. rewrite E3 in M3 |- *. split; [reflexivity|]. split; [exact M3|rewrite W3; exact N2]. }
  destruct X as (b3 & -> & M3 & N3). cbn [bind].
  destruct (mark_edges_total zdet Hex8 12 [p0; p1; p2; p3; p4; p5; p6; p7] (edges_to_mark (k3_medges bl)) b3) as (b4 & E4); [exact Hz|exact M3|rewrite N3; reflexivity| |].
  { intros e k He Hk. cbn [List.length]. do 12 (destruct e as [|e]; [do 2 (destruct k as [|k]; [vm_compute; lia|]); lia|]). lia. }
  rewrite E4. cbn [bind]. apply mark_faces_total; [|reflexivity]. apply (mark_edges_ok zdet) in E4 as (_ & W4 & _); [|exact Hz|exact M3|rewrite N3; reflexivity]. rewrite W4. exact N3.
Qed.

(* ---------------------------------------------------------------- every block is subdivided *)
Lemma all_meshed zdet sh shc nd em fm g b target : 0 <= zdet -> (forall c, Permutation (sh c) c) -> (forall l, Permutation (shc l) l) -> of_region zdet nd em fm g b -> off_center nd target g ->
  kind_class target = (if (nd =? 2)%nat then CQua else CHex) -> (forall w, In w (g_weights g) -> not_fine (tolR nd) target w) -> exists m, subdivide sh shc b target = Ok m.
Proof.
  intros Hz P Q O Off K Fine. apply (C47_total zdet sh shc b target Hz P Q (o_made _ _ _ _ _ _ O)).
  - unfold fits. rewrite (o_ndim _ _ _ _ _ _ O). exact K.
  - exact (fine_spaced zdet nd em fm g b target O Fine).
  - right. intros idx k s V Hk Hs C A N. pose proof (o_ndim _ _ _ _ _ _ O) as Nd. rewrite Nd in Hs, A. apply (index_iff zdet nd em fm g b O) in V.
    destruct (proj1 (o_sides _ _ _ _ _ _ O s) (conj Hs C)) as (c & I). pose proof (ksi_eq zdet nd em fm g b target O idx k V) as Ek. rewrite <- Ek in A, N.
    apply (Off idx k s c V Hk I A). apply (o_moved _ _ _ _ _ _ O s c I). unfold region_node. rewrite <- (map_eq zdet Hz nd em fm g b target O Fine); [exact N|].
    unfold region_ksi. rewrite map_length, seq_length. apply (o_weights _ _ _ _ _ _ O).
Qed.
Lemma mapM_all {A B} (f : A -> res B) l : (forall a, In a l -> exists b, f a = Ok b) -> exists r, mapM f l = Ok r.
Proof.
  induction l as [|a l IH]; intros H; [eexists; reflexivity|]. destruct (H a (or_introl eq_refl)) as (b & E). destruct IH as (r & Er); [intros x I; apply H; right; exact I|].
  exists (b :: r). cbn [mapM]. rewrite E. cbn [bind]. rewrite Er. reflexivity.
Qed.
Lemma meshes_2d zdet sh shc bl target : 0 <= zdet -> (forall c, Permutation (sh c) c) -> (forall l, Permutation (shc l) l) -> well_2d bl -> kind_class target = CQua -> regions_fine (tolR 2) target (regions_2d bl) ->
  (forall g, In g (regions_2d bl) -> off_center 2 target g /\ not_flat zdet 2 g) ->
  exists ms, mapM (fun i => let! b := block_2d zdet bl i in subdivide sh shc b target) (seq 0 (List.length (k2_regions bl))) = Ok ms.
Proof.
  intros Hz P Q (L1 & L2 & W) K Fine H. apply mapM_all. intros i Ii. assert (Ig : In (region_2d bl i) (regions_2d bl)) by (apply in_map; exact Ii). apply in_seq in Ii. destruct (W _ Ig) as (W1 & W2 & W3). destruct (H _ Ig) as (H1 & H2).
  destruct (block_2d_total zdet bl i Hz) as (b & Eb); try assumption; try lia. rewrite Eb. cbn [bind]. apply region_block_2d in Eb as (_ & _ & _ & _ & _ & O); [|exact Hz]. eapply all_meshed; [exact Hz|exact P|exact Q|exact O|exact H1|exact K|]. intros w Iw. exact (Fine _ w Ig Iw).
Qed.
Lemma meshes_3d zdet sh shc bl target : 0 <= zdet -> (forall c, Permutation (sh c) c) -> (forall l, Permutation (shc l) l) -> well_3d bl -> kind_class target = CHex -> regions_fine (tolR 3) target (regions_3d bl) ->
  (forall g, In g (regions_3d bl) -> off_center 3 target g /\ not_flat zdet 3 g) ->
  exists ms, mapM (fun i => let! b := block_3d zdet bl i in subdivide sh shc b target) (seq 0 (List.length (k3_regions bl))) = Ok ms.
Proof.
  intros Hz P Q (L1 & L2 & W) K Fine H. apply mapM_all. intros i Ii. assert (Ig : In (region_3d bl i) (regions_3d bl)) by (apply in_map; exact Ii). apply in_seq in Ii. destruct (W _ Ig) as (W1 & W2 & W3). destruct (H _ Ig) as (H1 & H2).
  destruct (block_3d_total zdet bl i Hz) as (b & Eb); try assumption; try lia. rewrite Eb. cbn [bind]. apply region_block_3d in Eb as (_ & _ & _ & _ & _ & O); [|exact Hz]. eapply all_meshed; [exact Hz|exact P|exact Q|exact O|exact H1|exact K|]. intros w Iw. exact (Fine _ w Ig Iw).
Qed.

(* ---------------------------------------------------------------- a mesh with one cell *)
Section Single.
Variable shuffle : emap -> emap.
Hypothesis shP : forall l, Permutation (shuffle l) l.
Variable a : mesh R.
Variable c : MeshModel.cell.
Hypothesis Va : valid a.
Hypothesis Used : all_used a.
Hypothesis Cells : cells a = [c].
Hypothesis ND : NoDup (c_points c).
Hypothesis Wide : forall j, (j < ndim a)%nat -> exists p q x y, In p (c_points c) /\ In q (c_points c) /\ coord_is a p j x /\ coord_is a q j y /\ x <> y.
Hypothesis Kd : (ndim a = 2 /\ c_kind c = Qua4)%nat \/ (ndim a = 3 /\ c_kind c = Hex8)%nat.

Lemma nth_inj i j p : nth_error (c_points c) i = Some p -> nth_error (c_points c) j = Some p -> i = j.
Proof. intros X Y. apply (proj1 (NoDup_nth_error (c_points c)) ND); [apply nth_error_Some; congruence|congruence]. Qed.

Lemma single_points_2 ft : ndim a = 2%nat -> c_kind c = Qua4 -> features_new Rleb shuffle a false = Ok ft -> forall p, In p (c_points c) -> In p (ft_points ft).
Proof.
  intros Da K F. pose proof Va as (Ca & _ & _). assert (Ec : nth_error (cells a) 0 = Some c) by (rewrite Cells; reflexivity). destruct (proj2 Ca 0%nat c Ec) as (Id & Lc & _). rewrite K in Lc. change (kind_nnode Qua4) with 4%nat in Lc.
  intros p Ip. apply In_nth_error in Ip as (k & Ep). assert (Hk : (k < 4)%nat) by (rewrite <- Lc; apply nth_error_Some; congruence).
  (* the edge that starts at node k *)
  assert (E1 : exists e q, (e < 4)%nat /\ edge_node_id Qua4 e 1 = k /\ nth_error (c_points c) (edge_node_id Qua4 e 0) = Some q).
  { exists k. destruct (nth_error (c_points c) (edge_node_id Qua4 k 0)) as [q|] eqn:E; [|exfalso; apply nth_error_None in E; rewrite Lc in E; do 4 (destruct k as [|k]; [vm_compute in E; lia|]); lia].
    exists q. split; [exact Hk|]. split; [|reflexivity]. do 4 (destruct k as [|k]; [reflexivity|]). lia. }
  destruct E1 as (e & q & He & Ek & Eq). assert (Ed : edge_of a 0 e q p).
  { exists c. rewrite Cells, K, Ek. split; [left; reflexivity|]. split; [exact Id|]. split; [reflexivity|]. split; [exact He|]. split; [exact Eq|exact Ep]. }
  assert (Wt : forall x y, same_pair x y q p -> wanted false (has_edge a x y)).
  { intros x y Sxy. exists (0%nat, e). split; [exists q, p; split; [exact Ed|exact Sxy]|]. intros [c' e'] (q' & p' & (cl & Icl & Ei & _ & Le & X1 & X2) & SP). cbn [fst snd] in *. rewrite Cells in Icl. destruct Icl as [<-|[]]. rewrite K in *. change (kind_nedge Qua4) with 4%nat in Le.
    f_equal; [congruence|]. rewrite <- Ek in Ep. assert (Z : edge_node_id Qua4 e 0 = edge_node_id Qua4 e' 0 /\ edge_node_id Qua4 e 1 = edge_node_id Qua4 e' 1 \/ edge_node_id Qua4 e 0 = edge_node_id Qua4 e' 1 /\ edge_node_id Qua4 e 1 = edge_node_id Qua4 e' 0).
    { assert (SQ : q = q' /\ p = p' \/ q = p' /\ p = q') by (unfold same_pair in *; clear - Sxy SP; lia). destruct SQ as [[<- <-]|[<- <-]]; [left|right]; split; eapply nth_inj; eassumption. }
    clear - Z He Le. do 4 (destruct e as [|e]; [do 4 (destruct e' as [|e']; [first [reflexivity|exfalso; vm_compute in Z; lia]|]); lia|]). lia. }
  destruct (points_and_limits Rleb shuffle shP a false ft Rleb_total Ca (or_introl Da) F) as (_ & UP & _). apply UP. left.
  assert (exists x y, (x <= y)%nat /\ same_pair x y q p) as (x & y & Lxy & Sxy) by (destruct (le_lt_dec q p); [exists q, p|exists p, q]; unfold same_pair; lia).
  destruct (proj2 (listed_edges_2d Rleb shuffle shP a false ft Ca Da F x y) (conj Lxy (Wt x y Sxy))) as (ed & G). exists x, y, ed. split; [exact G|].
  destruct (edges_2d Rleb shuffle shP a false ft Ca Da F) as (_ & _ & _ & X). destruct (X x y ed G) as (_ & ce & (Hce & _) & EN).
  destruct (Wt x y Sxy) as (u & Hu & Uu). pose proof (Uu _ Hce) as E0. assert (H0e : has_edge a x y (0%nat, e)) by (exists q, p; split; [exact Ed|exact Sxy]). pose proof (Uu _ H0e) as E0'. assert (Ece : ce = (0%nat, e)) by congruence. rewrite Ece in EN. cbn [fst snd] in EN.
  destruct EN as (cl & Icl & _ & _ & _ & _ & M). rewrite Cells in Icl. destruct Icl as [<-|[]]. rewrite K in M. change (kind_edge_nnode Qua4) with 2%nat in M.
  assert (I : In (Some p) (map Some (e_points ed))). { rewrite <- M. right. left. rewrite Ek. exact Ep. }
  apply in_map_iff in I as (z & Z & I). injection Z as ->. exact I.
Qed.
Lemma single_points_3 ft : ndim a = 3%nat -> c_kind c = Hex8 -> features_new Rleb shuffle a false = Ok ft -> forall p, In p (c_points c) -> In p (ft_points ft).
Proof.
  intros Da K F. pose proof Va as (Ca & _ & _). assert (Ec : nth_error (cells a) 0 = Some c) by (rewrite Cells; reflexivity). destruct (proj2 Ca 0%nat c Ec) as (Id & Lc & _). rewrite K in Lc. change (kind_nnode Hex8) with 8%nat in Lc.
  assert (Q : no_quadratic_tets a) by (intros cl Icl; rewrite Cells in Icl; destruct Icl as [<-|[]]; rewrite K; split; discriminate).
  intros p Ip. apply In_nth_error in Ip as (k & Ep). assert (Hk : (k < 8)%nat) by (rewrite <- Lc; apply nth_error_Some; congruence).
  (* a face through node k *)
  assert (exists f i, (f < 6)%nat /\ (i < 4)%nat /\ face_node_id Hex8 f i = k) as (f & i & Hf & Hi & Ek).
  { exists (if (k <? 4)%nat then 4 else 5)%nat. do 8 (destruct k as [|k]; [first [exists 0%nat; split; [cbn; lia|]; split; [lia|]; reflexivity|exists 1%nat; split; [cbn; lia|]; split; [lia|]; reflexivity|exists 2%nat; split; [cbn; lia|]; split; [lia|]; reflexivity|exists 3%nat; split; [cbn; lia|]; split; [lia|]; reflexivity]|]). lia. }
  assert (Fn : forall f i, (f < 6)%nat -> (i < 4)%nat -> (face_node_id Hex8 f i < 8)%nat).
  { clear. intros f i Hf Hi. do 6 (destruct f as [|f]; [do 4 (destruct i as [|i]; [vm_compute; lia|]); lia|]). lia. }
  set (qs := map (fun i => nth (face_node_id Hex8 f i) (c_points c) 0%nat) (seq 0 4)).
  assert (Fo : face_of a 0 f qs).
  { exists c. rewrite Cells, K. split; [left; reflexivity|]. split; [exact Id|]. split; [reflexivity|]. split; [exact Hf|]. unfold qs. rewrite map_map. apply map_ext_in. intros j Ij. apply in_seq in Ij. apply nth_error_nth'. rewrite Lc. apply Fn; [exact Hf|lia]. }
  set (ks := isort Nat.leb qs). assert (Pk : Permutation ks qs) by apply isort_perm.
  assert (H0 : has_face a ks (0%nat, f)) by (exists qs; split; [exact Fo|exact Pk]).
  assert (Un : forall x, has_face a ks x -> (0%nat, f) = x).
  { intros [c' f'] (rs & (cl & Icl & Ei & _ & Le & X) & P). cbn [fst snd] in *. rewrite Cells in Icl. destruct Icl as [<-|[]]. rewrite K in *. change (kind_nface Hex8) with 6%nat in Le. f_equal; [congruence|].
    assert (Er : rs = map (fun i => nth (face_node_id Hex8 f' i) (c_points c) 0%nat) (seq 0 4)).
    { apply (f_equal (map (fun o => match o with Some x => x | None => 0%nat end))) in X. rewrite !map_map in X. rewrite map_id in X. rewrite <- X. apply map_ext_in. intros j Ij. apply in_seq in Ij. rewrite nth_error_nth' with (d := 0%nat) by (rewrite Lc; apply Fn; [exact Le|cbn in Ij; lia]). reflexivity. }
    assert (Same : forall j, (j < 4)%nat -> exists j', (j' < 4)%nat /\ face_node_id Hex8 f j = face_node_id Hex8 f' j').
    { intros j Hj. assert (Iq : In (nth (face_node_id Hex8 f j) (c_points c) 0%nat) rs).
      { eapply Permutation_in; [exact P|]. eapply Permutation_in; [apply Permutation_sym; exact Pk|]. apply in_map_iff. exists j. split; [reflexivity|apply in_seq; lia]. }
      rewrite Er in Iq. apply in_map_iff in Iq as (j' & Ej & Ij). apply in_seq in Ij. exists j'. split; [lia|].
      eapply (nth_inj _ _ (nth (face_node_id Hex8 f j) (c_points c) 0%nat)); [apply nth_error_nth'; rewrite Lc; apply Fn; [exact Hf|exact Hj]|]. rewrite <- Ej. apply nth_error_nth'. rewrite Lc. apply Fn; [exact Le|lia]. }
    pose proof (Same 0%nat ltac:(lia)) as (j0 & L0 & E0). pose proof (Same 1%nat ltac:(lia)) as (j1 & L1 & E1). pose proof (Same 2%nat ltac:(lia)) as (j2 & L2 & E2). clear - Hf Le L0 L1 L2 E0 E1 E2.
    do 6 (destruct f as [|f]; [do 6 (destruct f' as [|f']; [first [reflexivity|exfalso; clear - L0 L1 L2 E0 E1 E2;
      do 4 (try (destruct j0 as [|j0]; [try (vm_compute in E0; lia)|])); try lia; do 4 (try (destruct j1 as [|j1]; [try (vm_compute in E1; lia)|])); try lia; do 4 (try (destruct j2 as [|j2]; [try (vm_compute in E2; lia)|])); lia]|]); lia|]). lia. }
  assert (Wt : wanted false (has_face a ks)) by (exists (0%nat, f); split; [exact H0|exact Un]).
  destruct (points_and_limits Rleb shuffle shP a false ft Rleb_total Ca (or_intror Da) F) as (_ & UP & _). apply UP. right. left.
  destruct (proj2 (listed_faces_3d Rleb shuffle a false ft Ca Da Q F ks) (conj (isort_sorted_le qs) Wt)) as (fc & G). exists ks, fc. split; [exact G|].
  destruct (face_data_3d Rleb shuffle a false ft Ca Da Q F ks fc G) as (_ & cf & (Hcf & _) & EN). rewrite <- (Un _ Hcf) in EN. cbn [fst snd] in EN.
  destruct EN as (cl & Icl & _ & _ & _ & _ & M). rewrite Cells in Icl. destruct Icl as [<-|[]]. rewrite K in M. change (kind_face_nnode Hex8) with 4%nat in M.
  assert (I : In (Some p) (map Some (f_points fc))). { rewrite <- M. apply in_map_iff. exists i. split; [rewrite Ek; exact Ep|apply in_seq; lia]. }
  apply in_map_iff in I as (z & Z & I). injection Z as ->. exact I.
Qed.
Lemma single_framed : framed shuffle a.
Proof.
  intros ft F. assert (All : forall p, In p (c_points c) -> In p (ft_points ft)) by (destruct Kd as [[D K]|[D K]]; [exact (single_points_2 ft D K F)|exact (single_points_3 ft D K F)]).
  split.
  - intros j Hj. destruct (Wide j Hj) as (p & q & x & y & I & I' & R). exists p, q, x, y. split; [exact (All p I)|]. split; [exact (All q I')|exact R].
  - intros pt Ip j Hj. apply In_nth_error in Ip as (i & Ei). destruct (Used i) as (cl & Icl & Ii); [apply nth_error_Some; congruence|]. rewrite Cells in Icl. destruct Icl as [<-|[]].
    assert (Ci : coord_is a i j (nth j (pt_coords pt) 0)).
    { exists pt. split; [exact Ei|]. apply nth_error_nth'. rewrite (proj1 (proj2 Va) pt (nth_error_In _ _ Ei)). exact Hj. }
    exists i, i, (nth j (pt_coords pt) 0), (nth j (pt_coords pt) 0). split; [exact (All i Ii)|]. split; [exact (All i Ii)|]. split; [exact Ci|]. split; [exact Ci|]. lra.
Qed.
End Single.
