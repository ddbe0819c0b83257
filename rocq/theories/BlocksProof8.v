(* Collections of blocks: two blocks of which the first is not divided. *)
From Coq Require Import String Reals List Lia Lra Bool Arith ZArith Permutation Sorted.
From Verif Require Import Base BaseFacts Kind GraphModel MeshModel MeshQuerySpec TopoModel TopoSpec TopoMaps TopoProof TopoFeat3 TopoFinal GeomModel GeomSpec GeomProof GridModel GridSpec GridProof SearchModel SearchSpec SearchProof SearchProof2
  JoinModel JoinSpec JoinProof JoinProof2 JoinProof3 PropJoin ShapesModel ShapesSpec PadModel PadSpec PadProof PadProof2 PadProof3 BlockModel BlockSpec BlockProof BlockProof2 BlockProof3 BlockProof10 PropBlock StructModel StructSpec StructProof StructProof4 RingSpec RingProof2 BlocksSpec BlocksProof BlocksProof2 BlocksProof3 BlocksProof4 BlocksProof5 BlocksProof6 BlocksProof7.
Import ListNotations.
Local Open Scope list_scope.
Local Open Scope R_scope.

Lemma region_markers nd target em fm g m : region_mesh nd target em fm g m -> markers_ok m.
Proof.
  intros Rm. assert (Rg : forall c k p, In c (cells m) -> nth_error (c_points c) k = Some p -> (p < List.length (points m))%nat).
  { intros c k p Ic Ep. apply In_nth_error in Ic as (i & Ei). destruct (r_consistent _ _ _ _ _ _ Rm) as (_ & C). destruct (C i c Ei) as (_ & _ & X). apply X. eapply nth_error_In. exact Ep. }
  split.
  - intros mk p q I. apply (r_edges _ _ _ _ _ _ Rm) in I as (e & idx & c & e' & p' & q' & _ & _ & Ec & _ & X1 & X2 & _ & _ & -> & ->). apply nth_error_In in Ec.
    pose proof (Rg c _ _ Ec X1). pose proof (Rg c _ _ Ec X2). lia.
  - intros mk p q r s I. apply (r_faces _ _ _ _ _ _ Rm) in I as (f & idx & c & f' & ps & a1 & a2 & a3 & a4 & mk' & _ & _ & Ec & _ & F2 & _ & P & _ & _ & E). injection E as -> -> -> -> ->. apply nth_error_In in Ec.
    assert (A : forall x, In x [a1; a2; a3; a4] -> (x < List.length (points m))%nat).
    { intros x Ix. eapply Permutation_in in Ix; [|apply Permutation_sym; exact P]. clear - F2 Ix Ec Rg. induction F2 as [|j y l r H F IH]; [destruct Ix|]. destruct Ix as [<-|Ix]; [eapply Rg; [exact Ec|exact H]|apply IH; exact Ix]. }
    split; [apply A; cbn; tauto|]. split; [apply A; cbn; tauto|]. split; [apply A; cbn; tauto|]. exists a4. split; [reflexivity|apply A; cbn; tauto].
Qed.

Lemma two_joined shp shuffle sh nd target EM FM g1 g2 ms : any_order shp shuffle sh -> (nd = 2 /\ target = Qua4 \/ nd = 3 /\ target = Hex8)%nat ->
  Forall2 (fun g mi => region_mesh nd target (EM g) (FM g) g mi) [g1; g2] ms ->
  divs g1 = repeat 1%nat nd -> g_sides g1 = [] ->
  (forall i j, (i < kind_nnode target)%nat -> (j < kind_nnode target)%nat -> region_node nd g1 target (repeat 0%nat nd) i = region_node nd g1 target (repeat 0%nat nd) j -> i = j) ->
  (forall a, (a < nd)%nat -> exists i j, (i < kind_nnode target)%nat /\ (j < kind_nnode target)%nat /\ nth a (region_node nd g1 target (repeat 0%nat nd) i) 0 <> nth a (region_node nd g1 target (repeat 0%nat nd) j) 0) ->
  exists m, join_meshes shp shuffle sh ms = Ok m.
Proof.
  intros AO Hk F D S Inj Wide. inversion F as [|? m1 ? ms1 R1 F1]; subst. inversion F1 as [|? m2 ? ms2 R2 F2]; subst. inversion F2; subst. clear F F1 F2.
  assert (Hnd : (nd = 2 \/ nd = 3)%nat) by lia.
  assert (I0 : in_region g1 (repeat 0%nat nd)) by (unfold in_region; rewrite D; destruct Hnd as [-> | ->]; cbn; repeat constructor).
  assert (Nc : ncells g1 = 1%nat) by (unfold ncells; rewrite D; destruct Hnd as [-> | ->]; reflexivity).
  destruct (r_cells _ _ _ _ _ _ R1 _ I0) as (c & Ec & Kc & _ & Lc & Cn). pose proof (r_ncells _ _ _ _ _ _ R1) as Lcs. rewrite Nc in Lcs.
  assert (Cs : cells m1 = [c]). { destruct (cells m1) as [|c0 [|]]; try discriminate Lcs. rewrite D in Ec. destruct Hnd as [-> | ->]; cbn in Ec; congruence. }
  pose proof (r_consistent _ _ _ _ _ _ R1) as C1. pose proof (r_complete _ _ _ _ _ _ R1) as CC1. pose proof (r_ndim _ _ _ _ _ _ R1) as N1.
  assert (V1 : valid m1) by (split; [exact C1|split; [exact CC1|lia]]).
  assert (Node : forall k p, nth_error (c_points c) k = Some p -> (k < kind_nnode target)%nat /\ coords_of m1 p (region_node nd g1 target (repeat 0%nat nd) k)).
  { intros k p Ep. split; [rewrite <- Lc; apply nth_error_Some; congruence|]. destruct (Cn k p Ep) as (y & Cy & _ & Y). unfold region_at in Y. rewrite S in Y. rewrite <- Y. exact Cy. }
  assert (ND : NoDup (c_points c)).
  { apply NoDup_nth_error. intros i j Li E. destruct (nth_error (c_points c) i) as [p|] eqn:Ei; [|apply nth_error_None in Ei; lia]. symmetry in E. destruct (Node i p Ei) as (Hi & X). destruct (Node j p E) as (Hj & Y). apply Inj; [exact Hi|exact Hj|eapply coords_inj; eassumption]. }
  assert (Fr : framed shuffle m1).
  { apply (single_framed shuffle (proj1 (proj2 AO)) m1 c V1); [intros p Hp; apply (r_used _ _ _ _ _ _ R1 p Hp)|exact Cs|exact ND| |rewrite N1, Kc; lia || (destruct Hk as [[? ?]|[? ?]]; [left|right]; split; assumption)].
    intros j Hj. rewrite N1 in Hj. destruct (Wide j Hj) as (k & l & Hk' & Hl & Ne).
    destruct (nth_error (c_points c) k) as [p|] eqn:Ep; [|apply nth_error_None in Ep; lia]. destruct (nth_error (c_points c) l) as [q|] eqn:Eq; [|apply nth_error_None in Eq; lia].
    assert (Co : forall k p, nth_error (c_points c) k = Some p -> coord_is m1 p j (nth j (region_node nd g1 target (repeat 0%nat nd) k) 0)).
    { intros k0 p0 E0. destruct (Node k0 p0 E0) as (_ & (pt & Ept & Ex)). exists pt. split; [exact Ept|]. rewrite <- Ex. apply nth_error_nth'. rewrite (CC1 pt (nth_error_In _ _ Ept)), N1. exact Hj. }
    exists p, q. do 2 eexists. split; [eapply nth_error_In; exact Ep|]. split; [eapply nth_error_In; exact Eq|]. split; [exact (Co k p Ep)|]. split; [exact (Co l q Eq)|exact Ne]. }
  destruct (new_total Rleb shuffle (proj1 (proj2 AO)) m1 false C1 CC1 ltac:(lia)) as (ft & Eft). destruct (Fr ft Eft) as (F1 & F2).
  destruct (C28_total shp shuffle sh m1 m2 ft AO V1 (r_consistent _ _ _ _ _ _ R2) (r_complete _ _ _ _ _ _ R2)) as (m & E); [rewrite N1, (r_ndim _ _ _ _ _ _ R2); reflexivity|exact Eft|exact F1|exact F2|eapply region_markers; exact R2|].
  exists m. unfold join_meshes. rewrite E. reflexivity.
Qed.

Lemma euclid_zero x y : List.length x = List.length y -> GeomSpec.euclid x y <= 0 -> x = y.
Proof.
  intros L E. apply nth_ext with (d := 0) (d' := 0); [exact L|]. intros n Hn.
  assert (Hm : (n < List.length y)%nat) by (rewrite <- L; exact Hn). pose proof (coord_le_euclid x y n (nth n x 0) (nth n y 0) (nth_error_nth' _ _ Hn) (nth_error_nth' _ _ Hm)) as C. apply Rminus_diag_uniq. destruct (Req_dec (nth n x 0 - nth n y 0) 0) as [Z|Z]; [exact Z|]. apply Rabs_pos_lt in Z. lra.
Qed.
(* the mesh of one region *)
Lemma alone nd target em fm g m : region_mesh nd target em fm g m -> built nd 0 target [g] m.
Proof.
  intros Rm. split; [exact (r_ndim _ _ _ _ _ _ Rm)|]. split; [rewrite (r_ncells _ _ _ _ _ _ Rm); cbn [map fold_right]; lia|].
  intros i g' idx Eg I. destruct i as [|i]; [|destruct i; discriminate Eg]. injection Eg as <-. destruct (r_cells _ _ _ _ _ _ Rm idx I) as (c & Ec & K1 & K2 & K3 & K4). exists c. split; [exact Ec|]. split; [exact K1|]. split; [exact K2|]. split; [exact K3|].
  intros k p Ep. destruct (K4 k p Ep) as (y & Cy & Ly & Y). exists y, y. split; [exact Cy|]. split; [exact Ly|]. split; [exact Ly|]. split; [|exact Y]. cbn [Nat.eqb]. rewrite euclid_refl. lra.
Qed.

(* ---------------------------------------------------------------- witnesses *)
Ltac leq := lazymatch goal with |- _ :: _ = _ :: _ => apply f_equal2; leq | |- [] = [] => reflexivity | _ => lra end.
Definition cube_at (x0 : R) : mat := [[x0; 0; 0]; [x0 + 1; 0; 0]; [x0 + 1; 1; 0]; [x0; 1; 0]; [x0; 0; 1]; [x0 + 1; 0; 1]; [x0 + 1; 1; 1]; [x0; 1; 1]].
Lemma cube_at_det x0 d : det_center 3 (cube_at x0) d -> d = / 8.
Proof.
  intros (p & a & W & K & S & [H1 H2] & J & ->). change (bkind 3) with Hex20 in *.
  set (A := fun i j => match i, j with 0%nat, 0%nat => / 2 | 1%nat, 1%nat => / 2 | 2%nat, 2%nat => / 2 | _, _ => 0 end).
  set (b := fun i : nat => match i with 0%nat => x0 + / 2 | _ => / 2 end).
  assert (AP : affine_pad p A b).
  { intros i m Hi Hm. rewrite S in Hi. rewrite K in Hm |- *. change (m < 20)%nat in Hm. change (kind_ndim Hex20) with 3%nat.
    rewrite ref_hex20 by auto. specialize (H2 eq_refl).
    assert (C : forall q, (q < 8)%nat -> node_x p i q = nth i (nth q (cube_at x0) []) 0) by (intros q Hq; apply H1; simpl; lia).
    assert (M : forall e, (e < 12)%nat -> node_x p i (edge_node_id Hex20 e 2) = (node_x p i (edge_node_id Hex20 e 0) + node_x p i (edge_node_id Hex20 e 1)) / 2) by (intros e He; apply H2; [vm_compute; lia|exact Hi]).
    assert (V : node_x p i m = nth i (nth m (cube_at x0 ++ map (fun e => map (fun i => (nth i (nth (edge_node_id Hex20 e 0) (cube_at x0) []) 0 + nth i (nth (edge_node_id Hex20 e 1) (cube_at x0) []) 0) / 2) [0; 1; 2]%nat) (seq 0 12)) []) 0).
    { do 8 (destruct m as [|m]; [rewrite C by lia; reflexivity|]).
      do 12 (destruct m as [|m]; [match goal with |- node_x p i ?n = _ => let e := eval cbv in (n - 8)%nat in
        pose proof (M e ltac:(lia)) as X; change (edge_node_id Hex20 e 2) with n in X; rewrite X, !C by (vm_compute; lia) end; destruct i as [|[|[|i]]]; [reflexivity..|lia]|]). lia. }
    rewrite V. clear V M C H1 H2 J W. unfold A, b, sum_n. do 20 (destruct m as [|m]; [destruct i as [|[|[|i]]]; [cbn; lra..|lia]|]). lia. }
  assert (J' : jacobian_of p (repeat 0 3) A) by (apply (affine_jacobian p A b); auto; rewrite K; reflexivity).
  transitivity (det 3 A); [|unfold A; cbn; lra]. apply det_ext. intros i j Hi Hj. apply (jacobian_unique p (repeat 0 3)); auto; rewrite ?S, ?K; auto.
Qed.

Definition two_squares : blocks2d :=
  mkBlocks2d [(0, 0); (1, 0); (1, 1); (0, 1); (2, 0); (2, 1)] [(7%Z, 0, 1, 2, 3); (8%Z, 1, 4, 5, 2)]%nat
    [([1], [1]); ([1; 1], [1])] [None; None] [((-1)%Z, 1, 2); ((-4)%Z, 2, 1); ((-2)%Z, 0, 1)]%nat.
Definition square_1 : region := mkRegion 7%Z [0; 1; 2; 3]%nat [[0; 0]; [1; 0]; [1; 1]; [0; 1]] [[1]; [1]] [].
Definition square_2 : region := mkRegion 8%Z [1; 4; 5; 2]%nat [[1; 0]; [2; 0]; [2; 1]; [1; 1]] [[1; 1]; [1]] [].
Lemma two_squares_regions : regions_2d two_squares = [square_1; square_2]. Proof. reflexivity. Qed.
Lemma two_squares_well : well_2d two_squares.
Proof.
  split; [cbn; lia|]. split; [cbn; lia|]. rewrite two_squares_regions. intros g [<-|[<-|[]]]; (split; [intros p Ip; cbn in Ip; cbn; lia|]); (split; [intros w Iw; cbn in Iw; destruct Iw as [<-|[<-|[]]]; cbn; lra|]); intros e P X; destruct X.
Qed.
Lemma tol_small n : (n = 2 \/ n = 3)%nat -> 0 < tolR n < / 1000.
Proof.
  intros H. unfold tolR. assert (B : 0 < sqrt (INR n) <= 2). { split; [apply sqrt_lt_R0; destruct H as [-> | ->]; cbn; lra|]. rewrite <- (sqrt_Rsqr 2) by lra. apply sqrt_le_1_alt. unfold Rsqr. destruct H as [-> | ->]; cbn; lra. } lra.
Qed.
Lemma two_squares_fine : regions_fine (tolR 2) Qua4 (regions_2d two_squares).
Proof.
  pose proof (tol_small 2 ltac:(lia)) as T. rewrite two_squares_regions. intros g w [<-|[<-|[]]] Iw; cbn in Iw; destruct Iw as [<-|[<-|[]]]; intros v Iv; cbn in Iv; change (INR (per Qua4)) with 1; cbn [sum].
  all: repeat (destruct Iv as [<-|Iv]; [lra|]); destruct Iv.
Qed.
Lemma square_not_flat zdet g : zdet < / 4 -> In g (regions_2d two_squares) -> not_flat zdet 2 g.
Proof.
  intros Hz I d D. rewrite two_squares_regions in I. assert (X : exists x0, g_nodes g = box_2d x0 0 1 1).
  { destruct I as [<-|[<-|[]]]; [exists 0|exists 1]; unfold box_2d, square_1, square_2; cbn [g_nodes]; leq. }
  destruct X as (x0 & E). rewrite E in D. apply box_2d_det in D. lra.
Qed.
Lemma square_nodes k : (k < 4)%nat -> region_node 2 square_1 Qua4 [0; 0]%nat k = nth k [[0; 0]; [1; 0]; [1; 1]; [0; 1]] [].
Proof.
  intros Hk. unfold region_node, region_map, spread, blend, region_ksi. cbn [g_weights g_nodes square_1 List.length seq map linear_kind corners Nat.eqb].
  do 4 (destruct k as [|k]; [rewrite !ref_qua4 by lia; unfold cut, stretch; cbn; leq|]). lia.
Qed.

Lemma two_squares_done zdet shp shuffle sh shc : 0 <= zdet < / 4 -> any_order shp shuffle sh -> (forall l, Permutation (shc l) l) ->
  exists m, from_blocks_2d zdet shp shuffle sh shc two_squares Qua4 false = Ok m.
Proof.
  intros Hz AO P2. destruct (meshes_2d zdet sh shc two_squares Qua4) as (ms & E); [apply Hz|apply AO|exact P2|exact two_squares_well|reflexivity|exact two_squares_fine| |].
  { intros g I. split; [rewrite two_squares_regions in I; destruct I as [<-|[<-|[]]]; intros idx k s c _ _ []|apply square_not_flat; [apply Hz|exact I]]. }
  destruct (meshed_all zdet shp shuffle sh shc (proj1 Hz) AO P2 Qua4 2 (block_2d zdet two_squares) (region_2d two_squares) (fun g => marks_edge 2 (k2_medges two_squares) g) (fun _ _ _ => False) (List.length (k2_regions two_squares)) ms) as (_ & F);
    [exact two_squares_fine| |exact E|].
  { intros i b Eb. apply region_block_2d in Eb as (_ & _ & _ & _ & _ & X); [exact X|apply Hz]. }
  destruct (two_joined shp shuffle sh 2 Qua4 _ _ square_1 square_2 ms AO ltac:(lia || (left; split; reflexivity)) F eq_refl eq_refl) as (m & Em).
  - intros i j Hi Hj. change (kind_nnode Qua4) with 4%nat in *. rewrite !square_nodes by assumption. intros X. do 4 (destruct i as [|i]; [do 4 (destruct j as [|j]; [first [reflexivity|exfalso; cbn in X; injection X; intros; lra]|]); lia|]). lia.
  - intros a Ha. exists 0%nat, 2%nat. change (kind_nnode Qua4) with 4%nat. split; [lia|]. split; [lia|]. rewrite !square_nodes by lia. destruct a as [|[|a]]; [cbn; lra|cbn; lra|lia].
  - exists m. unfold from_blocks_2d. rewrite E. cbn [bind]. rewrite Em. reflexivity.
Qed.

Definition two_cubes : blocks3d :=
  mkBlocks3d [(0, 0, 0); (1, 0, 0); (1, 1, 0); (0, 1, 0); (0, 0, 1); (1, 0, 1); (1, 1, 1); (0, 1, 1); (2, 0, 0); (2, 1, 0); (2, 0, 1); (2, 1, 1)]
    [(7%Z, (0, 1, 2, 3), (4, 5, 6, 7)); (8%Z, (1, 8, 9, 2), (5, 10, 11, 6))]%nat
    [([1], [1], [1]); ([1; 1], [1], [1])] [None; None] [((-1)%Z, 1, 2); ((-4)%Z, 2, 1); ((-2)%Z, 0, 1)]%nat [((-9)%Z, 1, 5, 6, 2); ((-10)%Z, 0, 1, 2, 3)]%nat.
Definition cube_1 : region := mkRegion 7%Z [0; 1; 2; 3; 4; 5; 6; 7]%nat [[0; 0; 0]; [1; 0; 0]; [1; 1; 0]; [0; 1; 0]; [0; 0; 1]; [1; 0; 1]; [1; 1; 1]; [0; 1; 1]] [[1]; [1]; [1]] [].
Definition cube_2 : region := mkRegion 8%Z [1; 8; 9; 2; 5; 10; 11; 6]%nat [[1; 0; 0]; [2; 0; 0]; [2; 1; 0]; [1; 1; 0]; [1; 0; 1]; [2; 0; 1]; [2; 1; 1]; [1; 1; 1]] [[1; 1]; [1]; [1]] [].
Lemma two_cubes_regions : regions_3d two_cubes = [cube_1; cube_2]. Proof. reflexivity. Qed.
Lemma two_cubes_well : well_3d two_cubes.
Proof.
  split; [cbn; lia|]. split; [cbn; lia|]. rewrite two_cubes_regions. intros g [<-|[<-|[]]]; (split; [intros p Ip; cbn in Ip; cbn; lia|]); (split; [intros w Iw; cbn in Iw; destruct Iw as [<-|[<-|[<-|[]]]]; cbn; lra|]); intros e P X; destruct X.
Qed.
Lemma two_cubes_fine : regions_fine (tolR 3) Hex8 (regions_3d two_cubes).
Proof.
  pose proof (tol_small 3 ltac:(lia)) as T. rewrite two_cubes_regions. intros g w [<-|[<-|[]]] Iw; cbn in Iw; destruct Iw as [<-|[<-|[<-|[]]]]; intros v Iv; cbn in Iv; change (INR (per Hex8)) with 1; cbn [sum].
  all: repeat (destruct Iv as [<-|Iv]; [lra|]); destruct Iv.
Qed.
Lemma cube_not_flat zdet g : zdet < / 8 -> In g (regions_3d two_cubes) -> not_flat zdet 3 g.
Proof.
  intros Hz I d D. rewrite two_cubes_regions in I. assert (X : exists x0, g_nodes g = cube_at x0).
  { destruct I as [<-|[<-|[]]]; [exists 0|exists 1]; unfold cube_at, cube_1, cube_2; cbn [g_nodes]; leq. }
  destruct X as (x0 & E). rewrite E in D. apply cube_at_det in D. lra.
Qed.
Lemma cube_1_nodes k : (k < 8)%nat -> region_node 3 cube_1 Hex8 [0; 0; 0]%nat k = nth k (g_nodes cube_1) [].
Proof.
  intros Hk. assert (K : region_ksi cube_1 Hex8 [0; 0; 0]%nat k = ref_coords Hex8 k).
  { unfold region_ksi. cbn [g_weights cube_1 List.length seq map]. rewrite ref_hex8 by exact Hk. do 8 (destruct k as [|k]; [unfold cut, stretch; cbn; leq|]). lia. }
  unfold region_node, region_map, spread, blend. rewrite K. clear K. cbn [g_nodes cube_1 List.length seq map linear_kind corners Nat.eqb].
  do 8 (destruct k as [|k]; [rewrite !ref_hex8 by lia; cbn; leq|]). lia.
Qed.
Lemma two_cubes_done zdet shp shuffle sh shc : 0 <= zdet < / 8 -> any_order shp shuffle sh -> (forall l, Permutation (shc l) l) ->
  exists m, from_blocks_3d zdet shp shuffle sh shc two_cubes Hex8 false = Ok m.
Proof.
  intros Hz AO P2. destruct (meshes_3d zdet sh shc two_cubes Hex8) as (ms & E); [apply Hz|apply AO|exact P2|exact two_cubes_well|reflexivity|exact two_cubes_fine| |].
  { intros g I. split; [rewrite two_cubes_regions in I; destruct I as [<-|[<-|[]]]; intros idx k s c _ _ []|apply cube_not_flat; [apply Hz|exact I]]. }
  destruct (meshed_all zdet shp shuffle sh shc (proj1 Hz) AO P2 Hex8 3 (block_3d zdet two_cubes) (region_3d two_cubes) (fun g => marks_edge 3 (k3_medges two_cubes) g) (fun g => marks_face (k3_mfaces two_cubes) g) (List.length (k3_regions two_cubes)) ms) as (_ & F);
    [exact two_cubes_fine| |exact E|].
  { intros i b Eb. apply region_block_3d in Eb as (_ & _ & _ & _ & _ & X); [exact X|apply Hz]. }
  destruct (two_joined shp shuffle sh 3 Hex8 _ _ cube_1 cube_2 ms AO ltac:(right; split; reflexivity) F eq_refl eq_refl) as (m & Em).
  - intros i j Hi Hj. change (kind_nnode Hex8) with 8%nat in *. rewrite !cube_1_nodes by assumption. intros X. do 8 (destruct i as [|i]; [do 8 (destruct j as [|j]; [first [reflexivity|exfalso; cbn in X; injection X; intros; lra]|]); lia|]). lia.
  - intros a Ha. exists 0%nat, 6%nat. change (kind_nnode Hex8) with 8%nat. split; [lia|]. split; [lia|]. rewrite !cube_1_nodes by lia. destruct a as [|[|[|a]]]; [cbn; lra|cbn; lra|cbn; lra|lia].
  - exists m. unfold from_blocks_3d. rewrite E. cbn [bind]. rewrite Em. reflexivity.
Qed.

Lemma square_side k : (1 <= k < 3)%nat -> on_block_edge 2 1 (region_ksi square_1 Qua4 [0; 0]%nat k).
Proof.
  intros Hk a v Ha H. change (kind_ndim (bkind 2)) with 2%nat in Ha. change (bkind 2) with Qua8 in *. change (edge_node_id Qua8 1 0) with 2%nat in H. change (edge_node_id Qua8 1 1) with 1%nat in H.
  pose proof (H 1%nat ltac:(cbn; tauto)) as H1. pose proof (H 2%nat ltac:(cbn; tauto)) as H2. rewrite ref_coords_qua8 in H1, H2 by lia. unfold region_ksi. cbn [g_weights square_1 List.length seq map].
  rewrite ref_qua4 by lia. destruct k as [|[|[|k]]]; try lia; destruct a as [|[|a]]; try lia; cbn in H1, H2; unfold cut, stretch; cbn; lra.
Qed.

(* ---- a single block ---- *)
Definition one_square : blocks2d := mkBlocks2d [(0, 0); (1, 0); (1, 1); (0, 1)] [(7%Z, 0, 1, 2, 3)]%nat [([], [])] [None] [].
Lemma one_square_regions : regions_2d one_square = [mkRegion 7%Z [0; 1; 2; 3]%nat [[0; 0]; [1; 0]; [1; 1]; [0; 1]] [[1; 1]; [1; 1]] []].
Proof. reflexivity. Qed.
Lemma one_square_well : well_2d one_square.
Proof. split; [cbn; lia|]. split; [cbn; lia|]. rewrite one_square_regions. intros g [<-|[]]. split; [intros p Ip; cbn in Ip; cbn; lia|]. split; [intros w Iw; cbn in Iw; destruct Iw as [<-|[<-|[]]]; cbn; lra|intros e P X; destruct X]. Qed.
Lemma one_square_fine : regions_fine (tolR 2) Qua4 (regions_2d one_square).
Proof.
  pose proof (tol_small 2 ltac:(lia)) as T. 
  rewrite one_square_regions. intros g w [<-|[]] Iw; cbn in Iw; destruct Iw as [<-|[<-|[]]]; intros v Iv; cbn in Iv; change (INR (per Qua4)) with 1; cbn [sum]; repeat (destruct Iv as [<-|Iv]; [lra|]); destruct Iv. 
Qed.
Lemma one_square_det g : In g (regions_2d one_square) -> g_sides g = [] /\ forall d, det_center 2 (g_nodes g) d -> d = / 4.
Proof.
  rewrite one_square_regions. intros [<-|[]]. split; [reflexivity|]. cbn [g_nodes]. intros d D. replace [[0; 0]; [1; 0]; [1; 1]; [0; 1]] with (box_2d 0 0 1 1) in D by (unfold box_2d; leq). apply box_2d_det in D. lra. 
Qed.
Lemma few_2d zdet shp shuffle sh shc bl target renumber m : (List.length (k2_regions bl) <= 1)%nat -> from_blocks_2d zdet shp shuffle sh shc bl target renumber <> Ok m.
Proof.
  intros L H. unfold from_blocks_2d in H. apply bind_ok in H as (ms & H1 & H). apply bind_ok in H as (m' & H2 & H3). apply mapM_length in H1. rewrite seq_length in H1. 
  destruct (C28_few shp shuffle sh ms) as (e & E); [lia|]. rewrite E in H2. discriminate H2.
Qed.
