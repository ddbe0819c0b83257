(* Properties C45-C47, C54, C61, C62: structured meshes from a block. *)
From Coq Require Import String Reals List Lia Lra Bool Arith ZArith Permutation.
From Verif Require Import Base BaseFacts TopoMaps Kind MeshModel MeshQuerySpec TopoModel GridModel GeomModel GeomProof ShapesModel ShapesSpec PadModel PadSpec
  BlockModel BlockSpec BlockProof BlockProof2 BlockProof3 BlockProof4 BlockProof8 BlockProof9 BlockProof10.
Import ListNotations.
Local Open Scope list_scope.
Local Open Scope R_scope.

Ltac open_sub H :=
  let Z := fresh "Z" in let P := fresh "P" in let Q := fresh "Q" in let M := fresh "M" in let Ft := fresh "Ft" in
  let Sp := fresh "Sp" in let Run := fresh "Run" in let W := fresh "W" in let F := fresh "F" in
  destruct H as (Z & P & Q & M & Ft & Sp & Run);
  pose proof (made_wf _ _ Z M) as W; pose proof (proj1 (fits_in _ _ (w_nd _ W)) Ft) as F.

(** C45: the mesh is consistent and has the dimension of the block *)
Theorem C45_consistent : forall zdet sh shc b target msh, subdivided zdet sh shc b target msh ->
  consistent msh /\ coords_complete msh /\ ndim msh = b_ndim b /\ forall p, In p (points msh) -> pt_marker p = 0%Z.
Proof.
  intros zdet sh shc b target msh H. open_sub H. destruct (mesh_consistent b target sh shc P Q W F Sp msh Run) as (A & B & C).
  split; [exact A|]. split; [exact B|]. split; [exact C|]. intros p. exact (mesh_markers b target sh shc P Q W F Sp msh Run p).
Qed.
Print Assumptions C45_consistent.

(** there is one cell for each index, in the order in which the first direction runs fastest *)
Theorem C45_cells : forall zdet sh shc b target msh, subdivided zdet sh shc b target msh ->
  List.length (cells msh) = fold_right Nat.mul 1%nat (b_ndiv b) /\
  (forall idx, valid_index b idx -> exists c, nth_error (cells msh) (rank (b_ndiv b) idx) = Some c /\
     c_kind c = target /\ c_marker c = b_marker b /\ List.length (c_points c) = kind_nnode target) /\
  (forall i, (i < List.length (cells msh))%nat -> exists idx, valid_index b idx /\ rank (b_ndiv b) idx = i).
Proof.
  intros zdet sh shc b target msh H. open_sub H. split; [exact (mesh_ncells b target sh shc P Q W F Sp msh Run)|].
  split; [exact (mesh_cell b target sh shc P Q W F Sp msh Run)|exact (mesh_cell_index b target sh shc P Q W F Sp msh Run)].
Qed.
Print Assumptions C45_cells.

(** every node of every cell is a point of the mesh, every point of the mesh is a node of a cell *)
Theorem C45_nodes : forall zdet sh shc b target msh, subdivided zdet sh shc b target msh ->
  (forall idx m, valid_index b idx -> (m < kind_nnode target)%nat ->
     exists p, point_at b msh idx m p /\ (p < List.length (points msh))%nat) /\
  (forall p, (p < List.length (points msh))%nat ->
     exists idx m, valid_index b idx /\ (m < kind_nnode target)%nat /\ point_at b msh idx m p).
Proof.
  intros zdet sh shc b target msh H. open_sub H. split; [exact (mesh_point_at b target sh shc P Q W F Sp msh Run)|exact (mesh_no_orphan b target sh shc P Q W F Sp msh Run)].
Qed.
Print Assumptions C45_nodes.

(** two nodes are the same point exactly when they are the same node of the structured lattice *)
Theorem C45_conforming : forall zdet sh shc b target msh idx m p idx' m' p', subdivided zdet sh shc b target msh ->
  valid_index b idx -> valid_index b idx' -> (m < kind_nnode target)%nat -> (m' < kind_nnode target)%nat ->
  point_at b msh idx m p -> point_at b msh idx' m' p' ->
  (p = p' <-> lattice target idx m = lattice target idx' m').
Proof.
  intros zdet sh shc b target msh idx m p idx' m' p' H. open_sub H. exact (mesh_shared b target sh shc P Q W F Sp msh Run idx m p idx' m' p').
Qed.
Print Assumptions C45_conforming.

(** without constraints, the nodes are the images of the nodes of the lattice under the map of the block *)
Theorem C45_positions : forall zdet sh shc b target msh idx m p, subdivided zdet sh shc b target msh ->
  has_constraints b = false -> valid_index b idx -> (m < kind_nnode target)%nat -> point_at b msh idx m p ->
  coords_of msh p (block_map b (node_ksi b target idx m)).
Proof.
  intros zdet sh shc b target msh idx m p H. open_sub H. exact (mesh_positions b target sh shc P Q W F Sp msh Run idx m p).
Qed.
Print Assumptions C45_positions.

(** which are inside of the reference cell of the block *)
Theorem C45_inside : forall zdet b target idx m a, 0 <= zdet -> made zdet b -> fits b target -> spaced b target ->
  valid_index b idx -> (m < kind_nnode target)%nat -> (a < b_ndim b)%nat -> -1 <= nth a (node_ksi b target idx m) 0 <= 1.
Proof.
  intros zdet b target idx m a Z M Ft Sp. pose proof (made_wf _ _ Z M) as W. pose proof (proj1 (fits_in _ _ (w_nd _ W)) Ft) as F.
  exact (ksi_box b target W F Sp idx m a).
Qed.
Print Assumptions C45_inside.

(** without constraints the function succeeds whenever all the divisions have positive width *)
Theorem C45_total : forall zdet sh shc b target, 0 <= zdet -> (forall c, Permutation (sh c) c) ->
  made zdet b -> fits b target -> has_constraints b = false ->
  (forall a d, (a < b_ndim b)%nat -> In d (widths b a) -> 0 < d) -> exists msh, subdivide sh shc b target = Ok msh.
Proof.
  intros zdet sh shc b target Z P M Ft N Po. pose proof (made_wf _ _ Z M) as W. pose proof (proj1 (fits_in _ _ (w_nd _ W)) Ft) as F.
  exact (subdivide_plain b target sh shc P W F Po N).
Qed.
Print Assumptions C45_total.

(** kinds of another class are rejected *)
Theorem C45_wrong_class : forall zdet sh shc b target, 0 <= zdet -> made zdet b -> ~ fits b target ->
  exists msg, subdivide sh shc b target = Err msg.
Proof.
  intros zdet sh shc b target Z M N. pose proof (w_nd _ (made_wf _ _ Z M)) as [E|E]; unfold fits in N; rewrite E in N; cbn [Nat.eqb] in N;
    unfold subdivide; rewrite E; cbn [Nat.eqb andb negb]; destruct target; try (exfalso; apply N; reflexivity); eexists; reflexivity.
Qed.
Print Assumptions C45_wrong_class.

Example C45_ex : forall sh shc target, (forall c, Permutation (sh c) c) -> (forall l, Permutation (shc l) l) -> kind_class target = CQua ->
  exists b msh, block_new (/ 100) 2 (box_2d 0 0 1 1) = Ok b /\ b_ndiv b = [2; 2]%nat /\ subdivided (/ 100) sh shc b target msh /\
    has_constraints b = false /\ valid_index b [1; 1]%nat /\ lattice Qua8 [0; 1]%nat 1 = lattice Qua8 [1; 0]%nat 3 /\ lattice Qua8 [0; 0]%nat 5 = lattice Qua8 [1; 0]%nat 7.
Proof.
  intros sh shc target P Q Ft. destruct (plain_witness (/ 100) ltac:(lra)) as (b & E & N & D & R & C & S).
  assert (Ft' : fits b target) by (unfold fits; rewrite N; exact Ft).
  destruct (C45_total (/ 100) sh shc b target) as (msh & Run); [lra|auto|eapply made_new; exact E|auto|auto| |].
  { intros a d Ha Hd. specialize (S target Ft' a d Ha Hd). assert (W : wf_block b) by (eapply made_wf; [|eapply made_new; exact E]; lra).
    pose proof (tol_pos b W). pose proof (pos_INR (per target)). assert (0 <= INR (per target) * tol b) by (apply Rmult_le_pos; lra). lra. }
  exists b, msh. split; [exact E|]. split; [exact D|]. split.
  { split; [lra|]. split; [exact P|]. split; [exact Q|]. split; [eapply made_new; exact E|]. split; [exact Ft'|]. split; [apply S; exact Ft'|exact Run]. }
  split; [exact C|]. split.
  { split; [rewrite N; reflexivity|]. intros a Ha. rewrite N in Ha. unfold ndivs. rewrite D. destruct a as [|[|a]]; [cbn; lia|cbn; lia|lia]. }
  split; reflexivity.
Qed.

(** Divisions narrower than the tolerance of the search are accepted, and then distinct nodes of a
    cell are merged: the first two nodes of the first cell are the same point. *)
Theorem C45_merge_refuted : forall zdet sh shc, 0 <= zdet < / 4 -> (forall c, Permutation (sh c) c) ->
  exists b b' msh c, block_new zdet 2 (box_2d 0 0 1 1) = Ok b /\ set_div_weights_2d b [/ 100000; 1] [1] = (Ok tt, b') /\
    subdivide sh shc b' Qua4 = Ok msh /\ nth_error (cells msh) 0 = Some c /\ nth_error (c_points c) 0 = Some 0%nat /\ nth_error (c_points c) 1 = Some 0%nat.
Proof. exact merge_witness. Qed.
Print Assumptions C45_merge_refuted.

(** C46: the corner nodes (all nodes if there are no constraints) are on the ring *)
Theorem C46_ring : forall zdet sh shc b target msh idx m p, subdivided zdet sh shc b target msh -> b_ring b = true ->
  0 <= rmin (b_args b) -> valid_index b idx -> (m < kind_nnode target)%nat ->
  (has_constraints b = false \/ (per target = 1 \/ m < corners (b_ndim b))%nat) -> point_at b msh idx m p ->
  exists x, coords_of msh p x /\ 0 <= nth 0 x 0 /\ 0 <= nth 1 x 0 /\
    rmin (b_args b) <= dist2 (nth 0 x 0) (nth 1 x 0) <= rmax (b_args b) /\
    (b_ndim b = 3%nat -> zmin (b_args b) <= nth 2 x 0 <= zmax (b_args b)).
Proof.
  intros zdet sh shc b target msh idx m p H R Rm V Hm C HP. open_sub H.
  assert (X : coords_of msh p (block_map b (node_ksi b target idx m))).
  { destruct C as [C|C]; [exact (mesh_positions b target sh shc P Q W F Sp msh Run idx m p C V Hm HP)|].
    exact (mesh_unmoved b target sh shc P Q W F Sp msh Run idx m p V Hm HP C (or_introl R)). }
  pose proof (ksi_box b target W F Sp idx m) as B. pose proof (w_nd b W) as N.
  assert (Nth : forall i, (i < b_ndim b)%nat -> nth i (block_map b (node_ksi b target idx m)) 0 = ring_point (b_args b) (node_ksi b target idx m) i).
  { intros i Hi. unfold block_map. rewrite R. rewrite nth_indep with (d' := ring_point (b_args b) (node_ksi b target idx m) 0) by (rewrite map_length, seq_length; auto).
    rewrite map_nth, seq_nth by auto. reflexivity. }
  eexists. split; [exact X|]. rewrite !Nth by lia.
  destruct (ring_bounds (b_args b) (node_ksi b target idx m) (w_ring b W) Rm) as (X0 & X1 & X2); [intros i Hi; apply B; auto; lia|].
  split; [exact X0|]. split; [exact X1|]. split; [exact X2|]. intros E. rewrite Nth by lia. apply ring_z; [apply (w_ring b W)|apply B; auto; lia].
Qed.
Print Assumptions C46_ring.

(** their polar coordinates are the linear images of the first two reference coordinates *)
Theorem C46_map : forall zdet sh shc b target msh idx m p, subdivided zdet sh shc b target msh -> b_ring b = true ->
  valid_index b idx -> (m < kind_nnode target)%nat -> (has_constraints b = false \/ (per target = 1 \/ m < corners (b_ndim b))%nat) -> point_at b msh idx m p ->
  coords_of msh p (map (ring_point (b_args b) (node_ksi b target idx m)) (seq 0 (b_ndim b))).
Proof.
  intros zdet sh shc b target msh idx m p H R V Hm C HP. open_sub H.
  assert (E : block_map b (node_ksi b target idx m) = map (ring_point (b_args b) (node_ksi b target idx m)) (seq 0 (b_ndim b))) by (unfold block_map; rewrite R; reflexivity).
  rewrite <- E. destruct C as [C|C]; [exact (mesh_positions b target sh shc P Q W F Sp msh Run idx m p C V Hm HP)|].
  exact (mesh_unmoved b target sh shc P Q W F Sp msh Run idx m p V Hm HP C (or_introl R)).
Qed.
Print Assumptions C46_map.

(** the corners of the block go to the corners of the ring *)
Theorem C46_corners : forall a ksi r t,
  (nth 0 ksi 0 = -1 /\ r = rmin a \/ nth 0 ksi 0 = 1 /\ r = rmax a) ->
  (nth 1 ksi 0 = -1 /\ t = amin a \/ nth 1 ksi 0 = 1 /\ t = amax a) ->
  ring_point a ksi 0 = r * cos t /\ ring_point a ksi 1 = r * sin t.
Proof. exact ring_corner. Qed.
Print Assumptions C46_corners.

(** the transformation is accepted exactly for angles 0 <= amin < amax <= pi/2, rmin < rmax, zmin < zmax,
    and then it is what the block uses; a failed call changes nothing *)
Theorem C46_setter : forall b a,
  (good_ring a -> exists b', set_transform_into_ring b (Some a) = (Ok tt, b') /\ b_ring b' = true /\ b_args b' = a /\ b_ndim b' = b_ndim b /\ b_ndiv b' = b_ndiv b /\ b_delta b' = b_delta b /\ b_ec b' = b_ec b /\ b_fc b' = b_fc b /\ b_pad b' = b_pad b) /\
  (~ good_ring a -> exists msg, set_transform_into_ring b (Some a) = (Err msg, b)) /\
  exists b', set_transform_into_ring b None = (Ok tt, b') /\ b_ring b' = false.
Proof.
  intros b a. destruct (ring_cases b a) as [[G E]|[G (msg & E)]]; cbv zeta in E; rewrite E.
  - split; [intros _; eexists; split; [reflexivity|]; repeat split|]. split; [intros N; exfalso; auto|]. eexists. split; reflexivity.
  - split; [intros Y; exfalso; auto|]. split; [intros _; eauto|]. eexists. split; reflexivity.
Qed.
Print Assumptions C46_setter.

Lemma ring_example zdet sh shc a : 0 <= zdet < / 4 -> (forall c, Permutation (sh c) c) -> (forall l, Permutation (shc l) l) -> good_ring a ->
  exists b0 b msh, block_new zdet 2 (box_2d 0 0 1 1) = Ok b0 /\ set_transform_into_ring b0 (Some a) = (Ok tt, b) /\ b_args b = a /\ b_ring b = true /\ b_ndim b = 2%nat /\
    subdivided zdet sh shc b Qua9 msh /\ has_constraints b = false /\ valid_index b [0; 0]%nat /\ node_ksi b Qua9 [0; 0]%nat 0 = [-1; -1].
Proof.
  intros Hz P Q G. destruct (plain_witness zdet Hz) as (b0 & E & N & D & R & C & S).
  destruct (box_2d_ok zdet 0 0 1 1 ltac:(lra) ltac:(lra)) as (p & E' & _). rewrite E in E'. injection E' as ->.
  destruct (C46_setter (mkBlock MARKER 2 [2; 2]%nat [[1; 1]; [1; 1]] [] [] [] [] p (mkRing 0 (PI / 2) 1 2 0 1) false) a) as (Y & _ & _). destruct (Y G) as (b & Eb & _).
  pose proof (ring_cases (mkBlock MARKER 2 [2; 2]%nat [[1; 1]; [1; 1]] [] [] [] [] p (mkRing 0 (PI / 2) 1 2 0 1) false) a) as Rc. cbv zeta in Rc. rewrite Eb in Rc.
  destruct Rc as [[_ Rc]|[Rc _]]; [|exfalso; auto]. injection Rc as ->.
  assert (M : made zdet (with_ring (mkBlock MARKER 2 [2; 2]%nat [[1; 1]; [1; 1]] [] [] [] [] p (mkRing 0 (PI / 2) 1 2 0 1) false) a true)).
  { match goal with |- made _ ?x => replace x with (snd (set_transform_into_ring (mkBlock MARKER 2 [2; 2]%nat [[1; 1]; [1; 1]] [] [] [] [] p (mkRing 0 (PI / 2) 1 2 0 1) false) (Some a))) by (rewrite Eb; reflexivity) end.
    apply made_ring. eapply made_new. exact E. }
  set (b := with_ring _ _ _) in *.
  assert (Ft : fits b Qua9) by reflexivity.
  assert (Sp : spaced b Qua9) by (intros x d Hx Hd; exact (S Qua9 eq_refl x d Hx Hd)).
  assert (W : wf_block b) by (apply (made_wf zdet); [lra|exact M]).
  destruct (mesh_total b Qua9 sh shc P Q W (proj1 (fits_in b Qua9 (w_nd b W)) Ft) Sp (or_introl eq_refl)) as (msh & Run).
  eexists _, b, msh. split; [exact E|]. split; [exact Eb|]. do 3 (split; [reflexivity|]). split.
  { split; [lra|]. split; [exact P|]. split; [exact Q|]. split; [exact M|]. split; [exact Ft|]. split; [exact Sp|exact Run]. }
  split; [reflexivity|]. split.
  { split; [reflexivity|]. intros i Hi. destruct i as [|[|i]]; [cbn; lia|cbn; lia|cbn in Hi; lia]. }
  unfold node_ksi. change (seq 0 (b_ndim b)) with [0; 1]%nat. cbn [map]. unfold line. change (widths b 0) with [1; 1]. change (widths b 1) with [1; 1].
  assert (R0 : ref_coords Qua9 0 = [-1; -1]) by (unfold ref_coords; cbn; unfold Q2R; cbn; repeat (apply f_equal2; [lra|]); reflexivity).
  rewrite R0. cbn [nth firstn sum]. repeat (apply f_equal2; [lra|]). reflexivity.
Qed.
Example C46_ex : forall sh shc, (forall c, Permutation (sh c) c) -> (forall l, Permutation (shc l) l) ->
  exists b msh, subdivided (/ 100) sh shc b Qua9 msh /\ b_ring b = true /\ 0 <= rmin (b_args b) /\ has_constraints b = false /\ valid_index b [0; 0]%nat.
Proof.
  intros sh shc P Q. destruct (ring_example (/ 100) sh shc (mkRing 0 (PI / 2) 1 2 0 1) ltac:(lra) P Q) as (b0 & b & msh & _ & _ & A & R & _ & S & C & V & _).
  { split; [cbn; pose proof PI_RGT_0; lra|]. split; [cbn; lra|]. split; cbn; lra. }
  exists b, msh. rewrite A. cbn. repeat (split; [first [exact S|exact R|exact C|lra]|]). exact V.
Qed.

(** The radii are not required to be positive; with negative ones the points are on the other side. *)
Theorem C46_negative_radius_refuted : forall zdet sh shc, 0 <= zdet < / 4 -> (forall c, Permutation (sh c) c) -> (forall l, Permutation (shc l) l) ->
  exists b0 b msh p, block_new zdet 2 (box_2d 0 0 1 1) = Ok b0 /\ set_transform_into_ring b0 (Some (mkRing 0 (PI / 2) (-2) (-1) 0 1)) = (Ok tt, b) /\
    subdivided zdet sh shc b Qua9 msh /\ coords_of msh p [-2; 0].
Proof.
  intros zdet sh shc Hz P Q. destruct (ring_example zdet sh shc (mkRing 0 (PI / 2) (-2) (-1) 0 1) Hz P Q) as (b0 & b & msh & E0 & E & A & R & N & S & C & V & K).
  { split; [cbn; pose proof PI_RGT_0; lra|]. split; [cbn; lra|]. split; cbn; lra. }
  destruct (C45_nodes zdet sh shc b Qua9 msh S) as [X _]. destruct (X [0; 0]%nat 0%nat V ltac:(vm_compute; lia)) as (p & HP & _).
  pose proof (C46_map zdet sh shc b Qua9 msh [0; 0]%nat 0%nat p S R V ltac:(vm_compute; lia) (or_introl C) HP) as Y.
  exists b0, b, msh, p. split; [exact E0|]. split; [exact E|]. split; [exact S|].
  rewrite N, A, K in Y. cbn [seq map ring_point nth amin amax rmin rmax] in Y.
  replace [-2; 0] with [((1 - -1) / 2 * -2 + (1 + -1) / 2 * -1) * cos ((1 - -1) / 2 * 0 + (1 + -1) / 2 * (PI / 2)); ((1 - -1) / 2 * -2 + (1 + -1) / 2 * -1) * sin ((1 - -1) / 2 * 0 + (1 + -1) / 2 * (PI / 2))]; [exact Y|].
  replace ((1 - -1) / 2 * 0 + (1 + -1) / 2 * (PI / 2)) with 0 by lra. rewrite cos_0, sin_0. apply f_equal2; [lra|]. apply f_equal2; [lra|reflexivity].
Qed.
Print Assumptions C46_negative_radius_refuted.

(** C47: nodes of a constrained side are moved along the ray from the centre to the circle (cylinder): all of them if no two
    adjacent sides are constrained, otherwise the corner nodes that are on this side only *)
Theorem C47_on_constraint : forall zdet sh shc b target msh idx m p s, subdivided zdet sh shc b target msh ->
  b_ring b = false -> valid_index b idx -> (m < kind_nnode target)%nat -> point_at b msh idx m p ->
  (s < nsides (b_ndim b))%nat -> constrained b s -> at_side (b_ndim b) s (node_ksi b target idx m) ->
  (apart b \/ (per target = 1 \/ m < corners (b_ndim b))%nat /\
     forall s', (s' < nsides (b_ndim b))%nat -> constrained b s' -> at_side (b_ndim b) s' (node_ksi b target idx m) -> s' = s) ->
  exists x, coords_of msh p x /\ meets b s x /\ projects b s (block_map b (node_ksi b target idx m)) x.
Proof.
  intros zdet sh shc b target msh idx m p s H. open_sub H. exact (mesh_meets b target sh shc P Q W F Sp msh Run idx m p s).
Qed.
Print Assumptions C47_on_constraint.

(** corner nodes that are not on a constrained side are not moved *)
Theorem C47_unmoved : forall zdet sh shc b target msh idx m p, subdivided zdet sh shc b target msh ->
  valid_index b idx -> (m < kind_nnode target)%nat -> point_at b msh idx m p -> (per target = 1 \/ m < corners (b_ndim b))%nat ->
  (b_ring b = true \/ forall s, (s < nsides (b_ndim b))%nat -> constrained b s -> ~ at_side (b_ndim b) s (node_ksi b target idx m)) ->
  coords_of msh p (block_map b (node_ksi b target idx m)).
Proof.
  intros zdet sh shc b target msh idx m p H. open_sub H. exact (mesh_unmoved b target sh shc P Q W F Sp msh Run idx m p).
Qed.
Print Assumptions C47_unmoved.

(** the point is moved along the ray from the centre *)
Theorem C47_radial : forall x p q pc qc r msg, (p < List.length x)%nat -> (q < List.length x)%nat -> p <> q ->
  let d := dist2 (nth p x 0 - pc) (nth q x 0 - qc) in
  (d <= / 100000000 -> to_circle x p q pc qc r msg = Err msg) /\
  (/ 100000000 < d -> exists m x', to_circle x p q pc qc r msg = Ok (m, x') /\ List.length x' = List.length x /\
     nth p x' 0 = pc + r / d * (nth p x 0 - pc) /\ nth q x' 0 = qc + r / d * (nth q x 0 - qc) /\
     (forall i, i <> p -> i <> q -> nth i x' 0 = nth i x 0) /\
     dist2 (nth p x' 0 - pc) (nth q x' 0 - qc) = Rabs r /\ (m = false -> x' = x) /\ (m = true -> r <> d)).
Proof. exact to_circle_spec. Qed.
Print Assumptions C47_radial.

(** the function succeeds if no node of a constrained side is at the centre *)
Theorem C47_total : forall zdet sh shc b target, 0 <= zdet -> (forall c, Permutation (sh c) c) -> (forall l, Permutation (shc l) l) ->
  made zdet b -> fits b target -> spaced b target ->
  (b_ring b = true \/ forall idx m s, valid_index b idx -> (m < kind_nnode target)%nat -> (s < nsides (b_ndim b))%nat -> constrained b s ->
     at_side (b_ndim b) s (node_ksi b target idx m) -> ~ near b s (block_map b (node_ksi b target idx m))) ->
  exists msh, subdivide sh shc b target = Ok msh.
Proof.
  intros zdet sh shc b target Z P Q M Ft Sp. pose proof (made_wf _ _ Z M) as W. pose proof (proj1 (fits_in _ _ (w_nd _ W)) Ft) as F.
  exact (mesh_total b target sh shc P Q W F Sp).
Qed.
Print Assumptions C47_total.

(** and fails if a node of exactly one constrained side is *)
Theorem C47_at_center : forall zdet sh shc b target idx m s, 0 <= zdet -> (forall c, Permutation (sh c) c) -> (forall l, Permutation (shc l) l) ->
  made zdet b -> fits b target -> spaced b target -> b_ring b = false ->
  valid_index b idx -> (m < kind_nnode target)%nat -> (s < nsides (b_ndim b))%nat -> constrained b s -> at_side (b_ndim b) s (node_ksi b target idx m) ->
  near b s (block_map b (node_ksi b target idx m)) ->
  (forall s', (s' < nsides (b_ndim b))%nat -> constrained b s' -> at_side (b_ndim b) s' (node_ksi b target idx m) -> s' = s) ->
  exists msg, subdivide sh shc b target = Err msg.
Proof.
  intros zdet sh shc b target idx m s Z P Q M Ft Sp. pose proof (made_wf _ _ Z M) as W. pose proof (proj1 (fits_in _ _ (w_nd _ W)) Ft) as F.
  exact (mesh_at_center b target sh shc P Q W F Sp idx m s).
Qed.
Print Assumptions C47_at_center.

(** setting constraints: accepted for the sides of a block of the right dimension; failed calls change nothing *)
Theorem C47_edge_setter : forall b e c,
  (b_ndim b = 2%nat /\ (e < 4)%nat -> exists b', set_edge_constraint b e c = (Ok tt, b') /\
     (forall s, mget Nat.eqb (b_ec b') s = if (s =? e)%nat then c else mget Nat.eqb (b_ec b) s) /\ b' = with_ec b (b_ec b')) /\
  (~ (b_ndim b = 2%nat /\ (e < 4)%nat) -> exists msg, set_edge_constraint b e c = (Err msg, b)).
Proof.
  intros b e c. unfold set_edge_constraint. destruct (Nat.eqb_spec (b_ndim b) 2) as [N|N]; cbn [negb]; [|split; [intros []; contradiction|eauto]].
  destruct (Nat.ltb_spec 3 e) as [L|L]; [split; [intros []; lia|eauto]|]. split; [|intros X; exfalso; apply X; lia].
  intros _. eexists. split; [reflexivity|]. split; [|destruct b; reflexivity]. intros s. cbn [b_ec with_ec]. destruct c as [c|]; [apply mget_put|apply mget_mdel].
Qed.
Print Assumptions C47_edge_setter.
Theorem C47_face_setter : forall b f c,
  (b_ndim b = 3%nat /\ (f < 6)%nat -> exists b', set_face_constraint b f c = (Ok tt, b') /\
     (forall s, mget Nat.eqb (b_fc b') s = if (s =? f)%nat then c else mget Nat.eqb (b_fc b) s) /\ b' = with_fc b (b_fc b')) /\
  (~ (b_ndim b = 3%nat /\ (f < 6)%nat) -> exists msg, set_face_constraint b f c = (Err msg, b)).
Proof.
  intros b f c. unfold set_face_constraint. destruct (Nat.eqb_spec (b_ndim b) 3) as [N|N]; cbn [negb]; [|split; [intros []; contradiction|eauto]].
  destruct (Nat.ltb_spec 5 f) as [L|L]; [split; [intros []; lia|eauto]|]. split; [|intros X; exfalso; apply X; lia].
  intros _. eexists. split; [reflexivity|]. split; [|destruct b; reflexivity]. intros s. cbn [b_fc with_fc]. destruct c as [c|]; [apply mget_put|apply mget_mdel].
Qed.
Print Assumptions C47_face_setter.

Example C47_ex : forall sh shc, (forall c, Permutation (sh c) c) -> (forall l, Permutation (shc l) l) ->
  exists b msh, subdivided (/ 2) sh shc b Qua4 msh /\ b_ring b = false /\ apart b /\ valid_index b [0; 0]%nat /\ b_ndim b = 2%nat /\
    constrained b 0 /\ at_side 2 0 (node_ksi b Qua4 [0; 0]%nat 1) /\ ~ meets b 0 (block_map b (node_ksi b Qua4 [0; 0]%nat 1)) /\
    (forall s, (s < nsides 2)%nat -> constrained b s -> ~ at_side 2 s (node_ksi b Qua4 [0; 0]%nat 2)).
Proof.
  intros sh shc P Q. destruct (side_witness (/ 2) sh shc ltac:(lra) P Q) as (b & msh & M & Ft & Sp & R & A & Run & C & At & N & V & Me & U).
  exists b, msh. split.
  { split; [lra|]. split; [exact P|]. split; [exact Q|]. split; [exact M|]. split; [exact Ft|]. split; [exact Sp|exact Run]. }
  repeat (split; [assumption|]). exact U.
Qed.

(** Where two constrained sides meet, only one of the constraints is satisfied. *)
Theorem C47_adjacent_refuted : forall sh shc, (forall c, Permutation (sh c) c) -> (forall l, Permutation (shc l) l) ->
  exists b msh p x, subdivided (/ 2) sh shc b Qua4 msh /\ b_ring b = false /\ b_ndim b = 2%nat /\
    constrained b 1 /\ at_side 2 1 (node_ksi b Qua4 [0; 0]%nat 1) /\ valid_index b [0; 0]%nat /\
    point_at b msh [0; 0]%nat 1 p /\ coords_of msh p x /\ ~ meets b 1 x.
Proof.
  intros sh shc P Q. destruct (corner_witness (/ 2) sh shc ltac:(lra) P Q) as (b & msh & p & x & M & Ft & Sp & R & Run & C & At & N & V & HP & Co & _ & Me).
  exists b, msh, p, x. split.
  { split; [lra|]. split; [exact P|]. split; [exact Q|]. split; [exact M|]. split; [exact Ft|]. split; [exact Sp|exact Run]. }
  repeat (split; [assumption|]). exact Me.
Qed.
Print Assumptions C47_adjacent_refuted.

(** C54: divisions; a block keeps everything else *)
Theorem C54_set_ndiv : forall zdet b l, 0 <= zdet -> made zdet b ->
  ((exists b', set_ndiv b l = (Ok tt, b')) <-> List.length l = b_ndim b /\ forall n, In n l -> (1 <= n)%nat) /\
  (List.length l = b_ndim b -> (forall n, In n l -> (1 <= n)%nat) ->
     exists b', set_ndiv b l = (Ok tt, b') /\ same_but_div b b' /\ b_ndiv b' = l /\ b_delta b' = map uniform l) /\
  (List.length l <> b_ndim b -> exists msg, set_ndiv b l = (Err msg, b)).
Proof.
  intros zdet b l Z M. pose proof (made_wf _ _ Z M) as W. split; [exact (ndiv_result b l W)|]. split; [exact (ndiv_done b l W)|].
  intros N. rewrite set_ndiv_len by auto. eauto.
Qed.
Print Assumptions C54_set_ndiv.

(** an array with a zero is rejected after the divisions before the zero have been changed *)
Theorem C54_partly : forall zdet b l i, 0 <= zdet -> made zdet b -> List.length l = b_ndim b -> nth_error l i = Some 0%nat ->
  (forall j n, (j < i)%nat -> nth_error l j = Some n -> (1 <= n)%nat) ->
  exists msg b', set_ndiv b l = (Err msg, b') /\ same_but_div b b' /\
    b_ndiv b' = firstn i l ++ skipn i (b_ndiv b) /\ b_delta b' = map uniform (firstn i l) ++ skipn i (b_delta b).
Proof. intros zdet b l i Z M. exact (ndiv_partly b l i (made_wf _ _ Z M)). Qed.
Print Assumptions C54_partly.

Theorem C54_set_ndiv_refuted : forall zdet, 0 <= zdet < / 4 -> exists b msg b',
  block_new zdet 2 (box_2d 0 0 1 1) = Ok b /\ set_ndiv b [3; 0]%nat = (Err msg, b') /\ b_ndiv b = [2; 2]%nat /\ b_ndiv b' = [3; 2]%nat.
Proof.
  intros zdet Hz. destruct (plain_witness zdet Hz) as (b & E & N & D & _).
  destruct (C54_partly zdet b [3; 0]%nat 1 ltac:(lra) (made_new _ _ _ _ E)) as (msg & b' & E' & _ & D' & _); [rewrite N; reflexivity|reflexivity| |].
  { intros j n Hj H. destruct j; [|lia]. injection H as <-. lia. }
  exists b, msg, b'. split; [exact E|]. split; [exact E'|]. split; [exact D|]. rewrite D', D. reflexivity.
Qed.
Print Assumptions C54_set_ndiv_refuted.

(** the weights give divisions in proportion; a failed call changes nothing *)
Theorem C54_weights_2d : forall zdet b wx wy, 0 <= zdet -> made zdet b ->
  (b_ndim b = 2%nat -> wx <> [] -> wy <> [] -> 1 <= sum wx -> 1 <= sum wy ->
     exists b' dx dy, set_div_weights_2d b wx wy = (Ok tt, b') /\ same_but_div b b' /\ b_ndiv b' = [List.length wx; List.length wy] /\
       b_delta b' = [dx; dy] /\ weighted wx dx /\ weighted wy dy) /\
  (b_ndim b <> 2%nat \/ wx = [] \/ wy = [] \/ sum wx < 1 \/ sum wy < 1 -> exists msg, set_div_weights_2d b wx wy = (Err msg, b)).
Proof. intros zdet b wx wy Z M. split; [exact (w2_done b wx wy (made_wf _ _ Z M))|exact (w2_err b wx wy)]. Qed.
Print Assumptions C54_weights_2d.
Theorem C54_weights_3d : forall zdet b wx wy wz, 0 <= zdet -> made zdet b ->
  (b_ndim b = 3%nat -> wx <> [] -> wy <> [] -> wz <> [] -> 1 <= sum wx -> 1 <= sum wy -> 1 <= sum wz ->
     exists b' dx dy dz, set_div_weights_3d b wx wy wz = (Ok tt, b') /\ same_but_div b b' /\ b_ndiv b' = [List.length wx; List.length wy; List.length wz] /\
       b_delta b' = [dx; dy; dz] /\ weighted wx dx /\ weighted wy dy /\ weighted wz dz) /\
  (b_ndim b <> 3%nat \/ wx = [] \/ wy = [] \/ wz = [] \/ sum wx < 1 \/ sum wy < 1 \/ sum wz < 1 -> exists msg, set_div_weights_3d b wx wy wz = (Err msg, b)).
Proof. intros zdet b wx wy wz Z M. split; [exact (w3_done b wx wy wz (made_wf _ _ Z M))|exact (w3_err b wx wy wz)]. Qed.
Print Assumptions C54_weights_3d.
Example C54_ex : exists b b', block_new (/ 100) 2 (box_2d 0 0 1 1) = Ok b /\ set_ndiv b [3; 5]%nat = (Ok tt, b') /\ b_ndiv b' = [3; 5]%nat.
Proof.
  destruct (plain_witness (/ 100) ltac:(lra)) as (b & E & N & _). exists b.
  destruct (C54_set_ndiv (/ 100) b [3; 5]%nat ltac:(lra) (made_new _ _ _ _ E)) as (_ & X & _).
  destruct X as (b' & E' & _ & D & _); [rewrite N; reflexivity|intros n [<- |[<- |[]]]; lia|]. eauto.
Qed.

(** C61: the marked edges are the edges of cells on marked edges of the block *)
Theorem C61_edges : forall zdet sh shc b target msh mk u v, subdivided zdet sh shc b target msh ->
  (In (mk, u, v) (marked_edges msh) <->
   exists e idx e' p q, mget Nat.eqb (b_em b) e = Some mk /\ valid_index b idx /\ (e' < kind_nedge target)%nat /\
    point_at b msh idx (edge_node_id target e' 0) p /\ point_at b msh idx (edge_node_id target e' 1) q /\
    on_block_edge (b_ndim b) e (node_ksi b target idx (edge_node_id target e' 0)) /\
    on_block_edge (b_ndim b) e (node_ksi b target idx (edge_node_id target e' 1)) /\
    u = Nat.min p q /\ v = Nat.max p q).
Proof.
  intros zdet sh shc b target msh mk u v H. open_sub H. exact (mesh_edge_marks b target W F Sp sh shc P Q msh Run mk u v).
Qed.
Print Assumptions C61_edges.

(** the marked faces are the faces of cells on marked faces of the block *)
Theorem C61_faces : forall zdet sh shc b target msh x, subdivided zdet sh shc b target msh ->
  (In x (marked_faces msh) <->
   exists f idx f' p1 p2 p3 p4 a1 a2 a3 a4 mk, mget Nat.eqb (b_fm b) f = Some mk /\ valid_index b idx /\ (f' < 6)%nat /\
    point_at b msh idx (face_node_id target f' 0) p1 /\ point_at b msh idx (face_node_id target f' 1) p2 /\
    point_at b msh idx (face_node_id target f' 2) p3 /\ point_at b msh idx (face_node_id target f' 3) p4 /\
    (forall j, (j < 4)%nat -> on_block_face f (node_ksi b target idx (face_node_id target f' j))) /\
    Permutation [p1; p2; p3; p4] [a1; a2; a3; a4] /\ (a1 <= a2 <= a3)%nat /\ (a3 <= a4)%nat /\ x = (mk, a1, a2, a3, Some a4)).
Proof.
  intros zdet sh shc b target msh x H. open_sub H. exact (mesh_face_marks b target W F Sp sh shc P Q msh Run x).
Qed.
Print Assumptions C61_faces.

(** the setters of markers: accepted for the edges (faces) of the block; failed calls change nothing *)
Theorem C61_edge_setter : forall zdet b e v, 0 <= zdet -> made zdet b ->
  ((e < if (b_ndim b =? 2)%nat then 4 else 12)%nat -> exists b', set_edge_marker b e v = (Ok tt, b') /\
     (forall s, mget Nat.eqb (b_em b') s = if (s =? e)%nat then Some v else mget Nat.eqb (b_em b) s) /\ b' = with_em b (b_em b')) /\
  (~ (e < if (b_ndim b =? 2)%nat then 4 else 12)%nat -> exists msg, set_edge_marker b e v = (Err msg, b)).
Proof.
  intros zdet b e v Z M. pose proof (w_nd _ (made_wf _ _ Z M)) as N. unfold set_edge_marker.
  destruct (Nat.eqb_spec (b_ndim b) 2) as [E|E]; cbn [negb andb].
  - destruct (Nat.ltb_spec 3 e) as [L|L]; [split; [intros; lia|eauto]|]. split; [|intros X; exfalso; apply X; lia]. intros _. eexists. split; [reflexivity|].
    split; [|destruct b; reflexivity]. intros s. apply mget_put.
  - destruct (Nat.ltb_spec 11 e) as [L|L]; [split; [intros; lia|eauto]|]. split; [|intros X; exfalso; apply X; lia]. intros _. eexists. split; [reflexivity|].
    split; [|destruct b; reflexivity]. intros s. apply mget_put.
Qed.
Print Assumptions C61_edge_setter.
Theorem C61_face_setter : forall b f v,
  (b_ndim b = 3%nat /\ (f < 6)%nat -> exists b', set_face_marker b f v = (Ok tt, b') /\
     (forall s, mget Nat.eqb (b_fm b') s = if (s =? f)%nat then Some v else mget Nat.eqb (b_fm b) s) /\ b' = with_fm b (b_fm b')) /\
  (~ (b_ndim b = 3%nat /\ (f < 6)%nat) -> exists msg, set_face_marker b f v = (Err msg, b)).
Proof.
  intros b f v. unfold set_face_marker. destruct (Nat.eqb_spec (b_ndim b) 3) as [N|N]; cbn [negb]; [|split; [intros []; contradiction|eauto]].
  destruct (Nat.ltb_spec 5 f) as [L|L]; [split; [intros []; lia|eauto]|]. split; [|intros X; exfalso; apply X; lia].
  intros _. eexists. split; [reflexivity|]. split; [|destruct b; reflexivity]. intros s. apply mget_put.
Qed.
Print Assumptions C61_face_setter.

Example C61_ex : forall sh shc, (forall c, Permutation (sh c) c) -> (forall l, Permutation (shc l) l) ->
  exists b0 b msh u v, block_new (/ 100) 2 (box_2d 0 0 1 1) = Ok b0 /\ set_edge_marker b0 0 (-7)%Z = (Ok tt, b) /\
    subdivided (/ 100) sh shc b Qua4 msh /\ In ((-7)%Z, u, v) (marked_edges msh).
Proof.
  intros sh shc P Q. destruct (plain_witness (/ 100) ltac:(lra)) as (b0 & E & N & D & R & C & S). pose proof (made_new (/ 100) _ _ _ E) as M0.
  destruct (C61_edge_setter (/ 100) b0 0 (-7)%Z ltac:(lra) M0) as [X _]. destruct X as (b & Eb & Mk & Ew); [rewrite N; cbn; lia|].
  assert (M : made (/ 100) b) by (replace b with (snd (set_edge_marker b0 0 (-7)%Z)) by (rewrite Eb; reflexivity); apply made_em; auto).
  assert (N' : b_ndim b = 2%nat) by (rewrite Ew; exact N). assert (D' : b_ndiv b = [2; 2]%nat) by (rewrite Ew; exact D).
  assert (Ft : fits b Qua4) by (unfold fits; rewrite N'; reflexivity).
  assert (Sp : spaced b Qua4) by (rewrite Ew; apply (S Qua4); unfold fits; rewrite N; reflexivity).
  destruct (C45_total (/ 100) sh shc b Qua4 ltac:(lra) P M Ft) as (msh & Run); [rewrite Ew; exact C| |].
  { intros a d Ha Hd. specialize (Sp a d Ha Hd). assert (W : wf_block b) by (eapply made_wf; [|exact M]; lra).
    pose proof (tol_pos b W). replace (INR (per Qua4)) with 1 in Sp by reflexivity. lra. }
  assert (Sb : subdivided (/ 100) sh shc b Qua4 msh) by (split; [lra|]; split; [exact P|]; split; [exact Q|]; split; [exact M|]; split; [exact Ft|]; split; [exact Sp|exact Run]).
  assert (V : valid_index b [0; 0]%nat).
  { split; [rewrite N'; reflexivity|]. intros a Ha. rewrite N' in Ha. unfold ndivs. rewrite D'. destruct a as [|[|a]]; [cbn; lia|cbn; lia|lia]. }
  destruct (C45_nodes (/ 100) sh shc b Qua4 msh Sb) as [Y _].
  destruct (Y [0; 0]%nat 0%nat V ltac:(vm_compute; lia)) as (p & Hp & _). destruct (Y [0; 0]%nat 1%nat V ltac:(vm_compute; lia)) as (q & Hq & _).
  exists b0, b, msh, (Nat.min p q), (Nat.max p q). split; [exact E|]. split; [exact Eb|]. split; [exact Sb|].
  apply (C61_edges (/ 100) sh shc b Qua4 msh (-7)%Z _ _ Sb). exists 0%nat, [0; 0]%nat, 0%nat, q, p.
  rewrite N'. split; [apply Mk|]. split; [exact V|]. split; [vm_compute; lia|]. change (edge_node_id Qua4 0 0) with 1%nat. change (edge_node_id Qua4 0 1) with 0%nat. split; [exact Hq|]. split; [exact Hp|].
  assert (L0 : forall m, (m < 2)%nat -> nth 1 (node_ksi b Qua4 [0; 0]%nat m) 0 = -1).
  { intros m Hm. unfold node_ksi. rewrite N'. cbn [seq map nth]. unfold line. cbn [firstn sum]. rewrite qua4_nodes by lia. destruct m as [|[|m]]; [cbn [nth]; lra|cbn [nth]; lra|lia]. }
  split; [apply block_edge_2d; [lia|]; unfold at_side; cbn [side_axis side_end Nat.eqb]; apply L0; lia|].
  split; [apply block_edge_2d; [lia|]; unfold at_side; cbn [side_axis side_end Nat.eqb]; apply L0; lia|]. lia.
Qed.

(** C62: a new block: accepted sizes, the positive determinant at the centre, default divisions *)
Theorem C62_new : forall zdet nd coords, 0 <= zdet -> good_size nd coords -> rect nd coords ->
  exists d, det_center nd coords d /\
    (zdet < d -> exists b, block_new zdet nd coords = Ok b /\ b_ndim b = nd /\ b_ndiv b = repeat 2%nat nd /\ b_delta b = repeat [1; 1] nd /\
       b_ec b = [] /\ b_fc b = [] /\ b_em b = [] /\ b_fm b = [] /\ b_ring b = false /\ b_marker b = 1%Z /\
       pad_wf (b_pad b) /\ p_kind (b_pad b) = bkind nd /\ p_space (b_pad b) = nd /\ holds_nodes nd coords (b_pad b)) /\
    (d <= zdet -> exists msg, block_new zdet nd coords = Err msg).
Proof.
  intros zdet nd coords Z G Rc. destruct (new_fields zdet nd coords Z G Rc) as (d & D & A & B). exists d. split; [exact D|]. split; [|exact B].
  intros H. destruct (A H) as (p & W & K & S & _ & N & E). eexists. split; [exact E|]. cbn [b_ndim b_ndiv b_delta b_ec b_fc b_em b_fm b_ring b_marker b_pad].
  split; [reflexivity|]. split; [reflexivity|]. split.
  { f_equal. cbn [repeat]. unfold NAT_LENGTH. simpl (INR 2). apply f_equal2; [lra|apply f_equal2; [lra|reflexivity]]. }
  do 6 (split; [reflexivity|]). split; [exact W|]. split; [exact K|]. split; [exact S|exact N].
Qed.
Print Assumptions C62_new.
Theorem C62_size : forall zdet nd coords, ~ good_size nd coords -> exists msg, block_new zdet nd coords = Err msg.
Proof. exact block_new_size. Qed.
Print Assumptions C62_size.

Example C62_ex : good_size 2 (box_2d 0 0 1 1) /\ rect 2 (box_2d 0 0 1 1) /\ exists d, det_center 2 (box_2d 0 0 1 1) d /\ / 100 < d.
Proof.
  assert (G : good_size 2 (box_2d 0 0 1 1)) by (split; [lia|cbn; lia]).
  assert (Rc : rect 2 (box_2d 0 0 1 1)) by (intros m Hm; cbn in Hm; do 4 (destruct m as [|m]; [reflexivity|]); lia).
  split; [exact G|]. split; [exact Rc|]. destruct (C62_new (/ 100) 2 _ ltac:(lra) G Rc) as (d & D & _). exists d. split; [exact D|].
  rewrite (box_2d_det _ _ _ _ _ D). lra.
Qed.
