(* Properties C96 and C97: the boundary of a mesh is closed; areas and volumes from the boundary. *)
From Coq Require Import String Reals List Lia Lra Bool Arith ZArith Permutation.
From Verif Require Import Base BaseFacts Kind MeshModel GraphModel MeshQuerySpec MeshQueryProof TopoModel TopoSpec TopoMaps TopoProof TopoFeat3 TopoFinal
  GeomModel PadModel PadSpec PadProof4 GaussSpec IntegSpec NormalSpec NormalProof5 BalanceSpec BalanceProof BalanceProof2 BalanceProof3 BalanceProof4.
Import ListNotations.
Local Open Scope list_scope.
Local Open Scope R_scope.

(** C96: a quantity that changes its sign with the direction has the same sum over the boundary as over the edges of all cells *)
Theorem C96_sum_2d : forall (T : Type) (leb : T -> T -> bool) (shuffle : emap -> emap), (forall l, Permutation (shuffle l) l) ->
  forall (m : mesh T) ft g, consistent m -> ndim m = 2%nat -> directed m -> odd g -> features_new leb shuffle m false = Ok ft ->
  sum_over (fun ke => g (corners (e_kind (snd ke)) (e_points (snd ke)))) (ft_edges ft) = sum_over (round_edges g) (of_dim 2 m).
Proof. intros T leb shuffle Sh m ft g C D O G F. now apply (circulation_2d m C leb shuffle g ft). Qed.
Print Assumptions C96_sum_2d.

Theorem C96_sum_3d : forall (T : Type) (leb : T -> T -> bool) (shuffle : emap -> emap),
  forall (m : mesh T) ft g, consistent m -> ndim m = 3%nat -> no_quadratic_tets m -> directed_faces m -> odd g -> cyclic g ->
  features_new leb shuffle m false = Ok ft ->
  sum_over (fun kf => g (corners (f_kind (snd kf)) (f_points (snd kf)))) (ft_faces ft) = sum_over (round_faces g) (of_dim 3 m).
Proof. intros T leb shuffle m ft g C D Q O G Cy F. now apply (circulation_3d m C leb shuffle g ft). Qed.
Print Assumptions C96_sum_3d.

(** as many boundary edges end at a point as start there: the boundary consists of closed circuits; differences add up to zero *)
Theorem C96_circuits : forall (T : Type) (leb : T -> T -> bool) (shuffle : emap -> emap), (forall l, Permutation (shuffle l) l) ->
  forall (m : mesh T) ft, consistent m -> ndim m = 2%nat -> directed m -> features_new leb shuffle m false = Ok ft ->
  (forall p, List.length (filter (starts_at p) (ft_edges ft)) = List.length (filter (ends_at p) (ft_edges ft))) /\
  forall f : nat -> R, sum_over (fun ke => match e_points (snd ke) with p :: q :: _ => f q - f p | _ => 0 end) (ft_edges ft) = 0.
Proof. intros T leb shuffle Sh m ft C D O F. split; [intros p; now apply (degrees leb shuffle Sh m ft p)|intros f; now apply (closed_jumps leb shuffle Sh m ft f)]. Qed.
Print Assumptions C96_circuits.

(** the normal vectors, integrated over the edges of the boundary, add up to zero; for all kinds of cells *)
Theorem C96_normals_2d : forall (leb : R -> R -> bool) (shuffle : emap -> emap), (forall l, Permutation (shuffle l) l) ->
  forall m ft i, consistent m -> coords_complete m -> ndim m = 2%nat -> directed m -> features_new leb shuffle m false = Ok ft -> (i < 2)%nat ->
  exists v, (forall k ed, In (k, ed) (ft_edges ft) -> forall x, normal_integral m (e_kind ed) (e_points ed) i x <-> x = v k) /\
    sum_over (fun ke => v (fst ke)) (ft_edges ft) = 0.
Proof. intros leb shuffle Sh m ft i. exact (normals_closed_2d leb shuffle Sh m ft i). Qed.
Print Assumptions C96_normals_2d.

(** area vectors of the faces: half the product of two sides (triangles), of the diagonals (quadrilaterals) *)
Theorem C96_faces : forall (leb : R -> R -> bool) (shuffle : emap -> emap) m ft i,
  consistent m -> ndim m = 3%nat -> no_quadratic_tets m -> directed_faces m -> features_new leb shuffle m false = Ok ft ->
  sum_over (fun kf => area_vector m i (corners (f_kind (snd kf)) (f_points (snd kf)))) (ft_faces ft) = 0.
Proof. exact area_closed. Qed.
Print Assumptions C96_faces.

(** unit normal vector times area, both from calc_normal_vector at the centre, of plane or bilinear faces *)
Theorem C96_normals_3d : forall (leb : R -> R -> bool) (shuffle : emap -> emap) m ft mag un i,
  consistent m -> coords_complete m -> ndim m = 3%nat ->
  (forall c, In c (of_dim 3 m) -> c_kind c = Tet4 \/ c_kind c = Hex8) -> directed_faces m -> features_new leb shuffle m false = Ok ft ->
  (forall k fc, In (k, fc) (ft_faces ft) -> NormalSpec.normal_of m (f_kind fc) (f_points fc) (mag k) (un k)) -> (i < 3)%nat ->
  sum_over (fun kf => ref_measure (kind_class (f_kind (snd kf))) * mag (fst kf) * nth i (un (fst kf)) 0) (ft_faces ft) = 0.
Proof. exact normals_closed_3d. Qed.
Print Assumptions C96_normals_3d.

(* two triangles on points with any coordinates *)
Definition pair2 (x y : nat -> R) (l l' : list nat) : mesh R :=
  mkMesh 2 (map (fun i => mkPoint i 0%Z [x i; y i]) (seq 0 4)) [mkCell 0 1%Z Tri3 l; mkCell 1 1%Z Tri3 l'] [] [].
Lemma pair2_ok x y l l' : List.length l = 3%nat -> List.length l' = 3%nat -> Forall (fun p => (p < 4)%nat) l -> Forall (fun p => (p < 4)%nat) l' ->
  consistent (pair2 x y l l') /\ coords_complete (pair2 x y l l').
Proof.
  intros L L' F F'. split; [split|].
  - intros i p H. do 4 (destruct i as [|i]; [injection H as <-; reflexivity|]). destruct i; discriminate H.
  - intros i c H. destruct i as [|[|i]]; [injection H as <-|injection H as <-|destruct i; discriminate H];
      (split; [reflexivity|]; split; [assumption|]; cbn [c_points pair2 points]; rewrite map_length, seq_length; now apply Forall_forall).
  - intros p H. simpl in H. repeat (destruct H as [<-|H]; [reflexivity|]). destruct H.
Qed.
Definition unit_x (i : nat) : R := match i with 0%nat => 0 | 1%nat => 1 | 2%nat => 1 | _ => 0 end.
Definition unit_y (i : nat) : R := match i with 0%nat => 0 | 1%nat => 0 | 2%nat => 1 | _ => 1 end.
Definition halves : mesh R := pair2 unit_x unit_y [0; 1; 2]%nat [0; 2; 3]%nat.
Lemma halves_ok : consistent halves /\ coords_complete halves.
Proof. apply pair2_ok; auto; repeat constructor. Qed.
Lemma halves_directed : directed halves.
Proof.
  destruct halves_ok as (C & _). intros c e c' e' p q H H'.
  assert (A : In (c, e, [p; q]) (flat_map edge_places (of_dim 2 halves))) by (apply in_edge_places; eauto).
  assert (B : In (c', e', [p; q]) (flat_map edge_places (of_dim 2 halves))) by (apply in_edge_places; eauto).
  cbn in A, B. repeat (destruct A as [A|A]; [injection A as <- <- <- <-|]); try contradiction;
    repeat (destruct B as [B|B]; [first [discriminate B|injection B as <- <-; reflexivity]|]); contradiction.
Qed.
Example C96_ex : consistent halves /\ coords_complete halves /\ directed halves /\ (exists ft, features_new Rleb (fun l => l) halves false = Ok ft) /\
  odd (swept halves).
Proof.
  destruct halves_ok as (C & K). split; auto. split; auto. split; [exact halves_directed|]. split; [|apply swept_odd].
  apply (new_total Rleb (fun l => l) (fun l => Permutation_refl l) halves false C K (or_introl eq_refl)).
Qed.

(** overlapping cells: all areas are positive, and the boundary is not closed (two edges start at a point where none ends) *)
Definition overlap : mesh R := pair2 unit_x unit_y [0; 1; 2]%nat [0; 1; 3]%nat.
Theorem C96_overlap_refuted : exists m ft p, consistent m /\ coords_complete m /\ ndim m = 2%nat /\
  (forall c, In c (of_dim 2 m) -> exists a, cell_area m c a /\ 0 < a) /\ features_new Rleb (fun l => l) m false = Ok ft /\
  (exists ke, In ke (ft_edges ft) /\ starts_at p ke = true) /\ (forall ke, In ke (ft_edges ft) -> ends_at p ke = false).
Proof.
  assert (OK : consistent overlap /\ coords_complete overlap) by (apply pair2_ok; auto; repeat constructor). destruct OK as (C & K).
  destruct (new_total Rleb (fun l => l) (fun l => Permutation_refl l) overlap false C K (or_introl eq_refl)) as (ft & F).
  exists overlap, ft, 0%nat. split; auto. split; auto. split; [reflexivity|]. split; [|split; [exact F|]].
  - intros c [<-|[<-|[]]].
    + destruct (get_pad_ok overlap 0 _ C K (or_introl eq_refl) eq_refl (le_n 2)) as (p & E & El & _). eexists. split; [exists p; split; [exact E|]; left; split; [reflexivity|reflexivity]|].
      unfold IntegSpec.tri_area. pose proof (fun i j => element_x overlap _ p j i El) as X.
      rewrite !X by (cbn; try lia; intros q Hq; lia). cbn. lra.
    + destruct (get_pad_ok overlap 1 _ C K (or_introl eq_refl) eq_refl (le_n 2)) as (p & E & El & _). eexists. split; [exists p; split; [exact E|]; left; split; [reflexivity|reflexivity]|].
      unfold IntegSpec.tri_area. pose proof (fun i j => element_x overlap _ p j i El) as X.
      rewrite !X by (cbn; try lia; intros q Hq; lia). cbn. lra.
  - destruct (edges_2d Rleb (fun l => l) (fun l => Permutation_refl l) overlap false ft C eq_refl F) as (ND & _ & Wt & Dt).
    assert (P : forall c e p q, edge_of overlap c e p q -> In (c, e, [p; q]) (flat_map edge_places (of_dim 2 overlap))) by (intros; apply in_edge_places; eauto).
    assert (P' : forall c e p q, In (c, e, [p; q]) (flat_map edge_places (of_dim 2 overlap)) -> edge_of overlap c e p q).
    { intros c e p q H. apply in_edge_places in H; auto. destruct H as (p' & q' & X & H). injection X as <- <-. exact H. }
    cbn in P, P'.
    assert (Pts : forall a b ed, get_edge ft a b = Ok ed -> exists c e p q, edge_of overlap c e p q /\ e_points ed = [p; q] /\ has_edge overlap a b (c, e)).
    { intros a b ed G. destruct (Dt a b ed G) as (_ & [c e] & (H & _) & cl & Hc & I & D2 & He & Ek & Em). cbn [fst snd] in *.
      assert (Kc : c_kind cl = Tri3) by (destruct Hc as [<-|[<-|[]]]; reflexivity). rewrite Kc in *. change (kind_edge_nnode Tri3) with 2%nat in Em. cbn [seq map] in Em.
      destruct (e_points ed) as [|p [|q [|? ?]]]; try discriminate Em. cbn [map] in Em. injection Em as E1 E2.
      exists c, e, p, q. split; [|auto]. exists cl. rewrite Kc. repeat split; auto. }
    split.
    + destruct (proj2 (Wt 0%nat 2%nat)) as (ed & G).
      { split; [lia|]. exists (0, 2)%nat. split; [exists 0%nat, 2%nat; split; [apply P'; auto 10|left; auto]|].
        intros [c e] (p & q & H & S). apply P in H. cbn [fst snd] in *.
        repeat (destruct H as [H|H]; [injection H as <- <- <- <-; destruct S as [(S1 & S2)|(S1 & S2)]; first [discriminate S1|discriminate S2|reflexivity]|]). contradiction. }
      destruct (Pts 0%nat 2%nat ed G) as (c & e & p & q & H & E & (p' & q' & H' & S)). exists ((0, 2)%nat, ed).
      split; [apply get_edge_iff in G; now apply (mget_in _ ekey_eqb_eq) in G|]. unfold starts_at. cbn [snd]. rewrite E.
      cbn [fst snd] in H'. apply P in H. apply P in H'.
      repeat (destruct H as [H|H]; [injection H as <- <- <- <-; first [reflexivity|exfalso;
        repeat (destruct H' as [H'|H']; [first [discriminate H'|injection H' as <- <-; destruct S as [(S1 & S2)|(S1 & S2)]; first [discriminate S1|discriminate S2]]|]); contradiction]|]). contradiction.
    + intros [[a b] ed] H. assert (G : get_edge ft a b = Ok ed) by (apply get_edge_iff, in_mget; auto using ekey_eqb_eq).
      destruct (Pts a b ed G) as (c & e & p & q & H1 & E & H2). unfold ends_at. cbn [snd]. rewrite E.
      destruct (Nat.eqb_spec q 0) as [->|]; [exfalso|reflexivity].
      destruct (proj1 (Wt a b) (ex_intro _ ed G)) as (_ & x & _ & U). pose proof H1 as H1'.
      assert (Ep : p = 1%nat /\ (e = 0)%nat) by (apply P in H1; repeat (destruct H1 as [H1|H1]; [first [discriminate H1|injection H1 as <- <- <-; auto]|]); contradiction).
      destruct Ep as (-> & ->).
      assert (S : same_pair a b 1 0).
      { destruct H2 as (p & q & H2 & S). cbn [fst snd] in H2. destruct H1 as (cl & Hc & I & _ & _ & A & B), H2 as (cl' & Hc' & I' & _ & _ & A' & B').
        assert (cl' = cl) as -> by (pose proof (cell_by_id overlap cl C Hc); pose proof (cell_by_id overlap cl' C Hc'); congruence).
        rewrite A in A'. rewrite B in B'. injection A' as <-. injection B' as <-. exact S. }
      assert (X : x = (0, 0)%nat) by (apply U; exists 1%nat, 0%nat; split; [apply P'; auto|exact S]).
      assert (Y : x = (1, 0)%nat) by (apply U; exists 1%nat, 0%nat; split; [apply P'; auto 10|exact S]). congruence.
Qed.
Print Assumptions C96_overlap_refuted.

(** C97: the sum of the areas of the cells is half the sum of (normal vector times length) times position over the boundary *)
Theorem C97_area : forall (leb : R -> R -> bool) (shuffle : emap -> emap), (forall l, Permutation (shuffle l) l) ->
  forall m ft ar, consistent m -> coords_complete m -> ndim m = 2%nat -> directed m -> features_new leb shuffle m false = Ok ft ->
  (forall c, In c (of_dim 2 m) -> cell_area m c (ar (c_id c))) ->
  sum_over (fun ke => - swept m (corners (e_kind (snd ke)) (e_points (snd ke))) / 2) (ft_edges ft) = sum_over (fun c => ar (c_id c)) (of_dim 2 m).
Proof. intros leb shuffle Sh m ft ar. exact (area_by_boundary leb shuffle Sh m ft ar). Qed.
Print Assumptions C97_area.

Theorem C97_volume : forall (leb : R -> R -> bool) (shuffle : emap -> emap) m ft vol,
  consistent m -> coords_complete m -> ndim m = 3%nat -> directed_faces m -> features_new leb shuffle m false = Ok ft ->
  (forall c, In c (of_dim 3 m) -> cell_volume m c (vol (c_id c))) ->
  sum_over (fun kf => swept3 m (corners (f_kind (snd kf)) (f_points (snd kf))) / 6) (ft_faces ft) = sum_over (fun c => vol (c_id c)) (of_dim 3 m).
Proof. exact volume_by_boundary. Qed.
Print Assumptions C97_volume.

Example C97_ex_area : forall c, In c (of_dim 2 halves) -> cell_area halves c (1 / 2).
Proof.
  destruct halves_ok as (C & K). intros c [<-|[<-|[]]].
  - destruct (get_pad_ok halves 0 _ C K (or_introl eq_refl) eq_refl (le_n 2)) as (p & E & El & _). exists p. split; [exact E|]. left. split; [reflexivity|].
    unfold IntegSpec.tri_area. pose proof (fun i j => element_x halves _ p j i El) as X.
    rewrite !X by (cbn; try lia; intros q Hq; lia). cbn. lra.
  - destruct (get_pad_ok halves 1 _ C K (or_introl eq_refl) eq_refl (le_n 2)) as (p & E & El & _). exists p. split; [exact E|]. left. split; [reflexivity|].
    unfold IntegSpec.tri_area. pose proof (fun i j => element_x halves _ p j i El) as X.
    rewrite !X by (cbn; try lia; intros q Hq; lia). cbn. lra.
Qed.

(* two tetrahedra with a common face *)
Definition two_tets : mesh R :=
  mkMesh 3 [mkPoint 0 0%Z [0; 0; 0]; mkPoint 1 0%Z [1; 0; 0]; mkPoint 2 0%Z [0; 1; 0]; mkPoint 3 0%Z [0; 0; 1]; mkPoint 4 0%Z [1; 1; 1]]
    [mkCell 0 1%Z Tet4 [0; 1; 2; 3]%nat; mkCell 1 1%Z Tet4 [1; 2; 3; 4]%nat] [] [].
Lemma two_tets_ok : consistent two_tets /\ coords_complete two_tets.
Proof.
  split; [split|].
  - intros i p H. do 5 (destruct i as [|i]; [injection H as <-; reflexivity|]). destruct i; discriminate H.
  - intros i c H. destruct i as [|[|i]]; [injection H as <-|injection H as <-|destruct i; discriminate H];
      (split; [reflexivity|]; split; [reflexivity|]; intros q Hq; cbn in *; lia).
  - intros p H. simpl in H. repeat (destruct H as [<-|H]; [reflexivity|]). destruct H.
Qed.
Example C97_ex_volume : consistent two_tets /\ coords_complete two_tets /\ directed_faces two_tets /\
  (exists ft, features_new Rleb (fun l => l) two_tets false = Ok ft) /\
  forall c, In c (of_dim 3 two_tets) -> cell_volume two_tets c (match c_id c with 0%nat => 1 / 6 | _ => 1 / 3 end).
Proof.
  destruct two_tets_ok as (C & K). split; auto. split; auto. split; [|split].
  - intros c f c' f' ps qs H H' Pm N. apply (in_face_places two_tets C) in H. apply (in_face_places two_tets C) in H'. apply sort4_perm in Pm.
    cbn in H, H'. 
    repeat (destruct H as [H|H]; [injection H as <- <- <-; repeat (destruct H' as [H'|H']; [injection H' as <- <- <-; first [discriminate Pm|exfalso; apply N; reflexivity|idtac]|]); try contradiction|]); try contradiction.
    + exists [3; 2]%nat, [1]%nat. split; reflexivity.
    + exists [2; 3]%nat, [1]%nat. split; reflexivity.
  - apply (new_total Rleb (fun l => l) (fun l => Permutation_refl l) two_tets false C K (or_intror eq_refl)).
  - intros c [<-|[<-|[]]].
    + destruct (get_pad_ok two_tets 0 _ C K (or_intror eq_refl) eq_refl (le_n 3)) as (p & E & El & _). exists p. split; [exact E|]. split; [reflexivity|].
      unfold IntegSpec.tet_volume, det. cbn [Nat.eqb]. pose proof (fun i j => element_x two_tets _ p j i El) as X. rewrite !X by (cbn; try lia; intros q Hq; lia). cbn. lra.
    + destruct (get_pad_ok two_tets 1 _ C K (or_intror eq_refl) eq_refl (le_n 3)) as (p & E & El & _). exists p. split; [exact E|]. split; [reflexivity|].
      unfold IntegSpec.tet_volume, det. cbn [Nat.eqb]. pose proof (fun i j => element_x two_tets _ p j i El) as X. rewrite !X by (cbn; try lia; intros q Hq; lia). cbn. lra.
Qed.

From Verif Require Import
  GridModel ShapesModel ShapesSpec BlockModel BlockSpec BlockProof BlockProof2 BlockProof3 BlockProof8 BlockProof9 PropBlock BlockFeatSpec BlockFeatProof BlockFeatProof2 BlockFeatProof3 PropBlockFeat BalanceProof5.

(** the meshes of Block::subdivide meet the hypothesis: whatever the divisions, the kind and the iteration orders, cells run through common edges (faces) in opposite directions *)
Theorem C96_block : forall zdet sh shc b target msh, subdivided zdet sh shc b target msh ->
  (b_ndim b = 2%nat -> directed msh) /\ (b_ndim b = 3%nat -> directed_faces msh).
Proof.
  intros zdet sh shc b target msh H. open_sub H.
  split; [exact (block_directed b target sh shc P Q W F Sp msh Run)|exact (block_directed_faces b target sh shc P Q W F Sp msh Run)].
Qed.
Print Assumptions C96_block.
Example C96_ex_block : forall sh shc, (forall c, Permutation (sh c) c) -> (forall l, Permutation (shc l) l) ->
  (exists b msh, subdivided (/ 100) sh shc b Qua8 msh /\ b_ndim b = 2%nat) /\ (exists b msh, subdivided (/ 100) sh shc b Hex20 msh /\ b_ndim b = 3%nat).
Proof.
  intros sh shc P Q. destruct (C94_ex sh shc (fun l => l) Rleb P Q (fun l => Permutation_refl l)) as (b & m & ft & H & D & _).
  destruct (C95_ex sh shc (fun l => l) Rleb P Q (fun l => Permutation_refl l)) as (b' & m' & ft' & H' & D' & _).
  split; [exists b, m|exists b', m']; auto.
Qed.
