(* Properties of /repo/src/mesh/join_meshes.rs: C28, C59.
   [valid]: a consistent mesh in two or three dimensions whose points have all coordinates;
   [enclosed a ft x]: x is within the coordinate ranges of the boundary points of a. *)
From Coq Require Import String List Arith Bool ZArith Reals Lra Lia Permutation Sorted.
From Verif Require Import Base BaseFacts Kind MeshModel MeshQueryModel MeshQuerySpec MeshQueryProof TopoModel TopoSpec TopoMaps TopoProof TopoFeat3 TopoFinal
  GeomModel GeomSpec GeomProof GridModel GridSpec GridProof SearchModel SearchSpec SearchProof SearchProof2 JoinModel JoinSpec JoinProof JoinProof2 JoinProof3.
Import ListNotations.
Open Scope nat_scope.

(* iteration orders of hash containers are arbitrary *)
Definition any_order (shp : list nat -> list nat) (shuffle : emap -> emap) (sh : container -> container) : Prop :=
  (forall l, Permutation (shp l) l) /\ (forall l, Permutation (shuffle l) l) /\ forall c, Permutation (sh c) c.

(* ------------------------------------------------------------------ C28 *)
(* tolR n = sqrt n / 10000 *)
Theorem C28_join : forall shp shuffle sh a b m, any_order shp shuffle sh -> valid a -> consistent b -> coords_complete b ->
  join_two_meshes shp shuffle sh a b = Ok m ->
  valid m /\ ndim m = ndim a /\ ndim b = ndim a /\ keeps_points a m /\
  (forall i c, nth_error (cells a) i = Some c -> nth_error (cells m) i = Some c) /\
  List.length (cells m) = List.length (cells a) + List.length (cells b) /\
  exists f, placed (tolR (ndim a)) b m f /\ carries_cells (List.length (cells a)) b m f /\
    (forall ft, features_new Rleb shuffle a false = Ok ft -> merged (tolR (ndim a)) (/ 10000) (enclosed a ft) a b m f) /\
    (forall j, List.length (points a) <= j < List.length (points m) -> exists p, p < List.length (points b) /\ f p = j) /\
    (forall p q, p < q < List.length (points b) -> List.length (points a) <= f p -> List.length (points a) <= f q -> f p < f q).
Proof.
  intros shp shuffle sh a b m (O1 & O2 & O3) V Cb CCb H. destruct (joined_spec shp shuffle O2 sh O3 a b m V Cb CCb H) as (Vm & f & (J1 & J2 & J3 & J4 & J5 & J6 & J7 & J8 & J9 & J10) & _).
  apply join_two_inv in H as (En & _). split; [exact Vm|]. split; [exact J1|]. split; [auto|]. split; [exact J2|]. split; [exact J8|]. split; [exact J9|]. exists f. auto.
Qed.
Print Assumptions C28_join.

Theorem C28_total : forall shp shuffle sh a b ft, any_order shp shuffle sh -> valid a -> consistent b -> coords_complete b -> ndim a = ndim b ->
  features_new Rleb shuffle a false = Ok ft ->
  (forall j, j < ndim a -> exists p q x y, In p (ft_points ft) /\ In q (ft_points ft) /\ coord_is a p j x /\ coord_is a q j y /\ x <> y) ->
  (forall pt, In pt (points a) -> enclosed a ft (pt_coords pt)) -> markers_ok b -> exists m, join_two_meshes shp shuffle sh a b = Ok m.
Proof. intros shp shuffle sh a b ft (O1 & O2 & O3). exact (join_total shp O1 shuffle O2 sh O3 a b ft). Qed.
Print Assumptions C28_total.
Theorem C28_different_ndim : forall shp shuffle sh a b, ndim a <> ndim b -> exists e, join_two_meshes shp shuffle sh a b = Err e.
Proof. intros shp shuffle sh a b N. unfold join_two_meshes. rewrite (proj2 (Nat.eqb_neq _ _) N). cbn. eauto. Qed.
Print Assumptions C28_different_ndim.

(* several meshes: the tolerance does not add up *)
Theorem C28_many : forall shp shuffle sh m0 ms m, any_order shp shuffle sh -> valid m0 -> Forall (fun b => consistent b /\ coords_complete b) ms ->
  join_meshes shp shuffle sh (m0 :: ms) = Ok m ->
  ms <> [] /\ ndim m = ndim m0 /\ Forall (fun b => ndim b = ndim m0) ms /\ valid m /\ keeps_points m0 m /\
  List.length (cells m) = cells_before (m0 :: ms) (S (List.length ms)) /\
  forall k mk, nth_error (m0 :: ms) k = Some mk -> exists f, placed (tolR (ndim m0)) mk m f /\ carries_cells (cells_before (m0 :: ms) k) mk m f.
Proof.
  intros shp shuffle sh m0 ms m (O1 & O2 & O3) V Fm H. destruct (join_meshes_spec shp shuffle O2 sh O3 m0 ms m V Fm H) as (A & B & C & D & E).
  split; [destruct ms; discriminate|]. split; [exact A|]. split; [|split; [exact B|split; [apply (D m0 eq_refl)|split; [exact C|exact E]]]].
  destruct ms as [|b rest]; [constructor|]. exact (join_rest_ndim shp shuffle sh (b :: rest) m0 m H).
Qed.
Print Assumptions C28_many.
Theorem C28_few : forall shp shuffle sh ms, List.length ms < 2 -> exists e, join_meshes shp shuffle sh ms = Err e.
Proof. intros shp shuffle sh [|a [|b ms]] L; cbn in *; eauto. lia. Qed.
Print Assumptions C28_few.

(* two tetrahedra that share the face opposite to the first corner of the first one; mk: marked faces of the second *)
Definition tetA : mesh R := mkMesh 3
  [mkPoint 0 0%Z [0; 0; 0]%R; mkPoint 1 0%Z [1; 0; 0]%R; mkPoint 2 0%Z [0; 1; 0]%R; mkPoint 3 0%Z [0; 0; 1]%R] [mkCell 0 1%Z Tet4 [0; 1; 2; 3]]
  [((-1)%Z, 2, 1)] [].
Definition tetB mf : mesh R := mkMesh 3
  [mkPoint 0 0%Z [1; 0; 0]%R; mkPoint 1 0%Z [0; 1; 0]%R; mkPoint 2 0%Z [0; 0; 1]%R; mkPoint 3 7%Z [1; 1; 1]%R] [mkCell 0 2%Z Tet4 [0; 1; 2; 3]]
  [((-2)%Z, 0, 1); ((-3)%Z, 1, 3)] mf.
Lemma tetA_valid : valid tetA.
Proof.
  split; [apply check_iff; reflexivity|]. split; [|right; reflexivity]. intros p H. simpl in H. repeat (destruct H as [<-|H]; [reflexivity|]). destruct H.
Qed.
Lemma tetB_valid mf : consistent (tetB mf) /\ coords_complete (tetB mf).
Proof. split; [apply check_iff; reflexivity|]. intros p H. simpl in H. repeat (destruct H as [<-|H]; [reflexivity|]). destruct H. Qed.
Lemma tetA_face f ps : f < 4 -> map (fun i => nth_error [0; 1; 2; 3] (face_node_id Tet4 f i)) (seq 0 3) = map Some ps -> wanted false (has_face tetA ps).
Proof.
  intros L E. exists (0, f). split.
  - exists ps. split; [|apply Permutation_refl]. exists (mkCell 0 1%Z Tet4 [0; 1; 2; 3]). split; [left; reflexivity|]. split; [reflexivity|]. split; [reflexivity|]. split; [exact L|]. exact E.
  - intros [c f'] (qs & (cl & I & Ec & _ & L' & M) & P). cbn [fst snd] in *. cbn in I. destruct I as [<-|[]]. cbn [c_id] in Ec. subst c. f_equal. change (f' < 4) in L'. change (face_ncorner Tet4) with 3 in M. cbn [c_points c_kind] in M.
    assert (D : forall f, f < 4 -> forall qs, map (fun i => nth_error [0; 1; 2; 3] (face_node_id Tet4 f i)) (seq 0 3) = map Some qs -> forall x, x < 4 -> (In x qs <-> x <> match f with 0 => 1 | 1 => 2 | 2 => 3 | _ => 0 end)).
    { clear. intros f L qs E x Lx. destruct f as [|[|[|[|f]]]]; [| | | |lia]; vm_compute in E; destruct qs as [|q0 [|q1 [|q2 [|q3 qs]]]]; try discriminate; injection E as <- <- <-;
      cbn; destruct x as [|[|[|[|x]]]]; try lia. }
    destruct (Nat.eq_dec f f') as [Ef|Nf]; [exact Ef|]. exfalso.
    pose proof (D f L ps E) as D1. pose proof (D f' L' qs M) as D2. set (z := match f with 0 => 1 | 1 => 2 | 2 => 3 | _ => 0 end) in *.
    assert (Lz : z < 4) by (unfold z; destruct f as [|[|[|f]]]; lia). apply (D1 z Lz); [|reflexivity]. eapply Permutation_in; [apply Permutation_sym, P|]. apply (D2 z Lz).
    unfold z. destruct f as [|[|[|[|f]]]], f' as [|[|[|[|f']]]]; lia.
Qed.
Lemma tetA_ready shuffle : (forall l, Permutation (shuffle l) l) -> exists ft, features_new Rleb shuffle tetA false = Ok ft /\ forall p, p < 4 -> In p (ft_points ft).
Proof.
  intros S. destruct tetA_valid as (C & CC & D). destruct (new_total Rleb shuffle S tetA false C CC D) as (ft & F). exists ft. split; [exact F|].
  destruct (points_and_limits Rleb shuffle S tetA false ft Rleb_total C D F) as (_ & U & _).
  assert (NQ : no_quadratic_tets tetA) by (intros c [<-|[]]; split; discriminate).
  assert (G : forall k, In k [[0; 1; 2]; [1; 2; 3]] -> exists fc, get_face ft k = Ok fc).
  { intros k Hk. apply (listed_faces_3d Rleb shuffle tetA false ft C eq_refl NQ F). split.
    - destruct Hk as [<-|[<-|[]]]; repeat constructor.
    - destruct Hk as [<-|[<-|[]]].
      + destruct (tetA_face 2 [0; 2; 1] ltac:(lia) eq_refl) as (x & H1 & H2).
        assert (PP : forall y, has_face tetA [0; 1; 2] y <-> has_face tetA [0; 2; 1] y) by (intros y; split; intros (qs & A & P); exists qs; (split; [exact A|]); (eapply Permutation_trans; [|exact P]); apply perm_skip, perm_swap).
        exists x. split; [apply PP; exact H1|]. intros y Hy. apply H2, PP, Hy.
      + exact (tetA_face 3 [1; 2; 3] ltac:(lia) eq_refl). }
  intros p Hp. apply U. right. left.
  assert (Hk : exists k, In k [[0; 1; 2]; [1; 2; 3]] /\ In p k) by (destruct p as [|[|[|[|p]]]]; [exists [0;1;2]|exists [0;1;2]|exists [0;1;2]|exists [1;2;3]|lia]; cbn; auto 6).
  destruct Hk as (k & Hk & Ip). destruct (G k Hk) as (fc & Gf). exists k, fc. split; [exact Gf|].
  destruct (TopoFeat6.get_face_points Rleb shuffle tetA false ft k fc C eq_refl F Gf) as (cf & cl & _ & _ & _ & _ & _ & _ & _ & _ & FK).
  eapply fkey_points; eauto.
Qed.
Lemma tetA_wide shuffle ft : (forall p, p < 4 -> In p (ft_points ft)) -> features_new Rleb shuffle tetA false = Ok ft ->
  (forall j, j < ndim tetA -> exists p q x y, In p (ft_points ft) /\ In q (ft_points ft) /\ coord_is tetA p j x /\ coord_is tetA q j y /\ x <> y) /\
  (forall pt, In pt (points tetA) -> enclosed tetA ft (pt_coords pt)).
Proof.
  intros P _.
  assert (X : forall j, j < 3 -> coord_is tetA 0 j 0%R /\ coord_is tetA (S j) j 1%R) by (intros j Hj; destruct j as [|[|[|j]]]; [| | |lia]; split; eexists; split; reflexivity). split.
  - intros j Hj. change (j < 3) in Hj. destruct (X j Hj) as (X0 & X1). exists 0, (S j), 0%R, 1%R. split; [apply P; lia|]. split; [apply P; lia|]. split; [exact X0|]. split; [exact X1|lra].
  - intros pt Hp j Hj. change (j < 3) in Hj. destruct (X j Hj) as (X0 & X1). exists 0, (S j), 0%R, 1%R. split; [apply P; lia|]. split; [apply P; lia|]. split; [exact X0|]. split; [exact X1|].
    cbn in Hp. destruct Hp as [<-|[<-|[<-|[<-|[]]]]]; destruct j as [|[|[|j]]]; try lia; cbn; lra.
Qed.
Lemma tets_join shp shuffle sh : any_order shp shuffle sh -> exists m, join_two_meshes shp shuffle sh tetA (tetB []) = Ok m.
Proof.
  intros O. pose proof O as (O1 & O2 & O3). destruct (tetA_ready shuffle O2) as (ft & F & P). destruct (tetA_wide shuffle ft P F) as (W & En).
  apply (C28_total shp shuffle sh tetA (tetB []) ft O tetA_valid (proj1 (tetB_valid [])) (proj2 (tetB_valid [])) eq_refl F W En). split.
  - intros mk p q I. cbn in I. destruct I as [E|[E|[]]]; injection E as <- <- <-; cbn; lia.
  - intros mk p q r s [].
Qed.
Lemma tol3 : (tolR 3 < / 1000)%R.
Proof.
  unfold tolR. assert (H : (sqrt (INR 3) <= 2)%R); [|lra]. replace 2%R with (sqrt 4) by (replace 4%R with (2 * 2)%R by lra; apply sqrt_square; lra). apply sqrt_le_1_alt. cbn. lra.
Qed.
(* the three corners of the common face are merged, the fourth corner is new *)
Example C28_ex : forall shp shuffle sh, any_order shp shuffle sh -> exists m, join_two_meshes shp shuffle sh tetA (tetB []) = Ok m /\
  map c_points (cells m) = [[0; 1; 2; 3]; [1; 2; 3; 4]] /\ nth_error (points m) 4 = Some (mkPoint 4 7%Z [1; 1; 1]%R).
Proof.
  intros shp shuffle sh O. destruct (tets_join _ _ _ O) as (m & H). exists m. split; [exact H|]. pose proof O as (O1 & O2 & O3). destruct (tetA_ready shuffle O2) as (ft & F & P).
  destruct (tetA_wide shuffle ft P F) as (_ & En).
  destruct (C28_join _ _ _ _ _ _ O tetA_valid (proj1 (tetB_valid [])) (proj2 (tetB_valid [])) H) as (Vm & _ & _ & KP & KC & NC & f & Pl & CC & Mg & Nw & _). specialize (Mg ft F).
  change (ndim tetA) with 3 in *.
  assert (CL : forall x y : list R, List.length x = 3 -> List.length y = 3 -> (euclid x y <= tolR 3)%R -> forall j, j < 3 -> (Rabs (nth j x 0 - nth j y 0) < / 1000)%R).
  { intros x y Lx Ly E j Hj. assert (Hx : j < List.length x) by lia. assert (Hy : j < List.length y) by lia. pose proof (coord_le_euclid x y j _ _ (nth_error_nth' x 0%R Hx) (nth_error_nth' y 0%R Hy)). pose proof tol3. lra. }
  assert (FA : forall p, p < 3 -> f p = S p).
  { intros p Hp. assert (EP : exists pt, nth_error (points (tetB [])) p = Some pt /\ nth_error (points tetA) (S p) = Some (mkPoint (S p) 0%Z (pt_coords pt)) /\ List.length (pt_coords pt) = 3 /\
       (forall q qt, nth_error (points tetA) q = Some qt -> q <> S p -> exists j, j < 3 /\ (1 <= Rabs (nth j (pt_coords qt) 0 - nth j (pt_coords pt) 0))%R)).
    { destruct p as [|[|[|p]]]; [| | |lia]; eexists; (split; [reflexivity|]); (split; [reflexivity|]); (split; [reflexivity|]); intros q qt Eq Nq.
      - exists 0. split; [lia|]. destruct q as [|[|[|[|q]]]]; cbn in Eq; try lia; try (destruct q; discriminate); injection Eq as <-; cbn; rewrite <- Rabs_Ropp, Rabs_right; lra.
      - exists 1. split; [lia|]. destruct q as [|[|[|[|q]]]]; cbn in Eq; try lia; try (destruct q; discriminate); injection Eq as <-; cbn; rewrite <- Rabs_Ropp, Rabs_right; lra.
      - exists 2. split; [lia|]. destruct q as [|[|[|[|q]]]]; cbn in Eq; try lia; try (destruct q; discriminate); injection Eq as <-; cbn; rewrite <- Rabs_Ropp, Rabs_right; lra. }
    destruct EP as (pt & E & EA & L3 & Far). destruct (Mg p pt E) as [(q & Nq & D)|(_ & _ & Fr & _)].
    - destruct (Nat.eq_dec (f p) (S p)) as [X|X]; [exact X|]. exfalso. destruct (Far _ _ Nq X) as (j & Hj & B).
      pose proof (CL (pt_coords q) (pt_coords pt) ltac:(destruct tetA_valid as (_ & K & _); apply K; eapply nth_error_In; eauto) L3 D j Hj). lra.
    - exfalso. apply (Fr (S p) _ EA (En _ (nth_error_In _ _ EA))). cbn [pt_coords]. split; [reflexivity|]. intros i _. rewrite Rminus_diag_eq, Rabs_R0 by reflexivity. lra. }
  assert (F3 : f 3 = 4 /\ nth_error (points m) 4 = Some (mkPoint 4 7%Z [1; 1; 1]%R)).
  { destruct (Mg 3 (mkPoint 3 7%Z [1; 1; 1]%R) eq_refl) as [(q & Nq & D)|(L & N & _ & _)].
    - exfalso. assert (Lq : List.length (pt_coords q) = 3) by (destruct tetA_valid as (_ & K & _); apply K; eapply nth_error_In; eauto).
      pose proof (CL _ [1; 1; 1]%R Lq eq_refl D 0 ltac:(lia)) as B0. pose proof (CL _ [1; 1; 1]%R Lq eq_refl D 1 ltac:(lia)) as B1. cbn [pt_coords nth] in B0, B1.
      destruct (f 3) as [|[|[|[|n]]]]; cbn in Nq; try (destruct n; discriminate); injection Nq as <-; cbn in B0, B1; rewrite <- Rabs_Ropp, Rabs_right in B0, B1; lra.
    - change (List.length (points tetA)) with 4 in *. assert (Lm : f 3 < List.length (points m)) by (eapply nth_error_lt; eauto). destruct (Nat.eq_dec (f 3) 4) as [X|X]; [rewrite X in N; auto|].
      exfalso. destruct (Nw 4 ltac:(lia)) as (p & Lp & Fp). change (p < 4) in Lp. destruct p as [|[|[|[|p]]]]; try lia; (rewrite FA in Fp by lia; lia). }
  destruct F3 as (F3 & N4). split; [|exact N4]. change (List.length (cells tetA)) with 1 in *. change (List.length (cells (tetB []))) with 1 in *.
  pose proof (KC 0 _ eq_refl) as K0. destruct (CC 0 _ eq_refl) as (c' & K1 & _ & _ & K2). cbn [plus] in K1. cbn [c_points map] in K2.
  destruct (cells m) as [|c0 [|c1 [|c2 cs]]]; cbn in NC; try lia. cbn in K0, K1. injection K0 as ->. injection K1 as ->. cbn [map]. rewrite K2, (FA 0), (FA 1), (FA 2), F3 by lia. reflexivity.
Qed.

(* ------------------------------------------------------------------ C59 *)
Theorem C59_marked_edges : forall shp shuffle sh a b m, any_order shp shuffle sh -> valid a -> consistent b -> coords_complete b ->
  join_two_meshes shp shuffle sh a b = Ok m ->
  exists f, placed (tolR (ndim a)) b m f /\ carries_cells (List.length (cells a)) b m f /\
    StronglySorted lex (map (fun q => (snd (fst q), snd q)) (marked_edges m)) /\
    forall mk x y, In (mk, x, y) (marked_edges m) <-> x <= y /\ exists q, last_first (edge_at x y) (marked_edges a) (map (move_edge f) (marked_edges b)) q /\ fst (fst q) = mk.
Proof.
  intros shp shuffle sh a b m (O1 & O2 & O3) V Cb CCb H. destruct (joined_spec shp shuffle O2 sh O3 a b m V Cb CCb H) as (Vm & f & (J1 & J2 & J3 & J4 & J5 & J6 & J7 & J8 & J9 & J10) & (A & B) & _). exists f. auto.
Qed.
Print Assumptions C59_marked_edges.
Theorem C59_marked_faces : forall shp shuffle sh a b m, any_order shp shuffle sh -> valid a -> consistent b -> coords_complete b ->
  join_two_meshes shp shuffle sh a b = Ok m ->
  exists f, placed (tolR (ndim a)) b m f /\ carries_cells (List.length (cells a)) b m f /\
    StronglySorted lex_list (map marked_face_points (marked_faces m)) /\
    forall q', In q' (marked_faces m) <-> StronglySorted le (marked_face_points q') /\
      exists q, last_first (face_at (marked_face_points q')) (marked_faces a) (map (move_face f) (marked_faces b)) q /\ fst (fst (fst (fst q))) = fst (fst (fst (fst q'))).
Proof.
  intros shp shuffle sh a b m (O1 & O2 & O3) V Cb CCb H. destruct (joined_spec shp shuffle O2 sh O3 a b m V Cb CCb H) as (Vm & f & (J1 & J2 & J3 & J4 & J5 & J6 & J7 & J8 & J9 & J10) & _ & (A & B)). exists f. auto.
Qed.
Print Assumptions C59_marked_faces.
(* the hypotheses hold for the two tetrahedra, and the marker of the first mesh wins *)
Example C59_ex : forall shp shuffle sh, any_order shp shuffle sh -> exists m, join_two_meshes shp shuffle sh tetA (tetB []) = Ok m /\
  In ((-1)%Z, 1, 2) (marked_edges m) /\ ~ In ((-2)%Z, 1, 2) (marked_edges m).
Proof.
  intros shp shuffle sh O. destruct (tets_join _ _ _ O) as (m & H). exists m. split; [exact H|].
  destruct (C59_marked_edges _ _ _ _ _ _ O tetA_valid (proj1 (tetB_valid [])) (proj2 (tetB_valid [])) H) as (f & _ & _ & _ & S).
  assert (E : edge_at 1 2 ((-1)%Z, 2, 1)) by (right; auto). split.
  - apply S. split; [lia|]. exists ((-1)%Z, 2, 1). split; [|reflexivity]. split; [exact E|]. left. exists [], []. split; [reflexivity|]. intros q [].
  - intros X. apply S in X as (_ & q & (_ & [(u & v & Eu & _)|(N & _)]) & M).
    + cbn [marked_edges tetA] in Eu. destruct u as [|x [|y u]]; cbn in Eu; [injection Eu as <- _; discriminate|discriminate|discriminate].
    + apply (N ((-1)%Z, 2, 1)); [left; reflexivity|exact E].
Qed.

(* several meshes: the last entry of the first mesh wins, otherwise the first entry in the following meshes *)
Theorem C59_many : forall shp shuffle sh m0 ms m, any_order shp shuffle sh -> valid m0 -> Forall (fun b => consistent b /\ coords_complete b) ms ->
  join_meshes shp shuffle sh (m0 :: ms) = Ok m ->
  exists fs, List.length fs = List.length ms /\
    (forall k f mk, nth_error fs k = Some f -> nth_error ms k = Some mk -> placed (tolR (ndim m0)) mk m f /\ carries_cells (cells_before (m0 :: ms) (S k)) mk m f) /\
    keeps_points m0 m /\ (forall i c, nth_error (cells m0) i = Some c -> nth_error (cells m) i = Some c) /\
    (forall j, j < List.length (points m) -> j < List.length (points m0) \/
       exists k f mk p, nth_error fs k = Some f /\ nth_error ms k = Some mk /\ p < List.length (points mk) /\ f p = j) /\
    StronglySorted lex (map (fun q => (snd (fst q), snd q)) (marked_edges m)) /\
    StronglySorted lex_list (map marked_face_points (marked_faces m)) /\
    (forall mk x y, In (mk, x, y) (marked_edges m) <-> x <= y /\ exists q, last_first (edge_at x y) (marked_edges m0) (moved_edges fs ms) q /\ fst (fst q) = mk) /\
    forall q', In q' (marked_faces m) <-> StronglySorted le (marked_face_points q') /\
      exists q, last_first (face_at (marked_face_points q')) (marked_faces m0) (moved_faces fs ms) q /\ fst (fst (fst (fst q))) = fst (fst (fst (fst q'))).
Proof.
  intros shp shuffle sh m0 ms m (O1 & O2 & O3) V Fm H. destruct (join_marks shp shuffle O2 sh O3 m0 ms m V Fm H) as (fs & A1 & A2 & A3 & A4 & A5 & A6 & A7 & Au & A8 & A9 & A10 & A11).
  exists fs. split; [exact A1|]. split; [exact A7|]. split; [exact A5|]. split; [exact A6|]. split; [exact Au|]. split; [exact A8|]. split; [exact A9|]. split; [|exact A11].
  intros mk x y. exact (A10 (mk, x, y)).
Qed.
Print Assumptions C59_many.
Example C59_many_ex : forall shp shuffle sh, any_order shp shuffle sh -> exists m, join_meshes shp shuffle sh [tetA; tetB []] = Ok m /\ In ((-1)%Z, 1, 2) (marked_edges m).
Proof.
  intros shp shuffle sh O. destruct (tets_join _ _ _ O) as (m & H). exists m. assert (H' : join_meshes shp shuffle sh [tetA; tetB []] = Ok m) by (unfold join_meshes; cbn [foldM]; rewrite H; reflexivity).
  split; [exact H'|]. destruct (C59_many _ _ _ _ _ _ O tetA_valid (Forall_cons _ (tetB_valid []) (Forall_nil _)) H') as (fs & _ & _ & _ & _ & _ & _ & _ & E & _).
  apply E. split; [lia|]. exists ((-1)%Z, 2, 1). split; [|reflexivity]. split; [right; auto|]. left. exists [], []. split; [reflexivity|]. intros q [].
Qed.

(* a marked triangular face in the second mesh can never be joined, *)
Theorem C59_triangular : forall shp shuffle sh a b m mk p q r, In (mk, p, q, r, None) (marked_faces b) -> join_two_meshes shp shuffle sh a b <> Ok m.
Proof. exact join_triangular. Qed.
Print Assumptions C59_triangular.
(* it makes the function panic, with valid meshes *)
Theorem C59_never_panics_refuted : exists a b, valid a /\ valid b /\ (exists ps, marked_faces b = [((-5)%Z, 0, 1, 2, None)] /\ has_face b [0; 1; 2] ps) /\
  forall shp shuffle sh, any_order shp shuffle sh -> join_two_meshes shp shuffle sh a b = Panic.
Proof.
  exists tetA, (tetB [((-5)%Z, 0, 1, 2, None)]). split; [exact tetA_valid|]. split; [destruct (tetB_valid [((-5)%Z, 0, 1, 2, None)]); split; [assumption|split; [assumption|right; reflexivity]]|]. split.
  - exists (0, 2). split; [reflexivity|]. exists [0; 2; 1]. split; [|apply perm_skip, perm_swap]. exists (mkCell 0 2%Z Tet4 [0; 1; 2; 3]). split; [left; reflexivity|].
    split; [reflexivity|]. split; [reflexivity|]. split; [apply Nat.ltb_lt; reflexivity|reflexivity].
  - intros shp shuffle sh O. pose proof O as (O1 & O2 & O3). destruct (tetA_ready shuffle O2) as (ft & F & P). destruct (tetA_wide shuffle ft P F) as (W & En).
    set (b := tetB [((-5)%Z, 0, 1, 2, None)]). destruct (tetB_valid [((-5)%Z, 0, 1, 2, None)]) as (Cb & CCb). fold b in Cb, CCb.
    destruct (join_upto shp O1 shuffle O2 sh O3 tetA b ft tetA_valid Cb CCb eq_refl F W En) as (g & pts & ids & cs & G & PP & L & C).
    unfold join_two_meshes. change (ndim tetA =? ndim b) with true. cbn [negb]. rewrite G. cbn [bind]. rewrite PP. cbn [bind]. rewrite C. cbn [bind].
    change (List.length (points b)) with 4 in L. destruct ids as [|i0 [|i1 [|i2 [|i3 [|i4 ids]]]]]; cbn in L; try lia. reflexivity.
Qed.
Print Assumptions C59_never_panics_refuted.
