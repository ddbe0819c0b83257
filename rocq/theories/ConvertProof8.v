(* Proofs about the conversion of meshes: examples and counterexamples *)
From Coq Require Import String Reals QArith Qreals List Arith Bool ZArith Lia Lra Permutation.
From Verif Require Import Base BaseFacts Kind Expr ExprProof ShapesModel ShapesSpec ShapesProof ShapesTables ShapesShared MeshModel MeshQuerySpec MeshQueryProof TopoModel TopoSpec TopoMaps TopoProof TopoFeat TopoFeat4 TopoFeat5 PadModel PadSpec PadProof PadProof2 PadProof4 ConvertModel ConvertSpec ConvertProof ConvertProof2 ConvertProof3 ConvertProof4 ConvertProof5 ConvertProof6 ConvertProof7.
Import ListNotations.
Local Open Scope list_scope.
Local Open Scope nat_scope.

Lemma convert_total leb shuffle : (forall l, Permutation (shuffle l) l) -> forall m target, consistent m -> coords_complete m ->
  ((exists d, convert_2d leb shuffle m target = Ok d) <-> exists source, convertible m source target).
Proof.
  intros Sh m target C K. split.
  - intros (d & H). eapply convert_inputs; eauto.
  - intros (s & V). destruct (convert_run leb shuffle Sh m s target C K V) as (st & cs & E & _). eauto.
Qed.
Lemma convert_error leb shuffle : (forall l, Permutation (shuffle l) l) -> forall m source target, consistent m -> coords_complete m ->
  one_kind m source -> ~ convertible m source target -> exists msg, convert_2d leb shuffle m target = Err msg.
Proof.
  intros Sh m source target C K One N. unfold convert_2d.
  destruct (Nat.eqb_spec (ndim m) 2) as [D|]; [cbn [negb]|eexists; reflexivity].
  destruct (cells m) as [|c0 cs] eqn:Ecs; [eexists; reflexivity|].
  assert (E0 : c_kind c0 = source) by (apply One; rewrite Ecs; left; auto). rewrite E0.
  destruct (class_eqb (kind_class target) (kind_class source)) eqn:E1; [cbn [negb]|eexists; reflexivity]. apply class_eqb_eq in E1.
  destruct (class_eqb (kind_class target) CTri) eqn:E2.
  { destruct N. repeat split; auto; [congruence|]. left. rewrite <- E1. now apply class_eqb_eq. }
  destruct (class_eqb (kind_class target) CQua) eqn:E3.
  { destruct N. repeat split; auto; [congruence|]. right. rewrite <- E1. now apply class_eqb_eq. }
  eexists; reflexivity.
Qed.

(** local edges of a concrete mesh *)
Definition edge_table {T} (m : mesh T) : list (nat * nat * option nat * option nat) :=
  flat_map (fun cl => map (fun e => (c_id cl, e, nth_error (c_points cl) (edge_node_id (c_kind cl) e 0), nth_error (c_points cl) (edge_node_id (c_kind cl) e 1)))
    (seq 0 (if kind_ndim (c_kind cl) =? 2 then kind_nedge (c_kind cl) else 0))) (cells m).
Lemma edge_table_in {T} (m : mesh T) c e p q : edge_of m c e p q <-> In (c, e, Some p, Some q) (edge_table m).
Proof.
  unfold edge_table. rewrite in_flat_map. split.
  - intros (cl & I & Ic & D & He & P & Q). exists cl. split; [auto|]. apply in_map_iff. exists e. rewrite Ic, P, Q. split; [auto|].
    rewrite D. cbn [Nat.eqb]. apply in_seq. lia.
  - intros (cl & I & H). apply in_map_iff in H as (e' & H & J). apply in_seq in J. injection H as H1 H2 H3 H4. subst e'.
    destruct (Nat.eqb_spec (kind_ndim (c_kind cl)) 2) as [D|]; [|lia]. exists cl. repeat split; auto; lia.
Qed.

(* a square cut along a diagonal *)
Definition sq : mesh R :=
  mkMesh 2 [mkPoint 0 7%Z [0%R; 0%R]; mkPoint 1 0%Z [1%R; 0%R]; mkPoint 2 0%Z [0%R; 1%R]; mkPoint 3 8%Z [1%R; 1%R]]
    [mkCell 0 5%Z Tri3 [0; 1; 2]; mkCell 1 6%Z Tri3 [3; 2; 1]] [((-1)%Z, 0, 1)] [].
Lemma sq_table : edge_table sq = [(0, 0, Some 1, Some 0); (0, 1, Some 2, Some 1); (0, 2, Some 0, Some 2);
  (1, 0, Some 2, Some 3); (1, 1, Some 1, Some 2); (1, 2, Some 3, Some 1)].
Proof. reflexivity. Qed.
Lemma sq_consistent : consistent sq. Proof. apply check_iff. reflexivity. Qed.
Lemma sq_complete : coords_complete sq.
Proof. intros p H. simpl in H. repeat (destruct H as [<-|H]; [reflexivity|]). destruct H. Qed.
Lemma sq_convertible t : kind_class t = CTri -> convertible sq Tri3 t.
Proof.
  intros H. split; [reflexivity|]. split; [discriminate|]. split; [|split; [left; reflexivity|exact H]].
  intros c [<-|[<-|[]]]; reflexivity.
Qed.
Ltac edges H := rewrite edge_table_in, ?sq_table in H; simpl in H;
  repeat (destruct H as [H|H]; [injection H; clear H; intros; subst|]); try contradiction.
Lemma sq_oriented : oriented sq.
Proof. intros p q c e n ne H H'. edges H; edges H'; try discriminate; auto. Qed.
Lemma sq_conforming : conforming sq.
Proof.
  intros c e n ne p q cl cn i H H' Hc Hn Hi.
  edges H; edges H'; try discriminate; simpl in Hc, Hn; injection Hc as <-; injection Hn as <-;
    change (i < 2) in Hi; destruct i as [|[|i]]; try lia; reflexivity.
Qed.
Lemma sq_shares : shares sq 0 1 1 1.
Proof.
  split; [lia|]. exists 1, 2. split.
  - exists 2, 1. split; [apply edge_table_in; rewrite sq_table; simpl; tauto|right; auto].
  - exists 1, 2. split; [apply edge_table_in; rewrite sq_table; simpl; tauto|left; auto].
Qed.

(* the second triangle is numbered in the other sense *)
Definition cw : mesh R :=
  mkMesh 2 [mkPoint 0 0%Z [0%R; 0%R]; mkPoint 1 0%Z [1%R; 0%R]; mkPoint 2 0%Z [0%R; 1%R]; mkPoint 3 0%Z [0%R; (-1)%R]]
    [mkCell 0 1%Z Tri3 [0; 1; 2]; mkCell 1 1%Z Tri3 [0; 1; 3]] [] [].
Lemma cw_table : edge_table cw = [(0, 0, Some 1, Some 0); (0, 1, Some 2, Some 1); (0, 2, Some 0, Some 2);
  (1, 0, Some 1, Some 0); (1, 1, Some 3, Some 1); (1, 2, Some 0, Some 3)].
Proof. reflexivity. Qed.
Lemma cw_consistent : consistent cw. Proof. apply check_iff. reflexivity. Qed.
Lemma cw_complete : coords_complete cw.
Proof. intros p H. simpl in H. repeat (destruct H as [<-|H]; [reflexivity|]). destruct H. Qed.
Lemma cw_convertible : convertible cw Tri3 Tri10.
Proof.
  split; [reflexivity|]. split; [discriminate|]. split; [|split; [left; reflexivity|reflexivity]].
  intros c [<-|[<-|[]]]; reflexivity.
Qed.
Ltac edges2 H := rewrite edge_table_in, ?cw_table in H; simpl in H;
  repeat (destruct H as [H|H]; [injection H; clear H; intros; subst|]); try contradiction.
Lemma cw_two : two_per_edge cw.
Proof.
  intros a b [c e] [n ne] [n' ne'] (p & q & H & S) (p' & q' & H' & S') (p2 & q2 & H2 & S2). cbn [fst snd] in *.
  unfold same_pair in *.
  edges2 H; edges2 H'; auto; try lia; edges2 H2; auto; lia.
Qed.
Lemma cw_shares : shares cw 1 0 0 0.
Proof.
  split; [lia|]. exists 1, 0. split; exists 1, 0; (split; [apply edge_table_in; rewrite cw_table; simpl; tauto|left; auto]).
Qed.

Lemma tri3_interp r s : calc_interp Tri3 [r; s] = [(1 - r - s)%R; r; s].
Proof. unfold calc_interp. cbn. repeat f_equal. unfold Q2R. simpl. lra. Qed.

Lemma cw_misplaced leb shuffle : (forall l, Permutation (shuffle l) l) ->
  exists d c cl a pt, convert_2d leb shuffle cw Tri10 = Ok d /\ nth_error (cells cw) c = Some cl /\ a < kind_nnode Tri10 /\ node_point d c a pt /\
    pt_coords pt <> image cw cl (ref_coords Tri10 a).
Proof.
  intros Sh. destruct (proj2 (convert_total leb shuffle Sh cw Tri10 cw_consistent cw_complete) (ex_intro (fun s => convertible cw s Tri10) _ cw_convertible)) as (d & Rd).
  pose proof (edge_shared leb shuffle Sh cw Tri3 Tri10 cw_consistent cw_complete cw_convertible d Rd 1 0 0 0 2) as ES.
  destruct (node_some leb shuffle Sh cw Tri3 Tri10 cw_consistent cw_complete cw_convertible d Rd 0 6) as (q & I); [vm_compute; lia|vm_compute; lia|].
  specialize (ES q cw_two cw_shares ltac:(vm_compute; lia)).
  change (edge_node_id_inward Tri10 0 2) with 3 in ES. change (edge_node_id Tri10 0 2) with 6 in ES.
  pose proof (proj2 ES I) as J. destruct (result_valid leb shuffle Sh cw Tri3 Tri10 cw_consistent cw_complete cw_convertible d Rd) as (Cd & _).
  destruct I as (dc & Hd & Hq). assert (Lq : q < List.length (points d)) by (apply (proj2 Cd 0 dc Hd); eapply nth_error_In; eauto).
  destruct (nth_error (points d) q) as [pt|] eqn:Ep; [|apply nth_error_None in Ep; lia].
  destruct J as (dc1 & Hd1 & Hq1).
  exists d, 1, (mkCell 1 1%Z Tri3 [0; 1; 3]), 3, pt. split; [auto|]. split; [reflexivity|]. split; [vm_compute; lia|].
  split; [exists dc1, q; auto|].
  rewrite (result_created leb shuffle Sh cw Tri3 Tri10 cw_consistent cw_complete cw_convertible d Rd 0 (mkCell 0 1%Z Tri3 [0; 1; 2]) 6 pt);
    [|reflexivity|vm_compute; lia|intros; lia|exists dc, q; auto].
  assert (R6 : ref_coords Tri10 6 = [(2 / 3)%R; 0%R]) by (unfold ref_coords; cbn; unfold Q2R; simpl; repeat f_equal; lra).
  assert (R3 : ref_coords Tri10 3 = [(1 / 3)%R; 0%R]) by (unfold ref_coords; cbn; unfold Q2R; simpl; repeat f_equal; lra).
  rewrite R6, R3. intros E. apply (f_equal (fun l => nth 0 l 0%R)) in E. unfold image in E. cbn [ndim cw map seq nth c_kind] in E.
  rewrite !tri3_interp in E. cbn in E. lra.
Qed.

(* a triangle and a quadrilateral; the fourth edge of the quadrilateral is shared *)
Definition mixed : mesh R :=
  mkMesh 2 [mkPoint 0 0%Z [0%R; 0%R]; mkPoint 1 0%Z [1%R; 0%R]; mkPoint 2 0%Z [0%R; 1%R]; mkPoint 3 0%Z [(-1)%R; 0%R]; mkPoint 4 0%Z [(-1)%R; 1%R]]
    [mkCell 0 1%Z Tri3 [0; 1; 2]; mkCell 1 1%Z Qua4 [2; 4; 3; 0]] [] [].
Lemma mixed_table : edge_table mixed = [(0, 0, Some 1, Some 0); (0, 1, Some 2, Some 1); (0, 2, Some 0, Some 2);
  (1, 0, Some 4, Some 2); (1, 1, Some 3, Some 4); (1, 2, Some 0, Some 3); (1, 3, Some 2, Some 0)].
Proof. reflexivity. Qed.
Lemma mixed_consistent : consistent mixed. Proof. apply check_iff. reflexivity. Qed.
Lemma mixed_complete : coords_complete mixed.
Proof. intros p H. simpl in H. repeat (destruct H as [<-|H]; [reflexivity|]). destruct H. Qed.
Ltac edges3 H := rewrite edge_table_in, ?mixed_table in H; simpl in H;
  repeat (destruct H as [H|H]; [injection H; clear H; intros; subst|]); try contradiction.
Lemma mixed_panics leb shuffle : (forall l, Permutation (shuffle l) l) -> convert_2d leb shuffle mixed Tri6 = Panic.
Proof.
  intros Sh. unfold convert_2d. cbn [mixed ndim Nat.eqb negb cells c_kind kind_class class_eqb andb]. fold mixed.
  destruct (node_to_edge_ok Tri6) as (n2e & -> & _); [left; reflexivity|]. cbn [bind].
  destruct (new_total_2d leb shuffle Sh mixed true mixed_consistent mixed_complete eq_refl) as (ft & Ft). rewrite Ft. cbn [bind].
  destruct (pad_new_ok 2 Tri3) as (p & Ep & W & Kp & Sp & _); [auto|vm_compute; lia|]. cbn [ndim mixed]. rewrite Ep. fold mixed.
  match goal with |- context [seq 0 ?n] => change n with 2 end. cbn [seq foldM].
  match goal with |- context [convert_cell mixed ft Tri3 Tri6 n2e 3 ?s 0] => assert (X : convert_cell mixed ft Tri3 Tri6 n2e 3 s 0 = Panic) end.
  2:{ rewrite X. reflexivity. }
  unfold convert_cell. change (get (cells mixed) 0) with (Ok (mkCell 0 1%Z Tri3 [0; 1; 2])). cbn [bind c_kind kind_eqb negb v_pad v_marks v_rows v_points v_corners].
  destruct (load_cell_ok mixed Tri3 mixed_consistent mixed_complete eq_refl (mkCell 0 1%Z Tri3 [0; 1; 2]) p) as (p' & -> & _ & _); auto.
  { left. reflexivity. }
  cbn [bind]. change (edge_markers mixed (mkCell 0 1%Z Tri3 [0; 1; 2]) Tri3 (kind_nedge Tri6) (repeat 0%Z (kind_nedge Tri6))) with (Ok (repeat 0%Z (kind_nedge Tri6))).
  cbn [bind]. rewrite (get_ok _ _ []) by (vm_compute; lia). cbn [bind].
  match goal with |- context [foldM (corner_step ?a ?b) ?c ?d] => destruct (foldM (corner_step a b) c d) as [[[pts corners] con]| | |] eqn:Ecor; try (vm_compute in Ecor; discriminate) end.
  cbn [bind]. change (2 <? kind_edge_nnode Tri6) with true. cbn [bind].
  assert (F : TopoFeat5.fits mixed) by (intros c [<-|[<-|[]]]; vm_compute; lia).
  destruct (neighbors_total leb shuffle mixed true ft 0 mixed_consistent F eq_refl Ft) as (nbs & En); [vm_compute; lia|]. rewrite En. cbn [bind].
  destruct (neighbors_iff leb shuffle mixed true ft 0 nbs mixed_consistent F eq_refl Ft En) as [_ Nb].
  assert (All : forall x, In x nbs -> x = (2, 1, 3)).
  { intros [[e n] ne] I. apply Nb in I as (N & a & b & (p0 & q0 & H & S) & (p1 & q1 & H' & S')). cbn [fst snd] in *. unfold same_pair in *.
    edges3 H; edges3 H'; try lia; reflexivity. }
  assert (I0 : In (2, 1, 3) nbs).
  { apply Nb. split; [lia|]. exists 0, 2. split.
    - exists 0, 2. split; [apply edge_table_in; rewrite mixed_table; simpl; tauto|left; auto].
    - exists 2, 0. split; [apply edge_table_in; rewrite mixed_table; simpl; tauto|right; auto]. }
  destruct nbs as [|x nbs]; [destruct I0|]. rewrite (All x) by (left; reflexivity). cbn [foldM]. reflexivity.
Qed.
