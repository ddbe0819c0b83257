(* Closed forms: the fields of the structures; elements for which the hypotheses hold. *)
From Coquelicot Require Import Coquelicot.
From Coq Require Import Reals QArith Qreals List Arith Bool Lia Lra.
From Verif Require Import Base BaseFacts Kind Expr ExprProof ShapesModel ShapesSpec ShapesProof PadModel PadSpec PadProof PadProof2 PadProof3 GaussModel GaussSpec GaussProof IntegModel IntegSpec AnaData AnaModel AnaSpec AnaProof AnaProof2 AnaProof3 AnaProof4 AnaProof5 AnaProof7.
Import ListNotations.
Local Open Scope R_scope.

Lemma grad_intro p ksi d B a : pad_wf p -> kind_ndim (p_kind p) = p_space p -> List.length ksi = kind_ndim (p_kind p) ->
  (forall i j, (i < p_space p)%nat -> (j < p_space p)%nat ->
     sum_n (kind_nnode (p_kind p)) (fun m => node_x p i m * ent (calc_deriv (p_kind p) ksi) m j) = a i j) ->
  d = det (p_space p) a -> d <> 0 ->
  (forall m j, (m < kind_nnode (p_kind p))%nat -> (j < p_space p)%nat ->
    sum_n (p_space p) (fun i => ent B m i * a i j) = ent (calc_deriv (p_kind p) ksi) m j) ->
  gradient_at p ksi d B.
Proof.
  intros W E L HJ D D0 HB. split; [exact E|]. exists a. split.
  - intros i j Hi Hj. rewrite <- HJ by (auto; lia). rewrite <- jj_ent by auto. apply jj_partial; auto. lia.
  - split; [exact D|]. split; [exact D0|]. intros m j Hm Hj. rewrite HB by auto.
    apply (deriv_correct (p_kind p) ksi m j); auto. lia.
Qed.

Lemma tri_solid p t : pad_wf p -> p_kind p = Tri3 -> p_space p = 2%nat -> tri3_new p = Ok t -> t_area t <> 0 ->
  solid_element p (fun _ => 2 * t_area t) (fun _ => t_bb t).
Proof.
  intros W K N H A ksi L. apply (grad_intro p ksi _ _ (fun i j => node_x p i (S j) - node_x p i 0)); auto.
  - rewrite K, N. reflexivity.
  - rewrite K, N. intros i j _ Hj. unfold sum_n. change (kind_nnode Tri3) with 3%nat. cbn [map seq sum]. rewrite !tri_deriv by lia. cases2 Hj; cbn [Nat.eqb]; ring.
  - rewrite N. unfold tri3_new in H. rewrite K in H. injection H as <-. cbn [t_area]. unfold det. change (ent (p_xxt p)) with (node_x p). field.
  - rewrite K, N. change (kind_nnode Tri3) with 3%nat. intros m j Hm Hj. rewrite tri_deriv by auto.
    unfold tri3_new in H. rewrite K in H. injection H as <-. cbn [t_area t_bb] in *. change (ent (p_xxt p)) with (node_x p) in *.
    unfold sum_n. cbn [map seq sum]. unfold ent.
    cases2 Hm; cases2 Hj; cbn [nth Nat.eqb]; (field; intros Z; apply A; lra).
Qed.

Lemma tet_solid p t : pad_wf p -> p_kind p = Tet4 -> tet4_new p = Ok t -> e_volume t <> 0 ->
  solid_element p (fun _ => 6 * e_volume t) (fun _ => e_bb t).
Proof.
  intros W K H A ksi L.
  assert (N : p_space p = 3%nat). { destruct W as ([W|W] & W2 & _); [rewrite K, W in W2; change (kind_ndim Tet4) with 3%nat in W2; lia|exact W]. }
  apply (grad_intro p ksi _ _ (fun i j => node_x p i (S j) - node_x p i 0)); auto.
  - rewrite K, N. reflexivity.
  - rewrite K, N. intros i j _ Hj. unfold sum_n. change (kind_nnode Tet4) with 4%nat. cbn [map seq sum]. rewrite !tet_deriv by lia. cases2 Hj; cbn [Nat.eqb]; ring.
  - rewrite N. unfold tet4_new in H. rewrite K in H. injection H as <-. cbn [e_volume]. unfold det. change (ent (p_xxt p)) with (node_x p). field.
  - rewrite K, N. change (kind_nnode Tet4) with 4%nat. intros m j Hm Hj. rewrite tet_deriv by auto.
    unfold tet4_new in H. rewrite K in H. injection H as <-. cbn [e_volume e_bb] in *. change (ent (p_xxt p)) with (node_x p) in *.
    unfold sum_n. cbn [map seq sum]. unfold ent.
    match type of A with ?v / 6 <> 0 => assert (V : v <> 0) by (intros Z; apply A; rewrite Z; field) end.
    cases2 Hm; cases2 Hj; cbn [nth Nat.eqb]; (field; intros Z; apply V; lra).
Qed.

(* the gradient in a rectangle *)
Definition rect_grad (k : geokind) (a b : R) (ksi : list R) : mat :=
  map (fun m => [ent (calc_deriv k ksi) m 0 / a; ent (calc_deriv k ksi) m 1 / b]) (seq 0 (kind_nnode k)).
Lemma rect_solid p a b c : pad_wf p -> p_space p = 2%nat -> kind_ndim (p_kind p) = 2%nat -> rectangle p a b c -> a <> 0 -> b <> 0 ->
  solid_element p (fun _ => a * b) (rect_grad (p_kind p) a b).
Proof.
  intros W N2 D2 HR Ha Hb ksi L.
  apply (grad_intro p ksi _ _ (fun i j => if Nat.eqb i j then (if Nat.eqb i 0 then a else b) else 0)); auto.
  - lia.
  - intros i j Hi Hj. rewrite <- jj_ent by (auto; lia).
    apply (jacobian_unique p ksi _ (fun i j => if Nat.eqb i j then (if Nat.eqb i 0 then a else b) else 0)); [apply jj_partial; auto; lia|apply (affine_jacobian p _ c); auto; lia|auto|lia].
  - rewrite N2. unfold det. cbn [Nat.eqb]. ring.
  - rewrite N2. intros m j Hm Hj.
    assert (G : forall i, (i < 2)%nat -> ent (rect_grad (p_kind p) a b ksi) m i = ent (calc_deriv (p_kind p) ksi) m i / half a b i).
    { intros i Hi. unfold rect_grad, ent at 1. set (F := fun m => _). rewrite (nth_indep _ [] (F 0%nat)) by (rewrite map_length, seq_length; auto).
      rewrite (map_nth F), seq_nth by auto. unfold F. cases2 Hi; reflexivity. }
    unfold sum_n. cbn [map seq sum]. rewrite !G by lia. cases2 Hj; cbn [Nat.eqb half]; field; auto.
Qed.

Lemma tri_panics p : p_kind p <> Tri3 -> tri3_new p = Panic.
Proof. unfold tri3_new. destruct (p_kind p); auto. congruence. Qed.
Lemma tet_panics p : p_kind p <> Tet4 -> tet4_new p = Panic.
Proof. unfold tet4_new. destruct (p_kind p); auto. congruence. Qed.

(* the fields *)
Lemma tri_fields p t : pad_wf p -> p_kind p = Tri3 -> p_space p = 2%nat -> tri3_new p = Ok t ->
  (forall d B, solid_element p d B -> cell_integral Tri3 d (t_area t) /\ forall ksi, List.length ksi = 2%nat -> d ksi = 2 * t_area t /\ forall m i, (m < 3)%nat -> (i < 2)%nat -> ent (B ksi) m i = ent (t_bb t) m i) /\
  (t_area t <> 0 -> solid_element p (fun _ => 2 * t_area t) (fun _ => t_bb t)) /\
  is_matrix 3 2 (t_bb t) /\ is_matrix 4 6 (t_bbe t) /\
  (t_area t <> 0 -> forall m i k, (m < 3)%nat -> (i < 2)%nat -> (k < 4)%nat -> ent (t_bbe t) k (i + m * 2) = mandel (sym_grad 2 (t_bb t) m i) k).
Proof.
  intros W K N H. split; [|split; [|split; [|split]]].
  - intros d B HS. destruct (tri_facts p t d B W K N H HS) as [A F]. split; [|exact F].
    apply (fit Tri3 _ _ _ _ 0 (2 * t_area t) z0 z0 _ _ tri_ints); [change (kind_nnode Tri3) with 3%nat; lia| |].
    + intros ksi L. destruct (F ksi L) as [-> _]. unfold z0, sum_n. change (kind_nnode Tri3) with 3%nat. cbn [map seq sum]. ring.
    + unfold z0, sum_n. change (kind_nnode Tri3) with 3%nat. cbn [map seq sum]. field.
  - intros A. now apply tri_solid.
  - unfold tri3_new in H. rewrite K in H. injection H as <-. cbn [t_bb]. split; [reflexivity|]. repeat (apply Forall_cons; [reflexivity|]). apply Forall_nil.
  - unfold tri3_new in H. rewrite K in H. injection H as <-. cbn [t_bbe]. split; [reflexivity|]. repeat (apply Forall_cons; [reflexivity|]). apply Forall_nil.
  - intros A m i k. now apply (tri_bbe p).
Qed.
Lemma tet_fields p t : pad_wf p -> p_kind p = Tet4 -> tet4_new p = Ok t ->
  (forall d B, solid_element p d B -> cell_integral Tet4 d (e_volume t) /\ forall ksi, List.length ksi = 3%nat -> d ksi = 6 * e_volume t /\ forall m i, (m < 4)%nat -> (i < 3)%nat -> ent (B ksi) m i = ent (e_bb t) m i) /\
  (e_volume t <> 0 -> solid_element p (fun _ => 6 * e_volume t) (fun _ => e_bb t)) /\
  is_matrix 4 3 (e_bb t) /\ is_matrix 6 12 (e_bbe t) /\
  (e_volume t <> 0 -> forall m i k, (m < 4)%nat -> (i < 3)%nat -> (k < 6)%nat -> ent (e_bbe t) k (i + m * 3) = mandel (sym_grad 3 (e_bb t) m i) k).
Proof.
  intros W K H. split; [|split; [|split; [|split]]].
  - intros d B HS. destruct (tet_facts p t d B W K H HS) as [A F]. split; [|exact F].
    apply (fit Tet4 _ _ _ _ 0 (6 * e_volume t) z0 z0 _ _ tet_ints); [change (kind_nnode Tet4) with 4%nat; lia| |].
    + intros ksi L. destruct (F ksi L) as [-> _]. unfold z0, sum_n. change (kind_nnode Tet4) with 4%nat. cbn [map seq sum]. ring.
    + unfold z0, sum_n. change (kind_nnode Tet4) with 4%nat. cbn [map seq sum]. field.
  - intros A. now apply tet_solid.
  - unfold tet4_new in H. rewrite K in H. injection H as <-. cbn [e_bb]. split; [reflexivity|]. repeat (apply Forall_cons; [reflexivity|]). apply Forall_nil.
  - unfold tet4_new in H. rewrite K in H. injection H as <-. cbn [e_bbe]. split; [reflexivity|]. repeat (apply Forall_cons; [reflexivity|]). apply Forall_nil.
  - intros A m i k. now apply (tet_bbe p).
Qed.

Lemma tri_side_panics p t side s axi : tri3_new p = Ok t -> (3 <= side)%nat -> tri3_vec_01_ns_bry t side s axi = Panic /\ tri3_mat_01_nsn_bry t side s axi = Panic.
Proof.
  intros H S3. apply bry_panic; auto. unfold tri3_new in H. destruct (p_kind p); try discriminate. injection H as <-. reflexivity.
Qed.

Lemma measured_exists p : pad_wf p -> kind_ndim (p_kind p) = 1%nat -> p_space p = 2%nat -> exists d, measured p d.
Proof.
  intros W K N. exists (fun ksi => sqrt (sum_n (p_space p) (fun i => ent (mat_mul (kind_ndim (p_kind p)) (p_xxt p) (calc_deriv (p_kind p) ksi)) i 0 ^ 2))).
  intros ksi L. exists (ent (mat_mul (kind_ndim (p_kind p)) (p_xxt p) (calc_deriv (p_kind p) ksi))). split; [apply jj_partial; auto; lia|].
  split; [|split]; intros; try lia; reflexivity.
Qed.

(* values with the same integrals agree *)
Lemma vec_unique k M ni V u v : vec_integral k M ni V u -> vec_integral k M ni V v -> u = v.
Proof.
  intros [L1 H1] [L2 H2]. apply (nth_ext _ _ 0 0); [lia|]. intros x Hx. rewrite L1 in Hx.
  destruct (Nat.eq_dec ni 0) as [->|Z]; [lia|].
  assert (E : x = (x mod ni + (x / ni) * ni)%nat) by (rewrite Nat.add_comm, Nat.mul_comm; apply Nat.div_mod; auto).
  assert (Hi : (x mod ni < ni)%nat) by now apply Nat.mod_upper_bound.
  assert (Hm : (x / ni < M)%nat) by (apply Nat.div_lt_upper_bound; lia).
  rewrite E. apply (cell_unique k (V (x / ni)%nat (x mod ni)%nat)); auto.
Qed.

(* concrete elements *)
Definition a_tri : pad := mkPad Tri3 2 [] [] [] [] [] [[0; 2; 1]; [0; 0; 3]] true.
Definition a_side : pad := mkPad Lin2 2 [] [] [] [] [] [[1; 2]; [3; 0]] true.
Definition a_tet : pad := mkPad Tet4 3 [] [] [] [] [] [[0; 2; 1; 0]; [0; 0; 3; 0]; [0; 0; 1; 4]] true.
Definition a_qua4 : pad := mkPad Qua4 2 [] [] [] [] [] [[1; 5; 5; 1]; [0; 0; 2; 2]] true.
Definition a_qua8 : pad := mkPad Qua8 2 [] [] [] [] [] [[1; 5; 5; 1; 3; 5; 3; 1]; [0; 0; 2; 2; 0; 1; 2; 1]] true.
Lemma a_tri_wf : pad_wf a_tri. Proof. repeat split; simpl; auto. Qed.
Lemma a_side_wf : pad_wf a_side. Proof. repeat split; simpl; auto. Qed.
Lemma a_tet_wf : pad_wf a_tet. Proof. repeat split; simpl; auto. Qed.
Lemma a_qua4_wf : pad_wf a_qua4. Proof. repeat split; simpl; auto. Qed.
Lemma a_qua8_wf : pad_wf a_qua8. Proof. repeat split; simpl; auto. Qed.
Lemma a_tri_new : exists t, tri3_new a_tri = Ok t /\ t_area t = 3.
Proof. eexists. split; [reflexivity|]. unfold a_tri, ent. cbn [t_area p_xxt nth]. field. Qed.
Lemma a_tet_new : exists t, tet4_new a_tet = Ok t /\ e_volume t = 4.
Proof. eexists. split; [reflexivity|]. unfold a_tet, ent. cbn [e_volume p_xxt nth]. field. Qed.
Definition a_centre (i : nat) : R := if Nat.eqb i 0 then 3 else 1.
Lemma a_qua4_rect : rectangle a_qua4 2 1 a_centre.
Proof.
  intros i m Hi Hm. cbn [p_space a_qua4] in Hi. change (kind_nnode (p_kind a_qua4)) with 4%nat in Hm.
  cases2 Hi; cases2 Hm; cbn -[Rmult Rplus]; unfold Q2R; cbn -[Rmult Rplus]; lra.
Qed.
Lemma a_qua8_rect : rectangle a_qua8 2 1 a_centre.
Proof.
  intros i m Hi Hm. cbn [p_space a_qua8] in Hi. change (kind_nnode (p_kind a_qua8)) with 8%nat in Hm.
  cases2 Hi; cases2 Hm; cbn -[Rmult Rplus]; unfold Q2R; cbn -[Rmult Rplus]; lra.
Qed.
Lemma a_side_of : side_of a_tri a_side 1.
Proof.
  split; [reflexivity|]. split; [reflexivity|]. intros i a Hi Ha. cbn [p_space a_tri] in Hi. change (kind_nnode (p_kind a_side)) with 2%nat in Ha.
  cases2 Hi; cases2 Ha; reflexivity.
Qed.
