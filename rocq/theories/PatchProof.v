(* Forces of a uniform stress on a cell; loads of the traction on a side *)
From Coquelicot Require Import Coquelicot.
From Coq Require Import String Reals QArith Qreals List Lia Lra Bool Arith ZArith Permutation Sorted.
From Verif Require Import Base BaseFacts Expr ExprProof ShapesData Kind MeshModel GraphModel MeshQuerySpec TopoModel TopoSpec TopoProof TopoFeat3 TopoFinal
  ShapesModel ShapesSpec ShapesProof GeomModel GeomProof PadModel PadSpec PadProof PadProof2 PadProof3 PadProof4 GaussModel GaussSpec GaussProof GaussProof2 GaussProof3 IntegModel IntegSpec IntegProof IntegProof6 PropInteg AnaProof AnaProof2
  NormalSpec NormalProof NormalProof2 NormalProof3 NormalModel NormalProof4 NormalProof5 PropNormal BalanceSpec BalanceProof BalanceProof2 BalanceProof3 PressureSpec PressureProof PatchSpec.
Import ListNotations.
Local Open Scope list_scope.
Local Open Scope R_scope.

(** ** the rules are symmetric *)
Definition zero_moments (c : geoclass) (n : nat) : bool :=
  match gauss_new_sized c n with
  | Ok g => Qeq_bool (table_sum (g_data g) (1, 0, 0)%nat) 0 && (match c with CLin => true | _ => Qeq_bool (table_sum (g_data g) (0, 1, 0)%nat) 0 end)
  | _ => false
  end.
Lemma line_moments : forallb (zero_moments CLin) (rule_sizes CLin) = true.
Proof. vm_compute. reflexivity. Qed.
Lemma qua_moments : forallb (zero_moments CQua) (rule_sizes CQua) = true.
Proof. vm_compute. reflexivity. Qed.
Lemma moment_zero c n g : c = CLin \/ c = CQua -> gauss_new_sized c n = Ok g ->
  sum_n (npoint g) (fun p => wt g p * pt g p 0) = 0 /\ (c = CQua -> sum_n (npoint g) (fun p => wt g p * pt g p 1) = 0).
Proof.
  intros Hc G. destruct (sized_in c n g G) as (I & _).
  assert (Z : zero_moments c n = true).
  { destruct Hc as [-> | ->]; [pose proof line_moments as M|pose proof qua_moments as M]; rewrite forallb_forall in M; exact (M _ I). }
  unfold zero_moments in Z. rewrite G in Z. apply andb_prop in Z as (Z1 & Z2). apply Qeq_bool_iff, Qeq_eqR in Z1. rewrite <- quadrature_mono in Z1.
  replace (Q2R 0) with 0 in Z1 by (unfold Q2R; cbn; lra).
  split.
  - rewrite <- Z1. apply sum_n_ext. intros p _. unfold monomial. cbn. ring.
  - intros ->. apply Qeq_bool_iff, Qeq_eqR in Z2. rewrite <- quadrature_mono in Z2. replace (Q2R 0) with 0 in Z2 by (unfold Q2R; cbn; lra).
    rewrite <- Z2. apply sum_n_ext. intros p _. unfold monomial. cbn. ring.
Qed.

(** ** gradients times determinant *)
Definition Jm (p : pad) (ksi : list R) (i j : nat) : R := sum_n (kind_nnode (p_kind p)) (fun a => node_x p i a * ent (calc_deriv (p_kind p) ksi) a j).
Lemma grad_eq p ksi d B : pad_wf p -> gradient_at p ksi d B -> List.length ksi = p_space p ->
  d = det (p_space p) (Jm p ksi) /\ forall m j, (m < kind_nnode (p_kind p))%nat -> (j < p_space p)%nat ->
    sum_n (p_space p) (fun i => ent B m i * Jm p ksi i j) = ent (calc_deriv (p_kind p) ksi) m j.
Proof.
  intros W (Dk & J & HJ & Hd & _ & HB) L.
  assert (X : forall i j, (i < p_space p)%nat -> (j < p_space p)%nat -> J i j = Jm p ksi i j).
  { intros i j Hi Hj. rewrite (jacobian_unique p ksi J _ i j HJ (jj_partial p ksi W ltac:(lia))) by lia. apply jj_ent; auto; lia. }
  split.
  - rewrite Hd. apply det_ext. exact X.
  - intros m j Hm Hj. apply (partial_unique (fun z => nth m (calc_interp (p_kind p) z) 0) ksi j).
    + rewrite <- (sum_n_ext _ (fun i => ent B m i * J i j)) by (intros i Hi; now rewrite X). now apply HB.
    + unfold partial, ent. apply deriv_correct; lia.
Qed.

(* d * gradient, by cofactors *)
Definition cof2 (D : nat -> nat -> R) (J : nat -> nat -> R) (m j : nat) : R :=
  match j with
  | 0%nat => D m 0%nat * J 1%nat 1%nat - D m 1%nat * J 1%nat 0%nat
  | _ => D m 1%nat * J 0%nat 0%nat - D m 0%nat * J 0%nat 1%nat
  end.
Lemma grad_cof2 p ksi d B m j : pad_wf p -> p_space p = 2%nat -> gradient_at p ksi d B -> List.length ksi = 2%nat -> (m < kind_nnode (p_kind p))%nat -> (j < 2)%nat ->
  d * ent B m j = cof2 (ent (calc_deriv (p_kind p) ksi)) (Jm p ksi) m j.
Proof.
  intros W S2 G L Hm Hj. destruct (grad_eq p ksi d B W G ltac:(lia)) as (Ed & E). rewrite S2 in *.
  pose proof (E m 0%nat Hm ltac:(lia)) as E0. pose proof (E m 1%nat Hm ltac:(lia)) as E1. clear E.
  unfold cof2. rewrite <- E0, <- E1, Ed. unfold sum_n, sum. cbn [seq map fold_right det]. destruct j as [|[|j]]; [| |lia]; ring.
Qed.

Definition next2 (k : geokind) (a : nat) : nat := match k, a with Tri3, 2%nat => 0 | Qua4, 3%nat => 0 | _, _ => S a end%nat.
Definition prev2 (k : geokind) (a : nat) : nat := match k, a with Tri3, 0%nat => 2 | Qua4, 0%nat => 3 | _, S a => a | _, _ => 0 end%nat.
(* half of the sum of the normal vectors (times length) of the two edges at node a *)
Definition nrm2 (k : geokind) (x : nat -> nat -> R) (a j : nat) : R :=
  match j with 0%nat => (x 1%nat (next2 k a) - x 1%nat (prev2 k a)) / 2 | _ => (x 0%nat (prev2 k a) - x 0%nat (next2 k a)) / 2 end.

Ltac cases3 H m := destruct m as [|[|[|[|m]]]]; try (exfalso; clear - H; cbn in H; lia).
Lemma qua_deriv r s m j : (m < 4)%nat -> (j < 2)%nat -> ent (calc_deriv Qua4 [r; s]) m j =
  match j, m with
  | 0%nat, 0%nat => (-1 + s) / 4 | 0%nat, 1%nat => (1 - s) / 4 | 0%nat, 2%nat => (1 + s) / 4 | 0%nat, _ => (-1 - s) / 4
  | _, 0%nat => (-1 + r) / 4 | _, 1%nat => (-1 - r) / 4 | _, 2%nat => (1 + r) / 4 | _, _ => (1 - r) / 4
  end.
Proof. intros Hm Hj. cases3 Hm m; destruct j as [|[|j]]; try lia; rewrite deriv_eval; cbn; unfold Q2R; cbn; lra. Qed.

Lemma tri_cof p ksi m j : p_kind p = Tri3 -> (m < 3)%nat -> (j < 2)%nat -> cof2 (ent (calc_deriv (p_kind p) ksi)) (Jm p ksi) m j = 2 * nrm2 Tri3 (node_x p) m j.
Proof.
  intros K Hm Hj. unfold cof2, Jm. rewrite K. change (kind_nnode Tri3) with 3%nat. unfold sum_n, sum. cbn [seq map fold_right].
  rewrite !tri_deriv by lia. destruct m as [|[|[|m]]]; try lia; destruct j as [|[|j]]; try lia; unfold nrm2, next2, prev2; cbn; field.
Qed.
Lemma qua_cof p m j : p_kind p = Qua4 -> (m < 4)%nat -> (j < 2)%nat -> exists c1 c2, forall r s,
  cof2 (ent (calc_deriv (p_kind p) [r; s])) (Jm p [r; s]) m j = nrm2 Qua4 (node_x p) m j / 4 + c1 * r + c2 * s.
Proof.
  intros K Hm Hj. set (F := fun r s => cof2 (ent (calc_deriv (p_kind p) [r; s])) (Jm p [r; s]) m j).
  exists (F 1 0 - F 0 0), (F 0 1 - F 0 0). intros r s. unfold F, cof2, Jm. rewrite K. change (kind_nnode Qua4) with 4%nat. unfold sum_n, sum. cbn [seq map fold_right].
  rewrite !qua_deriv by lia. cases3 Hm m; destruct j as [|[|j]]; try lia; unfold nrm2, next2, prev2; cbn; field.
Qed.

(* the integral of the gradient *)
Lemma grad_rule_2d A n d B m j : pad_wf (a_pad A) -> p_space (a_pad A) = 2%nat -> (p_kind (a_pad A) = Tri3 \/ p_kind (a_pad A) = Qua4) ->
  gauss_new_sized (kind_class (p_kind (a_pad A))) n = Ok (a_gauss A) ->
  (forall p, (p < npoint (a_gauss A))%nat -> gradient_at (a_pad A) (ksi_at A p) (d p) (B p)) -> (m < a_nnode A)%nat -> (j < 2)%nat ->
  sum_n (npoint (a_gauss A)) (fun p => wt (a_gauss A) p * (d p * ent (B p) m j)) = weight_ratio (p_kind (a_pad A)) (a_gauss A) * nrm2 (p_kind (a_pad A)) (node_x (a_pad A)) m j.
Proof.
  intros W S2 Kd G F Hm Hj. set (g := a_gauss A) in *. unfold a_nnode in Hm.
  assert (E : forall p, (p < npoint g)%nat -> d p * ent (B p) m j = cof2 (ent (calc_deriv (p_kind (a_pad A)) [pt g p 0; pt g p 1])) (Jm (a_pad A) [pt g p 0; pt g p 1]) m j).
  { intros p Hp. assert (Ks : ksi_at A p = [pt g p 0; pt g p 1]) by (unfold ksi_at; destruct Kd as [-> | ->]; reflexivity).
    specialize (F p Hp). rewrite Ks in F. apply grad_cof2; auto. }
  rewrite (sum_n_ext _ _ (fun p => wt g p * cof2 (ent (calc_deriv (p_kind (a_pad A)) [pt g p 0; pt g p 1])) (Jm (a_pad A) [pt g p 0; pt g p 1]) m j)) by (intros p Hp; now rewrite E).
  unfold weight_ratio. destruct Kd as [K|K].
  - rewrite K in Hm. change (kind_nnode Tri3) with 3%nat in Hm.
    rewrite (sum_n_ext _ _ (fun p => 2 * nrm2 Tri3 (node_x (a_pad A)) m j * wt g p)) by (intros p _; rewrite tri_cof by auto; ring).
    rewrite sum_n_scal, K. change (ref_measure (kind_class Tri3)) with (1 / 2). field.
  - rewrite K in Hm. change (kind_nnode Qua4) with 4%nat in Hm. destruct (qua_cof (a_pad A) m j K Hm Hj) as (c1 & c2 & Q).
    rewrite (sum_n_ext _ _ (fun p => nrm2 Qua4 (node_x (a_pad A)) m j / 4 * wt g p + (c1 * (wt g p * pt g p 0) + c2 * (wt g p * pt g p 1)))) by (intros p _; rewrite Q; ring).
    rewrite !sum_n_plus, !sum_n_scal. rewrite K in G. destruct (moment_zero CQua n g (or_intror eq_refl) G) as (Z0 & Z1). rewrite Z0, Z1 by auto.
    rewrite K. change (ref_measure (kind_class Qua4)) with 4. field.
Qed.

(** ** tetrahedra *)
Definition cof3 (J : nat -> nat -> R) (u v w : R) (j : nat) : R :=
  match j with
  | 0%nat => det 3 (fun a b => match a with 0%nat => match b with 0%nat => u | 1%nat => v | _ => w end | _ => J a b end)
  | 1%nat => det 3 (fun a b => match a with 1%nat => match b with 0%nat => u | 1%nat => v | _ => w end | _ => J a b end)
  | _ => det 3 (fun a b => match a with 2%nat => match b with 0%nat => u | 1%nat => v | _ => w end | _ => J a b end)
  end.
Lemma grad_cof3 p ksi d B m j : pad_wf p -> p_space p = 3%nat -> gradient_at p ksi d B -> List.length ksi = 3%nat -> (m < kind_nnode (p_kind p))%nat -> (j < 3)%nat ->
  d * ent B m j = cof3 (Jm p ksi) (ent (calc_deriv (p_kind p) ksi) m 0) (ent (calc_deriv (p_kind p) ksi) m 1) (ent (calc_deriv (p_kind p) ksi) m 2) j.
Proof.
  intros W S3 G L Hm Hj. destruct (grad_eq p ksi d B W G ltac:(lia)) as (Ed & E). rewrite S3 in *.
  rewrite <- !E by (auto; lia). rewrite Ed. unfold cof3, sum_n, sum. cbn [seq map fold_right det]. destruct j as [|[|[|j]]]; [| | |lia]; ring.
Qed.
(* a third of the sum of the area vectors of the faces at node a: minus a third of that of the opposite face *)
Definition nrm3 (x : nat -> nat -> R) (a j : nat) : R :=
  let '(p, q, r) := match a with 0%nat => (1, 2, 3) | 1%nat => (0, 3, 2) | 2%nat => (0, 1, 3) | _ => (0, 2, 1) end%nat in
  - (vector_product j (fun i => x i q - x i p) (fun i => x i r - x i p) / 6).
Lemma grad_rule_3d A n d B m j : pad_wf (a_pad A) -> p_space (a_pad A) = 3%nat -> p_kind (a_pad A) = Tet4 ->
  gauss_new_sized (kind_class (p_kind (a_pad A))) n = Ok (a_gauss A) ->
  (forall p, (p < npoint (a_gauss A))%nat -> gradient_at (a_pad A) (ksi_at A p) (d p) (B p)) -> (m < a_nnode A)%nat -> (j < 3)%nat ->
  sum_n (npoint (a_gauss A)) (fun p => wt (a_gauss A) p * (d p * ent (B p) m j)) = weight_ratio (p_kind (a_pad A)) (a_gauss A) * nrm3 (node_x (a_pad A)) m j.
Proof.
  intros W S3 K G F Hm Hj. unfold a_nnode in Hm.
  assert (E : forall p, (p < npoint (a_gauss A))%nat -> d p * ent (B p) m j = 6 * nrm3 (node_x (a_pad A)) m j).
  { intros p Hp. rewrite (grad_cof3 (a_pad A) (ksi_at A p) (d p) (B p) m j W S3 (F p Hp)); auto; [|unfold ksi_at; rewrite K; reflexivity].
    rewrite K in *. change (kind_nnode Tet4) with 4%nat in *. unfold cof3, Jm, sum_n, sum. rewrite K. change (kind_nnode Tet4) with 4%nat. cbn [seq map fold_right].
    rewrite !tet_deriv by lia. unfold nrm3, vector_product. cases3 Hm m; destruct j as [|[|[|j]]]; try lia; cbn [det]; rewrite ?tet_deriv by lia; cbn; field. }
  rewrite (sum_n_ext _ _ (fun p => 6 * nrm3 (node_x (a_pad A)) m j * wt (a_gauss A) p)) by (intros p Hp; rewrite E by auto; ring).
  rewrite sum_n_scal, K. unfold weight_ratio. change (ref_measure (kind_class Tet4)) with (1 / 6). field.
Qed.
