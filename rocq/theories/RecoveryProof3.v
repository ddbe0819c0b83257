(* Proofs about the recovery functions: what the extrapolation matrix does *)
From Coq Require Import String Reals List Arith Lia Lra Bool ZArith QArith Qreals.
From Verif Require Import Base BaseFacts Kind ShapesModel ShapesSpec ShapesProof GeomModel PadModel PadSpec PadProof PadProof2 GaussModel GaussSpec GaussProof2 GaussProof3
  TopoModel IntegModel IntegSpec IntegProof IntegProof2 IntegProof5 ConvertProof2 RecoveryData RecoveryModel RecoverySpec RecoveryProof RecoveryRank RecoveryRank2 RecoveryProof2.
Import ListNotations.
Local Open Scope list_scope.
Local Open Scope R_scope.

(** ** linear algebra *)
Lemma mul_assoc n m (a : nat -> R) (b : nat -> nat -> R) (c : nat -> R) :
  sum_n n (fun i => a i * sum_n m (fun j => b i j * c j)) = sum_n m (fun j => sum_n n (fun i => a i * b i j) * c j).
Proof.
  rewrite (sum_n_ext n _ (fun i => sum_n m (fun j => a i * b i j * c j))) by (intros; rewrite <- sum_n_scal; apply sum_n_ext; intros; ring).
  rewrite sum_n_swap. apply sum_n_ext. intros j _. now rewrite <- sum_n_scal_r.
Qed.
(* the product with a left inverse *)
Lemma pinv_left nr nc a b : is_pinv nr nc a b ->
  (forall u, (forall i, (i < nr)%nat -> sum_n nc (fun j => ent a i j * u j) = 0) -> forall j, (j < nc)%nat -> u j = 0) ->
  forall i j, (i < nc)%nat -> (j < nc)%nat -> prod nr (ent b) (ent a) i j = delta i j.
Proof.
  intros (_ & P1 & _) T i j Hi Hj. apply Rminus_diag_uniq.
  apply (T (fun i => prod nr (ent b) (ent a) i j - delta i j)); auto. intros p Hp.
  rewrite (sum_n_ext nc _ (fun l => ent a p l * prod nr (ent b) (ent a) l j + (-1) * (ent a p l * delta l j))) by (intros; ring).
  rewrite sum_n_plus, sum_n_scal, sum_n_delta_r by auto. unfold prod. rewrite (mul_assoc nc nr (fun l => ent a p l) (fun l q => ent b l q) (fun q => ent a q j)).
  specialize (P1 p j Hp Hj). unfold prod in P1. rewrite P1. ring.
Qed.
Lemma pinv_right nr nc a b : is_pinv nr nc a b ->
  (forall u, (forall j, (j < nc)%nat -> sum_n nr (fun i => ent a i j * u i) = 0) -> forall i, (i < nr)%nat -> u i = 0) ->
  forall i j, (i < nr)%nat -> (j < nr)%nat -> prod nc (ent a) (ent b) i j = delta i j.
Proof.
  intros (_ & P1 & _) T i j Hi Hj. apply Rminus_diag_uniq.
  apply (T (fun q => prod nc (ent a) (ent b) i q - delta i q)); auto. intros p Hp.
  rewrite (sum_n_ext nr _ (fun l => prod nc (ent a) (ent b) i l * ent a l p + (-1) * (delta i l * ent a l p))) by (intros; ring).
  rewrite sum_n_plus, sum_n_scal, (sum_n_delta nr i (fun l => ent a l p)) by auto. fold (prod nr (prod nc (ent a) (ent b)) (ent a) i p). rewrite P1 by auto. ring.
Qed.
(* least squares *)
Lemma pinv_normal nr nc a b : is_pinv nr nc a b -> forall v j, (j < nc)%nat ->
  sum_n nr (fun p => ent a p j * (times nc a (times nr b v) p - v p)) = 0.
Proof.
  intros (_ & P1 & _ & P3 & _) v j Hj.
  rewrite (sum_n_ext nr _ (fun p => ent a p j * sum_n nr (fun q => prod nc (ent a) (ent b) p q * v q) + (-1) * (ent a p j * v p))).
  2:{ intros p Hp. unfold times. rewrite (mul_assoc nc nr (fun i => ent a p i) (fun i q => ent b i q) v). unfold prod. ring. }
  rewrite sum_n_plus, sum_n_scal. rewrite (mul_assoc nr nr (fun p => ent a p j) (fun p q => prod nc (ent a) (ent b) p q) v).
  rewrite (sum_n_ext nr (fun q => sum_n nr (fun p => ent a p j * prod nc (ent a) (ent b) p q) * v q) (fun q => ent a q j * v q)); [ring|].
  intros q Hq. f_equal. rewrite (sum_n_ext nr _ (fun p => prod nc (ent a) (ent b) q p * ent a p j)) by (intros p Hp; rewrite (P3 p q) by auto; ring).
  apply P1; auto.
Qed.
Lemma pinv_least nr nc a b : is_pinv nr nc a b -> forall v u,
  sum_n nr (fun p => (times nc a (times nr b v) p - v p) ^ 2) <= sum_n nr (fun p => (times nc a u p - v p) ^ 2).
Proof.
  intros P v u. set (r := fun p => times nc a (times nr b v) p - v p). set (w := fun j => u j - times nr b v j).
  assert (E : forall p, times nc a u p - v p = r p + times nc a w p).
  { intros p. unfold r, w, times at 1 2 4. rewrite (sum_n_ext nc (fun j => ent a p j * (u j - times nr b v j)) (fun j => ent a p j * u j + (-1) * (ent a p j * times nr b v j))) by (intros; ring).
    rewrite sum_n_plus, sum_n_scal. ring. }
  rewrite (sum_n_ext nr (fun p => (times nc a u p - v p) ^ 2) (fun p => r p ^ 2 + (2 * (r p * times nc a w p) + times nc a w p ^ 2))) by (intros; rewrite E; ring).
  rewrite !sum_n_plus, sum_n_scal.
  assert (Z0 : sum_n nr (fun p => r p * times nc a w p) = 0).
  { unfold times. rewrite (mul_assoc nr nc r (fun p j => ent a p j) w). apply sum_n_zero. intros j Hj.
    rewrite (sum_n_ext nr _ (fun p => ent a p j * r p)) by (intros; ring). unfold r. rewrite pinv_normal by auto. ring. }
  rewrite Z0. pose proof (sum_n_nonneg nr (fun p => times nc a w p ^ 2)) as N. specialize (N ltac:(intros; apply pow2_ge_0)). unfold r at 1. lra.
Qed.

(** ** the interpolation matrix of a rule *)
Lemma sum_nth l : sum_n (List.length l) (fun m => nth m l 0) = sum l.
Proof. induction l as [|x l IH]; [reflexivity|]. cbn [List.length]. rewrite sum_n_head. cbn [nth sum]. now rewrite IH. Qed.
Lemma interp_one k ksi : sum_n (kind_nnode k) (fun m => nth m (calc_interp k ksi) 0) = 1.
Proof.
  rewrite <- (interp_sum k ksi), <- sum_nth, interp_length. reflexivity.
Qed.
Lemma interp_coord k ksi j : (j < kind_ndim k)%nat -> sum_n (kind_nnode k) (fun m => nth m (calc_interp k ksi) 0 * nth j (ref_coords k m) 0) = nth j ksi 0.
Proof.
  intros H. rewrite <- (reproduce_coord k ksi j H). rewrite (dot_sum_n _ _ (kind_nnode k)) by (rewrite ?map_length, ?seq_length; auto using interp_length).
  apply sum_n_ext. intros m Hm. rewrite (nth_map_seq (fun m => nth j (ref_coords k m) 0)) by auto. reflexivity.
Qed.
Lemma left_rank1 k g u : npoint g = 1%nat ->
  (forall m, (m < kind_nnode k)%nat -> sum_n 1 (fun p => nth m (calc_interp k (ksi_of k g p)) 0 * u p) = 0) ->
  forall p, (p < 1)%nat -> u p = 0.
Proof.
  intros _ Z0 p Hp. replace p with 0%nat by lia.
  assert (E : sum_n (kind_nnode k) (fun m => nth m (calc_interp k (ksi_of k g 0)) 0 * u 0%nat) = 0).
  { apply sum_n_zero. intros m Hm. specialize (Z0 m Hm). unfold sum_n in Z0. simpl in Z0. lra. }
  rewrite sum_n_scal_r, interp_one in E. lra.
Qed.

Lemma interp_hx k ksi b : sum_n (kind_nnode k) (fun m => nth m (calc_interp k ksi) 0 * hx (kind_ndim k) (vat (ref_coords k m)) b) = hx (kind_ndim k) (vat ksi) b.
Proof.
  unfold hx. rewrite (sum_n_ext _ _ (fun m => nth m (calc_interp k ksi) 0 * sum_n (kind_ndim k) (fun l => nth l (ref_coords k m) 0 * vat b l) + nth m (calc_interp k ksi) 0 * vat b (kind_ndim k))) by (intros; unfold vat; ring).
  rewrite sum_n_plus, sum_n_scal_r, interp_one, Rmult_1_l. f_equal.
  rewrite (mul_assoc _ _ (fun m => nth m (calc_interp k ksi) 0) (fun m l => nth l (ref_coords k m) 0) (vat b)). apply sum_n_ext. intros l Hl. f_equal. now apply interp_coord.
Qed.
Lemma hx_pt k g p b : hx (kind_ndim k) (vat (ksi_of k g p)) b = hx (kind_ndim k) (pt g p) b.
Proof. unfold hx. f_equal. apply sum_n_ext. intros i Hi. unfold vat at 1. now rewrite ksi_of_nth. Qed.

Lemma kind_nnode_2 k : (2 <= kind_nnode k)%nat. Proof. destruct k; vm_compute; lia. Qed.
Lemma kind_ndim_3 k : (kind_ndim k <= 3)%nat. Proof. destruct k; vm_compute; lia. Qed.

Section Extrap.
Variables (mat_inv mat_pinv : mat -> res mat) (pd : pad) (g : gauss) (n : nat).
Notation k := (p_kind pd).
Notation nv := (kind_nnode k).
Hypothesis G : gauss_new_sized (kind_class k) n = Ok g.

Definition bottom (tab : list (Z * Z * Z * Z)) (ppi e : mat) : Prop :=
  is_matrix nv n e /\
  forall i j, (i < nv)%nat -> (j < n)%nat ->
    ent e i j = hx (kind_ndim k) (vat (ref_coords k i)) (nth j (map hxi_row tab) []) +
      sum_n n (fun l => ent ppi i l * (delta l j - hx (kind_ndim k) (pt g l) (nth j (map hxi_row tab) []))).

Lemma extrap_eq : exists pp q, get_interp_matrix pd g = Ok (pp, q) /\ same_element pd q /\ is_matrix n nv pp /\
  (forall p m, (p < n)%nat -> (m < nv)%nat -> ent pp p m = nth m (calc_interp k (ksi_of k g p)) 0) /\
  (n = nv -> get_extrap_matrix mat_inv mat_pinv pd g = let! ee := mat_inv pp in Ok (ee, q)) /\
  (nv < n \/ n = 1 -> get_extrap_matrix mat_inv mat_pinv pd g = let! ee := mat_pinv pp in Ok (ee, q))%nat /\
  (1 < n < nv -> exists tab step, get_tr_pinv_hxi (kind_class k) n = Ok tab /\ List.length tab = n /\
     get_extrap_matrix mat_inv mat_pinv pd g = (let! ppi := mat_pinv pp in Ok (step ppi, q)) /\ forall ppi, bottom tab ppi (step ppi))%nat.
Proof.
  destruct (rule_points _ _ _ 0 G) as [Np _]. destruct (interp_matrix_ok pd g) as (pp & q & E & S & M & V). rewrite Np in M, V.
  exists pp, q. split; auto. split; auto. split; auto. split; auto. unfold get_extrap_matrix. rewrite E, Np. cbn [bind fst snd]. pose proof (kind_nnode_2 k) as K2.
  split; [|split].
  - intros H. rewrite H, Nat.eqb_refl. reflexivity.
  - intros H. rewrite (proj2 (Nat.eqb_neq n nv)) by lia. destruct (Nat.ltb_spec nv n); [reflexivity|]. destruct H as [H| ->]; [lia|]. reflexivity.
  - intros H. destruct (table_near _ _ _ G ltac:(lia)) as (tab & ET & L & _).
    assert (X : forall ppi, exists e, (let! aa := extrap_aa (kind_ndim k) g (map hxi_row tab) n in let! ee := extrap_xi k (map hxi_row tab) n (zeros nv n) in let! ee := extrap_corr nv n ppi aa ee in Ok (ee, q)) = Ok (e, q) /\ bottom tab ppi e).
    { intros ppi. destruct (extrap_aa_ok (kind_ndim k) g (map hxi_row tab) n (eq_sym Np) ltac:(now rewrite map_length) (kind_ndim_3 k)) as (aa & Ea & Ma & Va).
      destruct (extrap_xi_ok k (map hxi_row tab) n (zeros nv n) ltac:(now rewrite map_length) (is_matrix_zeros _ _)) as (e1 & E1 & M1 & V1).
      destruct (extrap_corr_ok nv n ppi aa e1 M1) as (e2 & E2 & M2 & V2). exists e2. rewrite Ea. cbn [bind]. rewrite E1. cbn [bind]. rewrite E2. cbn [bind].
      split; auto. split; auto. intros i j Hi Hj. rewrite V2, V1, ent_zeros, Rplus_0_l by auto. f_equal. apply sum_n_ext. intros l Hl. now rewrite Va. }
    exists tab, (fun ppi => match (let! aa := extrap_aa (kind_ndim k) g (map hxi_row tab) n in let! ee := extrap_xi k (map hxi_row tab) n (zeros nv n) in let! ee := extrap_corr nv n ppi aa ee in Ok (ee, q)) with Ok (e, _) => e | _ => [] end).
    split; auto. split; auto. split.
    + rewrite (proj2 (Nat.eqb_neq n nv)), (proj2 (Nat.ltb_ge nv n)), (proj2 (Nat.eqb_neq n 1)) by lia. destruct (mat_pinv pp) as [ppi| | |]; cbn [bind]; auto.
      rewrite ET. cbn [bind]. destruct (X ppi) as (e & Ee & _). rewrite Ee. reflexivity.
    + intros ppi. destruct (X ppi) as (e & Ee & B). rewrite Ee. exact B.
Qed.
End Extrap.
