(* Jacobian, gradient, normal vector and inversion of the isoparametric map. *)
From Coq Require Import String Reals QArith Qreals List Lia Lra Bool Arith.
From Verif Require Import Base BaseFacts Expr ExprProof ShapesData Kind ShapesModel ShapesSpec ShapesProof
  GeomModel GeomProof PadModel PadSpec PadProof.
Import ListNotations.
Local Open Scope R_scope.

Lemma wf_row p i : pad_wf p -> (i < p_space p)%nat -> List.length (nth i (p_xxt p) []) = kind_nnode (p_kind p).
Proof.
  intros (_ & _ & L & F) Hi. rewrite Forall_forall in F. apply F, nth_In. lia.
Qed.

Lemma pos_dot p ksi i : pad_wf p -> (i < p_space p)%nat ->
  pos p ksi i = dot (nth i (p_xxt p) []) (calc_interp (p_kind p) ksi).
Proof.
  intros W Hi. rewrite (dot_sum_n _ _ (kind_nnode (p_kind p))); [|now apply wf_row|apply calc_interp_length].
  unfold pos, node_x. apply sum_n_ext. intros; ring.
Qed.

Lemma mat_vec_length a u : List.length (mat_vec a u) = List.length a.
Proof. apply map_length. Qed.
Lemma mat_vec_nth a u i : (i < List.length a)%nat -> nth i (mat_vec a u) 0 = dot (nth i a []) u.
Proof. intros H. unfold mat_vec. now rewrite (nth_map_in _ a i []). Qed.

Lemma same_refl p : same_element p p.
Proof. repeat split. Qed.
Lemma same_trans p q r : same_element p q -> same_element q r -> same_element p r.
Proof. unfold same_element. intuition congruence. Qed.
Lemma same_wf p q : same_element p q -> pad_wf p -> pad_wf q.
Proof. intros (E1 & E2 & E3 & _) W. unfold pad_wf in *. rewrite E1, E2, E3. exact W. Qed.
Lemma same_pos p q : same_element p q -> forall ksi i, pos q ksi i = pos p ksi i.
Proof. intros (E1 & E2 & E3 & _) ksi i. unfold pos, node_x. now rewrite E1, E3. Qed.

(** calc_coords *)
Lemma pad_coords_ok p ksi : pad_wf p -> p_ok p = true ->
  exists x q, pad_coords p (p_space p) ksi = Ok (x, q) /\ List.length x = p_space p /\
    (forall i, (i < p_space p)%nat -> nth i x 0 = pos p ksi i) /\ same_element p q.
Proof.
  intros W O. unfold pad_coords. rewrite O, Nat.eqb_refl. simpl.
  eexists _, _. split; [reflexivity|]. split; [|split].
  - rewrite mat_vec_length. apply W.
  - intros i Hi. rewrite mat_vec_nth by (destruct W as (_ & _ & -> & _); auto). symmetry. now apply pos_dot.
  - repeat split.
Qed.
Lemma pad_coords_unset p n ksi : p_ok p = false ->
  pad_coords p n ksi = Err "all components of the coordinates matrix must be set first"%string.
Proof. intros O. unfold pad_coords. now rewrite O. Qed.

(** The product X L is the matrix of partial derivatives *)
Lemma jj_ent p ksi i j : pad_wf p -> (i < p_space p)%nat -> (j < kind_ndim (p_kind p))%nat ->
  ent (mat_mul (p_geo p) (p_xxt p) (calc_deriv (p_kind p) ksi)) i j
  = sum_n (kind_nnode (p_kind p)) (fun m => node_x p i m * ent (calc_deriv (p_kind p) ksi) m j).
Proof.
  intros W Hi Hj. rewrite (ent_mul _ _ _ _ _ (kind_nnode (p_kind p))); auto.
  - destruct W as (_ & _ & -> & _). auto.
  - now apply wf_row.
  - apply calc_deriv_length.
Qed.

Lemma field_pos p ksi i : pos p ksi i = field p (node_x p i) ksi.
Proof. reflexivity. Qed.

Lemma pos_curve p gamma t0 ksi g i : pad_wf p -> (i < p_space p)%nat ->
  curve_at (kind_ndim (p_kind p)) gamma t0 ksi g ->
  derivable_pt_lim (fun t => pos p (gamma t) i) t0
    (sum_n (kind_ndim (p_kind p)) (fun j => ent (mat_mul (p_geo p) (p_xxt p) (calc_deriv (p_kind p) ksi)) i j * g j)).
Proof.
  intros W Hi H. apply (dlim_ext (fun t => field p (node_x p i) (gamma t))); [reflexivity|].
  erewrite sum_n_ext; [apply (field_curve _ _ _ _ _ _ H)|].
  intros j Hj. rewrite jj_ent by auto. f_equal. apply sum_n_ext. intros; ring.
Qed.

Lemma jj_partial p ksi : pad_wf p -> (kind_ndim (p_kind p) <= List.length ksi)%nat ->
  jacobian_of p ksi (ent (mat_mul (p_geo p) (p_xxt p) (calc_deriv (p_kind p) ksi))).
Proof.
  intros W L i j Hi Hj. unfold partial.
  pose proof (pos_curve p (fun t => set_coord ksi j t) (nth j ksi 0) ksi (delta j) i W Hi) as P.
  rewrite (sum_n_ext _ _ (fun l => delta j l * ent (mat_mul (p_geo p) (p_xxt p) (calc_deriv (p_kind p) ksi)) i l)) in P by (intros; ring).
  rewrite sum_n_delta in P by auto. apply P. apply coord_curve; lia.
Qed.

Lemma partial_unique f ksi j a b : partial f ksi j a -> partial f ksi j b -> a = b.
Proof. unfold partial. apply uniqueness_limite. Qed.

Lemma jacobian_unique p ksi a b i j : jacobian_of p ksi a -> jacobian_of p ksi b ->
  (i < p_space p)%nat -> (j < kind_ndim (p_kind p))%nat -> a i j = b i j.
Proof. intros A B Hi Hj. eapply partial_unique; [now apply A|now apply B]. Qed.

Lemma det_ext n a b : (forall i j, (i < n)%nat -> (j < n)%nat -> a i j = b i j) -> det n a = det n b.
Proof.
  intros H. destruct n as [|[|[|[|n]]]]; auto; simpl; rewrite !H by lia; reflexivity.
Qed.

Lemma fold_sq_sum (f : nat -> R) n : fold_left (fun s i => s + f i * f i) (seq 0 n) 0 = sum_n n (fun i => f i ^ 2).
Proof.
  induction n; [reflexivity|]. rewrite seq_S, fold_left_app, IHn, sum_n_S. simpl. ring.
Qed.

(** calc_jacobian *)
Definition jac_post (zdet : R) (p q : pad) (ksi : list R) (d : R) : Prop :=
  p_ok p = true /\ same_element p q /\ p_deriv q = calc_deriv (p_kind p) ksi /\
  p_jac q = mat_mul (p_geo p) (p_xxt p) (calc_deriv (p_kind p) ksi) /\
  (kind_ndim (p_kind p) = p_space p ->
     d = det (p_space p) (ent (p_jac q)) /\ zdet < Rabs d /\ inverse_of (p_space p) (ent (p_jac q)) (ent (p_inv q)) /\
     List.length (p_inv q) = p_space p /\ forall i, (i < p_space p)%nat -> List.length (nth i (p_inv q) []) = p_space p) /\
  (kind_ndim (p_kind p) = 1%nat -> d = sqrt (sum_n (p_space p) (fun i => ent (p_jac q) i 0 ^ 2))) /\
  ((1 < kind_ndim (p_kind p) < p_space p)%nat -> d = -1).

Lemma calc_jacobian_post zdet p ksi d q : 0 <= zdet -> pad_wf p ->
  calc_jacobian zdet p ksi = Ok (d, q) -> jac_post zdet p q ksi d.
Proof.
  intros Hz W. unfold calc_jacobian, jac_post. destruct (p_ok p) eqn:O; [|discriminate]. cbn [negb].
  unfold p_geo. destruct W as (S23 & Hg & _ & _).
  destruct (Nat.eqb_spec (kind_ndim (p_kind p)) (p_space p)) as [E|N].
  - destruct (mat_inverse _ _ _) as [[d' b]| | |] eqn:I; try discriminate. cbn [bind fst snd].
    intros [= <- <-]. apply mat_inverse_inv in I as (_ & -> & Hd & Hi & L1 & L2); auto.
    split; auto. split; [repeat split; auto|]. do 2 (split; [reflexivity|]). split; [|split]; intros; try lia.
    cbn [p_jac p_inv with_jac]. auto.
  - destruct (Nat.eqb_spec (kind_ndim (p_kind p)) 1) as [E1|N1]; intros [= <- <-].
    + split; auto. split; [repeat split; auto|]. do 2 (split; [reflexivity|]). split; [|split]; intros; try lia.
      cbn [p_jac with_jac]. rewrite fold_sq_sum. reflexivity.
    + split; auto. split; [repeat split; auto|]. do 2 (split; [reflexivity|]). split; [|split]; intros; try lia.
      reflexivity.
Qed.

Lemma jac_post_jacobian zdet p q ksi d : pad_wf p -> List.length ksi = kind_ndim (p_kind p) ->
  jac_post zdet p q ksi d -> jacobian_of p ksi (ent (p_jac q)).
Proof. intros W L (_ & _ & _ & E & _). rewrite E. apply jj_partial; auto. lia. Qed.

Lemma calc_jacobian_solid zdet p ksi a : pad_wf p -> p_ok p = true -> (kind_ndim (p_kind p) <= List.length ksi)%nat ->
  kind_ndim (p_kind p) = p_space p -> jacobian_of p ksi a ->
  (zdet < Rabs (det (p_space p) a) -> exists q, calc_jacobian zdet p ksi = Ok (det (p_space p) a, q)) /\
  (Rabs (det (p_space p) a) <= zdet ->
     calc_jacobian zdet p ksi = Err "cannot compute inverse due to zero determinant"%string).
Proof.
  intros W O L E A.
  assert (D : det (p_space p) (ent (mat_mul (p_geo p) (p_xxt p) (calc_deriv (p_kind p) ksi))) = det (p_space p) a).
  { apply det_ext. intros i j Hi Hj. apply (jacobian_unique p ksi); auto; [apply jj_partial; auto; lia|lia]. }
  unfold calc_jacobian. rewrite O. cbn [negb].
  assert (Eb : (p_geo p =? p_space p)%nat = true) by (unfold p_geo; now apply Nat.eqb_eq). rewrite Eb.
  assert (S23 : (p_space p = 2 \/ p_space p = 3)%nat) by apply W.
  split; intros H; rewrite <- D in *.
  - destruct (mat_inverse_ok zdet (p_space p) _ S23 H) as (b & ->). cbn [bind fst snd]. eexists; reflexivity.
  - now rewrite (mat_inverse_err zdet (p_space p) _ S23 H).
Qed.

Lemma calc_jacobian_unset zdet p ksi : p_ok p = false ->
  calc_jacobian zdet p ksi = Err "all components of the coordinates matrix must be set first"%string.
Proof. intros O. unfold calc_jacobian. now rewrite O. Qed.

Lemma calc_jacobian_flat zdet p ksi : p_ok p = true -> kind_ndim (p_kind p) <> p_space p ->
  exists d q, calc_jacobian zdet p ksi = Ok (d, q).
Proof.
  intros O N. unfold calc_jacobian. rewrite O. cbn [negb]. unfold p_geo.
  destruct (Nat.eqb_spec (kind_ndim (p_kind p)) (p_space p)); [lia|].
  destruct (Nat.eqb _ 1); eexists _, _; reflexivity.
Qed.

(** calc_gradient *)
Lemma gradient_entries zdet p ksi d q : 0 <= zdet -> pad_wf p -> calc_gradient zdet p ksi = Ok (d, q) ->
  kind_ndim (p_kind p) = p_space p /\ same_element p q /\ jac_post zdet p q ksi d /\
  (forall m i, (m < kind_nnode (p_kind p))%nat -> (i < p_space p)%nat ->
     ent (p_grad q) m i = sum_n (p_space p) (fun j => ent (calc_deriv (p_kind p) ksi) m j * ent (p_inv q) j i)).
Proof.
  intros Hz W. unfold calc_gradient. unfold p_geo at 1.
  destruct (Nat.eqb_spec (kind_ndim (p_kind p)) (p_space p)) as [E|N]; [|discriminate]. cbn [negb].
  destruct (calc_jacobian zdet p ksi) as [[d' r]| | |] eqn:J; try discriminate. cbn [bind fst snd].
  intros [= <- <-]. apply calc_jacobian_post in J; auto.
  split; auto. split; [|split].
  - destruct J as (_ & (A & B & C & D) & _). repeat split; auto.
  - destruct J as (A & (B1 & B2 & B3 & B4) & C & D & F). unfold jac_post. cbn [p_deriv p_jac p_inv with_grad].
    split; auto. split; [repeat split; auto|]. auto.
  - intros m i Hm Hi. cbn [p_grad p_inv with_grad].
    destruct J as (_ & _ & C & _ & F & _). destruct (F E) as (_ & _ & _ & L1 & L2). rewrite C.
    rewrite (ent_mul _ _ _ _ _ (p_space p)); auto.
    + now rewrite calc_deriv_length.
    + rewrite calc_deriv_row; auto.
Qed.

(* B J = L *)
Lemma gradient_times_jacobian zdet p ksi d q : 0 <= zdet -> pad_wf p -> calc_gradient zdet p ksi = Ok (d, q) ->
  forall m j, (m < kind_nnode (p_kind p))%nat -> (j < p_space p)%nat ->
  sum_n (p_space p) (fun i => ent (p_grad q) m i * ent (p_jac q) i j) = ent (calc_deriv (p_kind p) ksi) m j.
Proof.
  intros Hz W G m j Hm Hj. destruct (gradient_entries _ _ _ _ _ Hz W G) as (E & _ & P & B).
  destruct P as (_ & _ & _ & _ & F & _). destruct (F E) as (_ & _ & I & _).
  rewrite (sum_n_ext _ _ (fun i => sum_n (p_space p) (fun l => ent (calc_deriv (p_kind p) ksi) m l * (ent (p_inv q) l i * ent (p_jac q) i j)))).
  - rewrite sum_n_swap.
    rewrite (sum_n_ext _ _ (fun l => ent (calc_deriv (p_kind p) ksi) m l * delta l j)).
    + now apply sum_n_delta_r.
    + intros l Hl. rewrite sum_n_scal. f_equal. now apply I.
  - intros i Hi. rewrite B by auto. rewrite <- sum_n_scal_r. apply sum_n_ext. intros; ring.
Qed.

Lemma gradient_chain zdet p ksi d q : 0 <= zdet -> pad_wf p -> calc_gradient zdet p ksi = Ok (d, q) ->
  forall u gamma t0 g v, curve_at (kind_ndim (p_kind p)) gamma t0 ksi g ->
  (forall i, (i < p_space p)%nat -> derivable_pt_lim (fun t => pos p (gamma t) i) t0 (v i)) ->
  derivable_pt_lim (fun t => field p u (gamma t)) t0
    (sum_n (p_space p) (fun i => sum_n (kind_nnode (p_kind p)) (fun m => u m * ent (p_grad q) m i) * v i)).
Proof.
  intros Hz W G u gamma t0 g v Hc Hv.
  pose proof (gradient_times_jacobian _ _ _ _ _ Hz W G) as BJ.
  destruct (gradient_entries _ _ _ _ _ Hz W G) as (E & _ & P & _).
  assert (V : forall i, (i < p_space p)%nat -> v i = sum_n (p_space p) (fun j => ent (p_jac q) i j * g j)).
  { intros i Hi. eapply uniqueness_limite; [now apply Hv|].
    pose proof (pos_curve p gamma t0 ksi g i W Hi Hc) as C. destruct P as (_ & _ & _ & -> & _).
    rewrite <- E. exact C. }
  pose proof (field_curve p gamma t0 ksi g u Hc) as F. rewrite E in F.
  replace (sum_n (p_space p) (fun i => _ * v i))
    with (sum_n (p_space p) (fun j => sum_n (kind_nnode (p_kind p)) (fun m => ent (calc_deriv (p_kind p) ksi) m j * u m) * g j)); auto.
  clear F. set (n := p_space p) in *. set (N := kind_nnode (p_kind p)) in *.
  transitivity (sum_n n (fun j => sum_n N (fun m => sum_n n (fun i => u m * ent (p_grad q) m i * (ent (p_jac q) i j * g j))))).
  - apply sum_n_ext. intros j Hj. rewrite <- sum_n_scal_r. apply sum_n_ext. intros m Hm.
    rewrite <- (BJ m j Hm Hj). rewrite <- !sum_n_scal_r. apply sum_n_ext. intros; ring.
  - rewrite (sum_n_ext n _ (fun j => sum_n n (fun i => sum_n N (fun m => u m * ent (p_grad q) m i) * (ent (p_jac q) i j * g j)))).
    + rewrite sum_n_swap. apply sum_n_ext. intros i Hi. rewrite sum_n_scal. now rewrite V.
    + intros j Hj. rewrite sum_n_swap. apply sum_n_ext. intros i Hi. now rewrite sum_n_scal_r.
Qed.

Lemma sum_col a j : sum (col a j) = sum_n (List.length a) (fun m => ent a m j).
Proof.
  unfold col, ent. induction a as [|r a IH]; simpl; auto. rewrite sum_n_head. simpl. now rewrite IH.
Qed.

Lemma gradient_sum zdet p ksi d q : 0 <= zdet -> pad_wf p -> calc_gradient zdet p ksi = Ok (d, q) ->
  forall i, (i < p_space p)%nat -> sum_n (kind_nnode (p_kind p)) (fun m => ent (p_grad q) m i) = 0.
Proof.
  intros Hz W G i Hi. destruct (gradient_entries _ _ _ _ _ Hz W G) as (E & _ & _ & B).
  rewrite (sum_n_ext _ _ _ (fun m Hm => B m i Hm Hi)), sum_n_swap. apply sum_n_zero. intros j Hj.
  rewrite sum_n_scal_r. rewrite <- (calc_deriv_length (p_kind p) ksi), <- sum_col.
  unfold col. rewrite deriv_sum by lia. ring.
Qed.

Lemma gradient_coords zdet p ksi d q : 0 <= zdet -> pad_wf p -> calc_gradient zdet p ksi = Ok (d, q) ->
  forall i l, (i < p_space p)%nat -> (l < p_space p)%nat ->
  sum_n (kind_nnode (p_kind p)) (fun m => node_x p l m * ent (p_grad q) m i) = delta l i.
Proof.
  intros Hz W G i l Hi Hl. destruct (gradient_entries _ _ _ _ _ Hz W G) as (E & _ & P & B).
  destruct P as (_ & _ & _ & EJ & F & _). destruct (F E) as (_ & _ & I & _). clear F.
  rewrite (sum_n_ext _ _ (fun m => sum_n (p_space p) (fun j => node_x p l m * ent (calc_deriv (p_kind p) ksi) m j * ent (p_inv q) j i))).
  - rewrite sum_n_swap. rewrite <- (proj1 (I l i Hl Hi)). apply sum_n_ext. intros j Hj.
    rewrite sum_n_scal_r. f_equal. rewrite EJ. symmetry. apply jj_ent; auto. lia.
  - intros m Hm. rewrite B by auto. rewrite <- sum_n_scal. apply sum_n_ext. intros; ring.
Qed.

Lemma gradient_affine zdet p ksi d q : 0 <= zdet -> pad_wf p -> calc_gradient zdet p ksi = Ok (d, q) ->
  forall (c0 : R) (c : nat -> R) i, (i < p_space p)%nat ->
  sum_n (kind_nnode (p_kind p)) (fun m => (c0 + sum_n (p_space p) (fun l => c l * node_x p l m)) * ent (p_grad q) m i) = c i.
Proof.
  intros Hz W G c0 c i Hi.
  rewrite (sum_n_ext _ _ (fun m => c0 * ent (p_grad q) m i + sum_n (p_space p) (fun l => c l * (node_x p l m * ent (p_grad q) m i)))).
  - rewrite sum_n_plus, sum_n_scal, (gradient_sum _ _ _ _ _ Hz W G) by auto.
    rewrite sum_n_swap, (sum_n_ext _ _ (fun l => c l * delta l i)).
    + rewrite sum_n_delta_r by auto. ring.
    + intros l Hl. rewrite sum_n_scal. f_equal. eapply gradient_coords; eauto.
  - intros m Hm. rewrite Rmult_plus_distr_r. f_equal. rewrite <- sum_n_scal_r. apply sum_n_ext. intros; ring.
Qed.

(** calc_normal_vector *)
Lemma rows_dot2 a b mag : 0 < mag -> mag * mag = a * a + b * b -> (a / mag) * (a / mag) + (b / mag) * (b / mag) = 1.
Proof.
  intros H E. assert (mag <> 0) by lra. field_simplify_eq; auto. lra.
Qed.
Lemma rows_dot3 a b c mag : 0 < mag -> mag * mag = a * a + b * b + c * c ->
  (a / mag) * (a / mag) + (b / mag) * (b / mag) + (c / mag) * (c / mag) = 1.
Proof.
  intros H E. assert (mag <> 0) by lra. field_simplify_eq; auto. lra.
Qed.
