(* Totals, equilibrium of the internal forces, counterexamples, and the elements used in the examples *)
From Coquelicot Require Import Coquelicot.
From Coq Require Import String Reals List Arith Bool Lia Lra Psatz.
From Verif Require Import Base BaseFacts Expr ShapesData Kind ShapesModel ShapesSpec ShapesProof GeomModel GeomProof PadModel PadSpec
  PadProof PadProof2 PadProof3 GaussModel GaussSpec GaussProof GaussProof2 GaussProof3
  IntegModel IntegSpec IntegProof IntegProof2 IntegProof3 IntegProof4 IntegProof5 IntegProof6 IntegProof7 IntegProof8 IntegProof9.
Import ListNotations.
Local Open Scope list_scope.
Local Open Scope R_scope.

Lemma total_scalar A a a' d s : vec_result A a a' (a_nnode A) 1 (fun m _ => integral A (fun p => dvol A d p * s p * N_of A p m)) ->
  sum_n (a_nnode A) (vec_added A a a') = integral A (fun p => dvol A d p * s p).
Proof.
  intros V. rewrite (sum_n_ext _ _ _ (vec_result_added1 _ _ _ _ _ V)). rewrite integral_sum. apply integral_ext. intros p _.
  rewrite sum_n_scal, unity. ring.
Qed.
Lemma total_vector A a a' d v i :
  vec_result A a a' (a_nnode A) (p_space (a_pad A)) (fun m i => integral A (fun p => dvol A d p * nth i (v p) 0 * N_of A p m)) ->
  (i < p_space (a_pad A))%nat ->
  sum_n (a_nnode A) (fun m => vec_added A a a' (i + m * p_space (a_pad A))) = integral A (fun p => dvol A d p * nth i (v p) 0).
Proof.
  intros V Hi. rewrite (sum_n_ext _ _ _ (fun m Hm => vec_result_added _ _ _ _ _ _ V m i Hm Hi)). rewrite integral_sum. apply integral_ext. intros p _.
  rewrite sum_n_scal, unity. ring.
Qed.
Lemma mat_10_strain zdet A nr nc kk fn kk' q : 0 <= zdet -> pad_wf (a_pad A) ->
  (a_axi A = true -> forall p, (p < npoint (a_gauss A))%nat -> r_of A p <> 0) ->
  is_matrix nr nc kk -> mat_10_bdb zdet A kk fn = Ok (kk', q) ->
  same_element (a_pad A) q /\ exists x D,
    (forall p, (p < npoint (a_gauss A))%nat -> grad_facts zdet A p (x p) /\ fn p (N_p A p) (snd (x p)) = Ok (D p)) /\
    mat_result A kk kk' (a_nnode A) (p_space (a_pad A)) (a_nnode A) (p_space (a_pad A)) (fun m i n j => integral A (fun p =>
      dvol A (fun p => fst (x p)) p * double_dot (tensor4 (D p)) (strain A (snd (x p)) p m i) (strain A (snd (x p)) p n j))).
Proof.
  intros Hz W O M H. apply (mat_10_form zdet A Hz W O nr nc) in H as (_ & SE & x & D & F & V); auto. split; auto. exists x, D. split; auto.
  destruct V as (V1 & V2 & V3). split; auto. split; auto. intros m i n j Hm Hi Hn Hj. rewrite V2 by auto. f_equal. apply integral_ext. intros p _.
  now rewrite bdb_value_strain.
Qed.

Lemma forces_balance zdet A t fn t' q : 0 <= zdet -> pad_wf (a_pad A) -> a_axi A = false -> vec_04_bt zdet A t fn = Ok (t', q) ->
  (forall i, (i < p_space (a_pad A))%nat -> sum_n (a_nnode A) (fun m => vec_added A t t' (i + m * p_space (a_pad A))) = 0) /\
  (forall i j, (i < p_space (a_pad A))%nat -> (j < p_space (a_pad A))%nat ->
     sum_n (a_nnode A) (fun m => node_x (a_pad A) i m * vec_added A t t' (j + m * p_space (a_pad A))
                               - node_x (a_pad A) j m * vec_added A t t' (i + m * p_space (a_pad A))) = 0).
Proof.
  intros Hz W Ax H. set (nd := p_space (a_pad A)). set (nn := a_nnode A).
  apply (vec_04_form zdet A Hz W) in H as (_ & _ & x & sg & F & V). rewrite Ax in V. cbn [andb] in V.
  assert (E : forall m i, (m < nn)%nat -> (i < nd)%nat -> vec_added A t t' (i + m * nd) =
    integral A (fun p => dvol A (fun p => fst (x p)) p * sum_n nd (fun j => tensor2 (sg p) i j * ent (snd (x p)) m j))).
  { intros m i Hm Hi. unfold nd in *. rewrite (vec_result_added _ _ _ _ _ _ V m i Hm Hi). apply integral_ext. intros p _. lra. }
  split.
  - intros i Hi. rewrite (sum_n_ext _ _ _ (fun m Hm => E m i Hm Hi)), integral_sum. apply integral_zero. intros p Hp. rewrite sum_n_scal, sum_n_swap.
    rewrite sum_n_zero; [ring|]. intros j Hj. rewrite sum_n_scal. destruct (F p Hp) as (Gf & _). unfold nn; rewrite (grad_facts_sum zdet A p (x p) j Gf Hj). ring.
  - assert (Mo : forall i j, (i < nd)%nat -> (j < nd)%nat ->
      sum_n nn (fun m => node_x (a_pad A) i m * vec_added A t t' (j + m * nd)) = integral A (fun p => dvol A (fun p => fst (x p)) p * tensor2 (sg p) j i)).
    { intros i j Hi Hj. rewrite (sum_n_ext _ _ (fun m => integral A (fun p => node_x (a_pad A) i m * (dvol A (fun p => fst (x p)) p * sum_n nd (fun k => tensor2 (sg p) j k * ent (snd (x p)) m k))))).
      2:{ intros m Hm. rewrite E by auto. now rewrite integral_scal. }
      rewrite integral_sum. apply integral_ext. intros p Hp. destruct (F p Hp) as ((_ & _ & _ & G2) & _).
      rewrite (sum_n_ext _ _ (fun m => sum_n nd (fun k => dvol A (fun p => fst (x p)) p * tensor2 (sg p) j k * (node_x (a_pad A) i m * ent (snd (x p)) m k)))).
      2:{ intros m Hm. rewrite <- !sum_n_scal. apply sum_n_ext. intros k _. ring. }
      rewrite sum_n_swap. rewrite (sum_n_ext nd _ (fun k => dvol A (fun p => fst (x p)) p * tensor2 (sg p) j k * delta i k)).
      2:{ intros k Hk. rewrite sum_n_scal. unfold nn. now rewrite (G2 k i Hk Hi). }
      rewrite (sum_n_single nd _ i Hi); [unfold delta; rewrite Nat.eqb_refl; ring|].
      intros k _ N. unfold delta. destruct (Nat.eqb_spec i k); [congruence|ring]. }
    intros i j Hi Hj.
    replace (sum_n nn (fun m => node_x (a_pad A) i m * vec_added A t t' (j + m * nd) - node_x (a_pad A) j m * vec_added A t t' (i + m * nd)))
      with (sum_n nn (fun m => node_x (a_pad A) i m * vec_added A t t' (j + m * nd)) - sum_n nn (fun m => node_x (a_pad A) j m * vec_added A t t' (i + m * nd))).
    + rewrite !Mo by auto. apply Rminus_diag_eq. apply integral_ext. intros p _. now rewrite (tensor2_sym _ i j).
    + unfold Rminus. rewrite sum_n_add. f_equal. replace (- sum_n nn (fun m => node_x (a_pad A) j m * vec_added A t t' (i + m * nd)))
        with ((-1) * sum_n nn (fun m => node_x (a_pad A) j m * vec_added A t t' (i + m * nd))) by ring.
      rewrite <- sum_n_scal. apply sum_n_ext. intros; ring.
Qed.

(** ** a triangle *)
Definition tri_pad (ok : bool) : pad := mkPad Tri3 2 [] [] [] [] [] [[0; 2; 1]; [0; 0; 3]] ok.
Lemma tri_wf ok : pad_wf (tri_pad ok).
Proof. repeat split; simpl; auto. Qed.
Definition tri_args : args := mkArgs (tri_pad true) (gauss_new Tri3) false false (1/2) 1 1.
Lemma tri_area_3 ok : tri_area (tri_pad ok) = 3.
Proof. unfold tri_area, node_x. simpl. lra. Qed.
Lemma tri_jacobian ok ksi J : List.length ksi = 2%nat -> jacobian_of (tri_pad ok) ksi J -> det 2 J = 6.
Proof.
  intros L H. transitivity (2 * tri_area (tri_pad ok)); [|rewrite tri_area_3; lra].
  pose proof (tri3_det (tri_pad ok) ksi (det 2 J) (tri_wf ok) eq_refl eq_refl L) as E. rewrite E; [unfold tri_area; lra|].
  exists J. repeat split; auto; cbn; intros; try discriminate; lia.
Qed.
Section Tri.
Variable A : args.
Hypothesis HA : a_pad A = tri_pad true.
Lemma det_6 p J : jacobian_of (a_pad A) (ksi_at A p) J -> det (p_space (a_pad A)) J = 6.
Proof. intros H. assert (L : List.length (ksi_at A p) = 2%nat) by (rewrite ksi_at_length, HA; reflexivity). rewrite HA in H |- *. exact (tri_jacobian true _ J L H). Qed.
Lemma tri_jac_ok' p : jac_ok (1/1000) A p.
Proof. split; [now rewrite HA|]. intros _ J H. rewrite (det_6 p J H), Rabs_pos_eq; lra. Qed.
Lemma tri_grad_ok' p : grad_ok (1/1000) A p.
Proof. split; [now rewrite HA|]. split; [now rewrite HA|]. intros J H. rewrite (det_6 p J H), Rabs_pos_eq; lra. Qed.
End Tri.
Lemma tri_jac_ok p : jac_ok (1/1000) tri_args p.
Proof. now apply tri_jac_ok'. Qed.
Lemma tri_grad_ok p : grad_ok (1/1000) tri_args p.
Proof. now apply tri_grad_ok'. Qed.
Lemma tri_positive : positive_jacobian tri_args.
Proof. intros p J _ H. rewrite (det_6 tri_args eq_refl p J H). lra. Qed.
Lemma tri_volumes : good_volumes tri_args.
Proof.
  split; [cbn; lra|]. split; [|discriminate]. intros p Hp. pose proof (rule_points CTri 3 (gauss_new Tri3) p eq_refl) as (_ & H & _).
  destruct (H Hp) as (x & y & z & w & _ & Ew & _ & P). unfold wt. cbn [a_gauss tri_args]. rewrite Ew. apply Rlt_le, P. reflexivity.
Qed.
Lemma zeros_matrix r c : is_matrix r c (zeros r c).
Proof. split; [apply repeat_length|]. apply Forall_forall. intros x H. apply repeat_spec in H. subst. apply repeat_length. Qed.
Definition ident (n : nat) : mat := map (fun i => map (fun j => if (i =? j)%nat then 1 else 0) (seq 0 n)) (seq 0 n).
Lemma ident_matrix n : is_matrix n n (ident n).
Proof.
  split; [unfold ident; now rewrite map_length, seq_length|]. apply Forall_forall. intros x H. apply in_map_iff in H as (i & <- & _).
  now rewrite map_length, seq_length.
Qed.
Lemma ident_psd : psd 6 (ent (ident 4)).
Proof.
  intros u. unfold quad_form. rewrite !sum6. unfold ent, ident. simpl.
  pose proof (pow2_ge_0 (u 0%nat)). pose proof (pow2_ge_0 (u 1%nat)). pose proof (pow2_ge_0 (u 2%nat)). pose proof (pow2_ge_0 (u 3%nat)). lra.
Qed.

Lemma run_exists {X Y S} room fn A Q E Res (r : res (S * pad)) : run_spec room (@loop_spec X Y S fn A Q E Res) r -> room ->
  (forall p iota nn x, exists y, fn p iota nn x = Ok y) -> (forall p, (p < npoint (a_gauss A))%nat -> E p) -> exists s q, r = Ok (s, q).
Proof. intros [(_ & _ & H & _)|(N & _)] Rm T Ep; [now apply H|contradiction]. Qed.
Ltac run_ex R := eapply run_exists;
  [apply R; try (apply zeros_matrix); try lra; try (apply tri_wf); try discriminate
  |repeat split; try (vm_compute; lia); try discriminate
  |intros; cbv beta; eauto
  |intros; try (apply tri_grad_ok); try (apply tri_jac_ok); try exact I; try (split; [now apply tri_grad_ok'|now apply tri_grad_ok])].
Lemma tri_vec_01 fn : (forall p nn, exists y, fn p nn = Ok y) -> exists a' q, vec_01_ns (1/1000) tri_args [7; 1; 2; 3] fn = Ok (a', q).
Proof. intros T. run_ex (vec_01_run (1/1000) tri_args). Qed.
Lemma tri_vec_03 fn : (forall p nn bb, exists y, fn p nn bb = Ok y) -> exists a' q, vec_03_bv (1/1000) tri_args [7; 1; 2; 3] fn = Ok (a', q).
Proof. intros T. run_ex (vec_03_run (1/1000) tri_args). Qed.
Lemma tri_vec_04 fn : (forall p nn bb, exists y, fn p nn bb = Ok y) -> exists a' q, vec_04_bt (1/1000) tri_args (repeat 0 7) fn = Ok (a', q).
Proof. intros T. run_ex (vec_04_run (1/1000) tri_args). Qed.
Lemma tri_mat_01 fn : (forall p nn bb, exists y, fn p nn bb = Ok y) -> exists kk' q, mat_01_nsn (1/1000) tri_args (zeros 5 4) fn = Ok (kk', q).
Proof. intros T. run_ex (mat_01_run (1/1000) tri_args). Qed.
Lemma tri_mat_10 fn : (forall p nn bb, exists y, fn p nn bb = Ok y) -> exists kk' q, mat_10_bdb (1/1000) tri_args (zeros 7 7) fn = Ok (kk', q).
Proof. intros T. run_ex (mat_10_run (1/1000) tri_args). Qed.
Lemma tri_mat_04 fn : (forall p nnb nn bb, exists y, fn p nnb nn bb = Ok y) ->
  exists kk' q, mat_04_nsb (1/1000) tri_args (zeros 4 7) (tri_pad true) fn = Ok (kk', q).
Proof. intros T. run_ex (mat_04_run (1/1000) tri_args). Qed.
Lemma tri_mat_05 fn : (forall p nnb nn bb, exists y, fn p nnb nn bb = Ok y) ->
  exists kk' q, mat_05_btn (1/1000) tri_args (zeros 4 7) (tri_pad true) fn = Ok (kk', q).
Proof. intros T. run_ex (mat_05_run (1/1000) tri_args). Qed.
Lemma tri_mat_07 fn : (forall p nnb nn bb, exists y, fn p nnb nn bb = Ok y) ->
  exists kk' q, mat_07_bsn (1/1000) tri_args (zeros 7 4) (tri_pad true) fn = Ok (kk', q).
Proof. intros T. run_ex (mat_07_run (1/1000) tri_args). Qed.

(* axisymmetric, one point *)
Definition one_point : gauss := match gauss_new_sized CTri 1 with Ok g => g | _ => gauss_new Tri3 end.
Definition axi_args : args := mkArgs (tri_pad true) one_point true true 1 0 0.
Lemma axi_off p : (p < npoint (a_gauss axi_args))%nat -> r_of axi_args p <> 0.
Proof.
  intros H. pose proof (rule_points CTri 1 one_point p eq_refl) as (_ & Hr & _).
  assert (E : r_of axi_args p = 2 * pt one_point p 0 + pt one_point p 1).
  { unfold r_of, pos. change (kind_nnode (p_kind (a_pad axi_args))) with 3%nat. rewrite sum3'. unfold node_x, ksi_at. simpl. unfold Q2R, env. simpl. field. }
  rewrite E. assert (Ep : p = 0%nat) by (cbn in H; lia). subst p. unfold pt, g_coords. cbn [one_point gauss_new_sized g_data get nth_error bind].
  cbv [f64 f64_scale nth]. simpl. lra.
Qed.
Lemma axi_mat_10 : exists kk' q, mat_10_bdb (1/1000) axi_args (zeros 6 6) (fun _ _ _ => Ok (ident 4)) = Ok (kk', q).
Proof.
  eapply run_exists; [apply (mat_10_run (1/1000) axi_args); [lra|apply tri_wf|intros _; exact axi_off|apply zeros_matrix]| |eauto|].
  - repeat split; vm_compute; lia.
  - intros p _. now apply tri_grad_ok'.
Qed.

(* a line in 2D *)
Definition line_args : args := mkArgs (mkPad Lin2 2 [] [] [] [] [] [[0; 3]; [0; 4]] true) (gauss_new Lin2) true false 1 0 0.
Lemma line_vec_01 fn : (forall p un nn, exists y, fn p un nn = Ok y) -> exists a' q, vec_01_ns_bry line_args [0; 0] fn = Ok (a', q).
Proof.
  intros T. eapply run_exists; [apply (vec_01_bry_run line_args)| | |].
  - repeat split; simpl; auto.
  - repeat split; vm_compute; lia.
  - intros; cbv beta; eauto.
  - intros; exact I.
Qed.

(* the stress as Mandel vector *)
Definition mandel (s : nat -> nat -> R) : list R :=
  [s 0%nat 0%nat; s 1%nat 1%nat; s 2%nat 2%nat; sqrt 2 * s 0%nat 1%nat; sqrt 2 * s 1%nat 2%nat; sqrt 2 * s 0%nat 2%nat].
Lemma mandel_tensor s i j : (forall i j, s i j = s j i) -> (i < 3)%nat -> (j < 3)%nat -> tensor2 (mandel s) i j = s i j.
Proof.
  intros Sy Hi Hj. pose proof (sqrt_lt_R0 2 ltac:(lra)).
  destruct i as [|[|[|i]]]; try lia; destruct j as [|[|[|j]]]; try lia; unfold tensor2, mandel, mandel_factor, mandel_index; cbn [Nat.eqb nth];
    try (field; fail); try (field; lra); rewrite Sy; field; lra.
Qed.
Lemma stress_sym A B p u D i j : stress_u A B p u D i j = stress_u A B p u D j i.
Proof.
  assert (E1 : mandel_index i j = mandel_index j i) by (destruct i as [|[|[|i]]], j as [|[|[|j]]]; reflexivity).
  assert (E2 : mandel_factor i j = mandel_factor j i) by (unfold mandel_factor; rewrite (Nat.eqb_sym i j); reflexivity).
  unfold stress_u, tensor4. now rewrite E1, E2.
Qed.

(** ** counterexamples *)
Definition four_points : gauss := match gauss_new_sized CTri 4 with Ok g => g | _ => gauss_new Tri3 end.
Lemma mass_negative : exists zdet A kk fn kk' q u, 0 <= zdet /\ pad_wf (a_pad A) /\ is_matrix (a_nnode A) (a_nnode A) kk /\
  (exists c n, gauss_new_sized c n = Ok (a_gauss A)) /\ 0 < a_alpha A /\ positive_jacobian A /\
  (forall p nn bb s, fn p nn bb = Ok s -> 0 <= s) /\ mat_01_nsn zdet A kk fn = Ok (kk', q) /\
  quad_form (a_nnode A) (mat_added A kk kk') u < 0.
Proof.
  destruct (negative_weight CTri 4 four_points eq_refl eq_refl) as (k & w & Ew & Hw).
  set (A := mkArgs (tri_pad true) four_points true false 1 0 0). set (fn := fun (p : nat) (_ : list R) (_ : mat) => Ok (if (p =? k)%nat then 1 else 0)).
  assert (Ex : exists kk' q, mat_01_nsn (1/1000) A (zeros 3 3) fn = Ok (kk', q)).
  { eapply run_exists; [apply (mat_01_run (1/1000) A); [lra|apply tri_wf|apply zeros_matrix]| | |].
    - split; vm_compute; lia.
    - intros. unfold fn. eauto.
    - intros p _. now apply tri_grad_ok'. }
  destruct Ex as (kk' & q & H). exists (1/1000), A, (zeros 3 3), fn, kk', q, (fun _ => 1).
  split; [lra|]. split; [apply tri_wf|]. split; [apply zeros_matrix|]. split; [exists CTri, 4%nat; reflexivity|]. split; [cbn; lra|].
  assert (PJ : positive_jacobian A) by (intros p J _ HJ; rewrite (det_6 A eq_refl p J HJ); lra). split; auto.
  split; [unfold fn; intros p nn bb s [= <-]; destruct (Nat.eqb p k); lra|]. split; auto.
  destruct (mat_01_rows (1/1000) A ltac:(lra) (tri_wf true) 3 3 (zeros 3 3) fn kk' q (zeros_matrix 3 3) H) as (d & B & s & F & _ & T).
  replace (quad_form (a_nnode A) (mat_added A (zeros 3 3) kk') (fun _ => 1)) with (integral A (fun p => dvol A d p * s p)).
  2:{ rewrite <- T. unfold quad_form. apply sum_n_ext. intros m _. apply sum_n_ext. intros n _. ring. }
  assert (Hk : (k < npoint four_points)%nat).
  { destruct (Nat.lt_ge_cases k 4) as [L|L]; [exact L|]. destruct (rule_points CTri 4 four_points k eq_refl) as (_ & _ & N). destruct (N L) as (_ & N'). congruence. }
  unfold integral. rewrite (sum_n_single _ _ k Hk).
  - destruct (F k Hk) as ((_ & J & HJ & Ed & _) & Es). injection Es as <-. rewrite Nat.eqb_refl.
    unfold dvol, wt. cbn [a_gauss a_alpha a_axi A]. rewrite Ew, Ed, (det_6 A eq_refl k J HJ). lra.
  - intros p Hp N. destruct (F p Hp) as (_ & Es). injection Es as <-. destruct (Nat.eqb_spec p k); [contradiction|]. ring.
Qed.

Lemma alt_panics : exists zdet A kk fn, 0 <= zdet /\ pad_wf (a_pad A) /\
  (exists kk' q, mat_10_bdb zdet A kk fn = Ok (kk', q)) /\ mat_10_bdb_alt zdet A kk fn = Panic.
Proof.
  exists (1/1000), tri_args, (zeros 7 7), (fun _ _ _ => Ok (ident 4)). split; [lra|]. split; [apply tri_wf|]. split; [apply tri_mat_10; eauto|].
  unfold mat_10_bdb_alt. destruct (bdb_check_cases tri_args (tri_wf true) 7 7 (zeros 7 7) (zeros_matrix 7 7)) as [(_ & _ & ->)|(N & _)].
  2:{ exfalso. apply N. repeat split; try (vm_compute; lia). }
  cbn [bind]. unfold gauss_loop. change (npoint (a_gauss tri_args)) with 3%nat. cbn [seq foldM].
  rewrite g_coords_ok, g_weight_ok by (vm_compute; lia). cbn [bind fst snd].
  change (calc_interp (p_kind (a_pad tri_args)) (iota4 (a_gauss tri_args) 0)) with (calc_interp (p_kind (a_pad tri_args)) (iota4 (a_gauss tri_args) 0)).
  rewrite (interp_ksi tri_args).
  destruct (grad_eval_spec (1/1000) tri_args ltac:(lra) (tri_wf true) (with_interp (a_pad tri_args) (N_p tri_args 0)) 0%nat
    ltac:(vm_compute; lia) ltac:(apply same_interp, same_refl)) as (E1 & E2 & _).
  destruct (proj2 E2 (tri_grad_ok 0)) as ([dj bb] & q' & Ev). rewrite Ev. cbn [bind fst snd]. destruct (E1 _ _ Ev) as (SE & _).
  destruct (calc_bb_ok tri_args (tri_wf true) (zeros (2 * a_space tri_args) (a_nnode tri_args * a_space tri_args)) 0%nat bb q' (bb_zeros tri_args) SE ltac:(discriminate)) as (M2 & Eb2 & (Mb & _) & _).
  unfold a_space in *. rewrite Eb2. cbn [bind fst snd]. unfold add_to_stiff_mat.
  destruct (is_matrix_dims _ _ _ Mb) as (B1 & B2); [vm_compute; lia|]. rewrite B1, B2. reflexivity.
Qed.

(* a triangle in 3D *)
Definition shell_pad : pad := mkPad Tri3 3 [] [] [] [] [] [[0; 1; 0]; [0; 0; 1]; [0; 0; 0]] true.
Lemma shell_wf : pad_wf shell_pad.
Proof. repeat split; simpl; auto. Qed.
Lemma shell_negative : exists zdet p0 g v q, 0 <= zdet /\ pad_wf p0 /\ p_ok p0 = true /\ gauss_new_sized (kind_class (p_kind p0)) 3 = Ok g /\
  scalar_field zdet p0 g (fun _ => Ok 1) = Ok (v, q) /\ v < 0.
Proof.
  destruct (scalar_run (1/1000) shell_pad (gauss_new Tri3) ltac:(lra) shell_wf (fun _ => Ok 1)) as (_ & T & _).
  destruct (proj2 (T ltac:(eauto))) as (v & q & H).
  { intros p Hp. split; [reflexivity|]. intros E. discriminate E. }
  exists (1/1000), shell_pad, (gauss_new Tri3), v, q. split; [lra|]. split; [exact shell_wf|]. split; [reflexivity|]. split; [reflexivity|]. split; auto.
  destruct (shell_scalar (1/1000) shell_pad (gauss_new Tri3) (fun _ => Ok 1) v q ltac:(lra) shell_wf ltac:(vm_compute; lia) H) as (s & F & ->).
  pose proof (weights_measure CTri 3 (gauss_new Tri3) eq_refl) as B.
  change 3%nat with (npoint (gauss_new Tri3)) in B.
  rewrite (sum_n_ext _ _ (wt (gauss_new Tri3))). 2:{ intros p Hp. specialize (F p Hp). injection F as <-. ring. }
  unfold table_eps, ref_measure in B. apply Rabs_def2 in B || (unfold Rabs in B; destruct (Rcase_abs _) in B; lra).
Qed.
Lemma tri_scalar : exists v q g, gauss_new_sized CTri 3 = Ok g /\ scalar_field (1/1000) (tri_pad true) g (fun _ => Ok 5) = Ok (v, q) /\ tri_area (tri_pad true) = 3.
Proof.
  destruct (scalar_run (1/1000) (tri_pad true) (gauss_new Tri3) ltac:(lra) (tri_wf true) (fun _ => Ok 5)) as (_ & T & _).
  destruct (proj2 (T ltac:(eauto))) as (v & q & H).
  { intros p Hp. now apply tri_jac_ok'. }
  exists v, q, (gauss_new Tri3). split; [reflexivity|]. split; [exact H|apply tri_area_3].
Qed.
