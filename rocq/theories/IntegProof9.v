(* scalar_field of an integrand that is a polynomial in the reference coordinates; lengths, areas and volumes *)
From Coquelicot Require Import Coquelicot.
From Coq Require Import String Reals QArith Qreals List Arith Bool Lia Lra Psatz.
From Verif Require Import Base BaseFacts Expr ShapesData Kind ShapesModel ShapesSpec ShapesProof GeomModel GeomProof PadModel PadSpec
  PadProof PadProof2 PadProof3 GaussModel GaussSpec GaussProof GaussProof2 GaussProof3
  IntegModel IntegSpec IntegProof IntegProof2 IntegProof3 IntegProof4 IntegProof5 IntegProof6 IntegProof7 IntegProof8.
Import ListNotations.
Local Open Scope list_scope.
Local Open Scope R_scope.

Lemma ksi_nth A p i : (i < kind_ndim (p_kind (a_pad A)))%nat -> nth i (ksi_at A p) 0 = pt (a_gauss A) p i.
Proof.
  intros H. unfold ksi_at. rewrite (nth_indep _ 0 (pt (a_gauss A) p 0%nat)) by now rewrite map_length, seq_length.
  rewrite map_nth, seq_nth by auto. reflexivity.
Qed.

Lemma scalar_exact zdet p0 c n g fn v q P : 0 <= zdet -> pad_wf p0 -> gauss_new_sized c n = Ok g ->
  scalar_field zdet p0 g fn = Ok (v, q) -> Forall (fun t => within_degree c n (snd t)) P ->
  (forall p s d, (p < n)%nat -> fn p = Ok s -> measure_at p0 (ksi_at (args_new p0 g) p) d ->
     s * d = polynomial P (pt g p 0) (pt g p 1) (pt g p 2)) ->
  exists i, ref_integral c (polynomial P) i /\ Rabs (v - i) <= table_eps * abs_coefs P.
Proof.
  intros Hz W G H F E. apply (proj1 (scalar_run zdet p0 g Hz W fn)) in H as (_ & x & s & M & ->).
  assert (En : npoint g = n) by apply (rule_points c n g 0 G).
  destruct (rule_exact c n g P G F) as (i & I & B). exists i. split; auto.
  replace (sum_n (npoint g) (fun p => s p * x p * wt g p)) with (quadrature g (polynomial P)); auto.
  unfold quadrature. apply sum_n_ext. intros p Hp. destruct (M p Hp) as (Mx & Es). rewrite (E p (s p) (x p)); [ring|lia|auto|auto].
Qed.
Lemma scalar_value zdet p0 c n g fn v q P i : 0 <= zdet -> pad_wf p0 -> gauss_new_sized c n = Ok g ->
  scalar_field zdet p0 g fn = Ok (v, q) -> Forall (fun t => within_degree c n (snd t)) P ->
  (forall p s d, (p < n)%nat -> fn p = Ok s -> measure_at p0 (ksi_at (args_new p0 g) p) d ->
     s * d = polynomial P (pt g p 0) (pt g p 1) (pt g p 2)) ->
  i = sum (map (fun t => fst t * Q2R (mono_int c (snd t))) P) -> Rabs (v - i) <= table_eps * abs_coefs P.
Proof.
  intros Hz W G H F E ->. destruct (scalar_exact zdet p0 c n g fn v q P Hz W G H F E) as (i & I & B).
  rewrite (ref_integral_unique c _ _ i (poly_integral c P (Forall_impl _ (fun t => within_fits c n (snd t)) F)) I). exact B.
Qed.

(** ** straight elements with constant integrand *)
Lemma sum3' f : sum_n 3 f = f 0%nat + f 1%nat + f 2%nat.
Proof. unfold sum_n, sum. simpl. ring. Qed.
Lemma const_poly c x y z : polynomial [(c, (0, 0, 0)%nat)] x y z = c.
Proof. unfold polynomial. simpl. ring. Qed.
Lemma const_within c n : within_degree c n (0, 0, 0)%nat.
Proof. unfold within_degree. destruct (product_rule c n); repeat split; lia. Qed.
Lemma const_abs c : abs_coefs [(c, (0, 0, 0)%nat)] = Rabs c.
Proof. unfold abs_coefs. simpl. ring. Qed.
Lemma const_int c d : sum (map (fun t => fst t * Q2R (mono_int c (snd t))) [(d, (0, 0, 0)%nat)]) = d * ref_measure c.
Proof. cbn [map sum fold_right fst snd]. destruct c; unfold Q2R; simpl; lra. Qed.

Lemma measure_solid p ksi d : pad_wf p -> (kind_ndim (p_kind p) <= List.length ksi)%nat -> kind_ndim (p_kind p) = p_space p -> measure_at p ksi d ->
  d = det (p_space p) (ent (mat_mul (p_geo p) (p_xxt p) (calc_deriv (p_kind p) ksi))).
Proof.
  intros W L S (J & HJ & E & _). rewrite (E S). apply det_ext. intros i j Hi Hj. apply (jacobian_unique p ksi); auto; [|lia].
  now apply jj_partial.
Qed.
Lemma measure_line p ksi d : pad_wf p -> (kind_ndim (p_kind p) <= List.length ksi)%nat -> kind_ndim (p_kind p) = 1%nat -> measure_at p ksi d ->
  d = sqrt (sum_n (p_space p) (fun i => ent (mat_mul (p_geo p) (p_xxt p) (calc_deriv (p_kind p) ksi)) i 0 ^ 2)).
Proof.
  intros W L S (J & HJ & _ & E & _). rewrite (E S). f_equal. apply sum_n_ext. intros i Hi. f_equal. apply (jacobian_unique p ksi); auto; [|lia].
  now apply jj_partial.
Qed.


Ltac dims K := rewrite ?K; vm_compute; lia.
Ltac explicit_det p ksi W K S M L :=
  apply measure_solid in M; [|exact W|rewrite K, L; vm_compute; lia|rewrite K, S; reflexivity];
  rewrite M, S; cbn [det]; rewrite !(jj_ent p ksi) by (auto; rewrite ?S, ?K; vm_compute; lia).
Lemma tri3_det p ksi d : pad_wf p -> p_kind p = Tri3 -> p_space p = 2%nat -> List.length ksi = 2%nat -> measure_at p ksi d ->
  d = (node_x p 0 1 - node_x p 0 0) * (node_x p 1 2 - node_x p 1 0) - (node_x p 0 2 - node_x p 0 0) * (node_x p 1 1 - node_x p 1 0).
Proof.
  intros W K S L M. explicit_det p ksi W K S M L.
  rewrite K. change (kind_nnode Tri3) with 3%nat. rewrite !sum3'. unfold ent, calc_deriv. simpl. unfold env, Q2R. cbn [Qnum Qden]. field.
Qed.
Lemma tet4_det p ksi d : pad_wf p -> p_kind p = Tet4 -> p_space p = 3%nat -> List.length ksi = 3%nat -> measure_at p ksi d ->
  d = det 3 (fun i j => node_x p i (S j) - node_x p i 0).
Proof.
  intros W K S L M. explicit_det p ksi W K S M L.
  rewrite K. change (kind_nnode Tet4) with 4%nat. rewrite !sum4. unfold ent, calc_deriv. simpl. unfold env, Q2R. simpl. field.
Qed.
Lemma qua4_det p ksi d : pad_wf p -> p_kind p = Qua4 -> p_space p = 2%nat -> List.length ksi = 2%nat -> measure_at p ksi d ->
  let x := node_x p 0 in let y := node_x p 1 in
  d = ((x 2%nat - x 0%nat) * (y 3%nat - y 1%nat) - (x 3%nat - x 1%nat) * (y 2%nat - y 0%nat)) / 8
    + ((x 1%nat - x 0%nat) * (y 2%nat - y 3%nat) - (x 2%nat - x 3%nat) * (y 1%nat - y 0%nat)) / 8 * nth 0 ksi 0
    + ((x 2%nat - x 1%nat) * (y 3%nat - y 0%nat) - (x 3%nat - x 0%nat) * (y 2%nat - y 1%nat)) / 8 * nth 1 ksi 0.
Proof.
  intros W K S L M x y. explicit_det p ksi W K S M L. fold x y. destruct ksi as [|k0 [|k1 [|]]]; try discriminate L.
  rewrite K. change (kind_nnode Qua4) with 4%nat. rewrite !sum4. subst x y. unfold ent, calc_deriv. simpl. unfold env, Q2R. simpl. field.
Qed.
Lemma lin2_length p ksi d : pad_wf p -> p_kind p = Lin2 -> List.length ksi = 1%nat -> measure_at p ksi d ->
  d = sqrt (sum_n (p_space p) (fun i => (node_x p i 1 - node_x p i 0) ^ 2)) / 2.
Proof.
  intros W K L M. apply measure_line in M; [|exact W|rewrite K, L; vm_compute; lia|rewrite K; reflexivity].
  rewrite M. rewrite (sum_n_ext _ _ (fun i => (/ 2) ^ 2 * (node_x p i 1 - node_x p i 0) ^ 2)).
  - rewrite sum_n_scal, sqrt_mult; [|lra|apply sum_n_nonneg; intros; apply pow2_ge_0]. rewrite sqrt_pow2 by lra. lra.
  - intros i Hi. rewrite (jj_ent p ksi) by (auto; rewrite K; vm_compute; lia). rewrite K. change (kind_nnode Lin2) with 2%nat.
    rewrite sum2. unfold ent, calc_deriv. simpl. unfold env, Q2R. simpl. field.
Qed.

Section Sizes.
Variables (zdet : R) (p : pad) (n : nat) (g : gauss) (fn : nat -> res R) (s : R).
Hypothesis Hz : 0 <= zdet.
Hypothesis W : pad_wf p.
Hypothesis Hf : forall i, fn i = Ok s.
Lemma fn_s i s' : fn i = Ok s' -> s' = s.
Proof. rewrite Hf. congruence. Qed.
Lemma tri3_area v q : p_kind p = Tri3 -> p_space p = 2%nat -> gauss_new_sized CTri n = Ok g -> scalar_field zdet p g fn = Ok (v, q) ->
  Rabs (v - s * (tri_area p)) <= 2 * table_eps * Rabs (s * tri_area p).
Proof.
  intros K S G H. set (d := 2 * tri_area p).
  pose proof (scalar_value zdet p CTri n g fn v q [(s * d, (0, 0, 0)%nat)] (s * tri_area p) Hz W G H) as B.
  rewrite const_abs, const_int in B. replace (s * d) with (2 * (s * tri_area p)) in B at 3 by (unfold d; ring).
  rewrite Rabs_mult, (Rabs_pos_eq 2) in B by lra. rewrite Rmult_assoc, (Rmult_comm 2), Rmult_assoc, (Rmult_comm _ 2).
  apply B; [constructor; [apply const_within|constructor]| |unfold d; cbn [ref_measure]; lra].
  intros i s' x Hi Es M. apply tri3_det in M; auto; [|rewrite ksi_at_length; cbn; rewrite K; reflexivity].
  rewrite const_poly, (fn_s _ _ Es), M. unfold d, tri_area. lra.
Qed.
Lemma tet4_volume v q : p_kind p = Tet4 -> p_space p = 3%nat -> gauss_new_sized CTet n = Ok g -> scalar_field zdet p g fn = Ok (v, q) ->
  Rabs (v - s * (tet_volume p)) <= 6 * table_eps * Rabs (s * tet_volume p).
Proof.
  intros K S G H. set (d := 6 * tet_volume p).
  pose proof (scalar_value zdet p CTet n g fn v q [(s * d, (0, 0, 0)%nat)] (s * tet_volume p) Hz W G H) as B.
  rewrite const_abs, const_int in B. replace (s * d) with (6 * (s * tet_volume p)) in B at 3 by (unfold d; ring).
  rewrite Rabs_mult, (Rabs_pos_eq 6) in B by lra. rewrite Rmult_assoc, (Rmult_comm 6), Rmult_assoc, (Rmult_comm _ 6).
  apply B; [constructor; [apply const_within|constructor]| |unfold d; cbn [ref_measure]; lra].
  intros i s' x Hi Es M. apply tet4_det in M; auto; [|rewrite ksi_at_length; cbn; rewrite K; reflexivity].
  rewrite const_poly, (fn_s _ _ Es), M. unfold d, tet_volume. lra.
Qed.
Lemma lin2_size v q : p_kind p = Lin2 -> gauss_new_sized CLin n = Ok g -> scalar_field zdet p g fn = Ok (v, q) ->
  Rabs (v - s * (line_length p)) <= table_eps * Rabs (s * line_length p).
Proof.
  intros K G H. set (d := line_length p / 2).
  pose proof (scalar_value zdet p CLin n g fn v q [(s * d, (0, 0, 0)%nat)] (s * line_length p) Hz W G H) as B.
  rewrite const_abs, const_int in B. replace (s * d) with (/ 2 * (s * line_length p)) in B at 3 by (unfold d; field).
  rewrite Rabs_mult, (Rabs_pos_eq (/ 2)) in B by lra.
  assert (0 <= table_eps * Rabs (s * line_length p)) by (apply Rmult_le_pos; [unfold table_eps; lra|apply Rabs_pos]).
  enough (Rabs (v - s * line_length p) <= table_eps * (/ 2 * Rabs (s * line_length p))) by lra.
  apply B; [constructor; [apply const_within|constructor]| |unfold d; cbn [ref_measure]; lra].
  intros i s' x Hi Es M. apply lin2_length in M; auto; [|rewrite ksi_at_length; cbn; rewrite K; reflexivity].
  rewrite const_poly, (fn_s _ _ Es), M. reflexivity.
Qed.
Lemma qua4_area v q : p_kind p = Qua4 -> p_space p = 2%nat -> gauss_new_sized CQua n = Ok g -> scalar_field zdet p g fn = Ok (v, q) ->
  Rabs (v - s * (qua_area p)) <= table_eps * (Rabs s * qua_bound p).
Proof.
  intros K S G H. set (x := node_x p 0). set (y := node_x p 1).
  set (c0 := s * (((x 2%nat - x 0%nat) * (y 3%nat - y 1%nat) - (x 3%nat - x 1%nat) * (y 2%nat - y 0%nat)) / 8)).
  set (c1 := s * (((x 1%nat - x 0%nat) * (y 2%nat - y 3%nat) - (x 2%nat - x 3%nat) * (y 1%nat - y 0%nat)) / 8)).
  set (c2 := s * (((x 2%nat - x 1%nat) * (y 3%nat - y 0%nat) - (x 3%nat - x 0%nat) * (y 2%nat - y 1%nat)) / 8)).
  pose proof (scalar_value zdet p CQua n g fn v q [(c0, (0, 0, 0)%nat); (c1, (1, 0, 0)%nat); (c2, (0, 1, 0)%nat)] (s * qua_area p) Hz W G H) as B.
  eapply Rle_trans; [apply B|].
  - apply (rule_points CQua n g 0) in G as G'.
    assert (D : (1 <= rule_degree CQua n)%nat).
    { apply sized_in in G as (I & _). cbn [rule_sizes In] in I. destruct I as [<-|[<-|[<-|[<-|[]]]]]; vm_compute; lia. }
    repeat constructor; cbn [snd class_ndim]; lia.
  - intros i s' z Hi Es M. apply qua4_det in M; auto; [|rewrite ksi_at_length; cbn; rewrite K; reflexivity].
    rewrite !ksi_nth in M by (cbn; rewrite K; vm_compute; lia). cbn [a_gauss args_new] in M.
    rewrite (fn_s _ _ Es), M. unfold polynomial, c0, c1, c2, x, y. cbn [map sum fold_right fst snd monomial pow]. ring.
  - unfold qua_area, c0, x, y. cbn [map sum fold_right fst snd]. unfold Q2R. simpl. field.
  - apply Rmult_le_compat_l; [unfold table_eps; lra|]. unfold abs_coefs. cbn [map sum fold_right fst snd]. unfold c0, c1, c2, qua_bound, x, y.
    rewrite !Rabs_mult. apply Req_le. ring.
Qed.
End Sizes.
