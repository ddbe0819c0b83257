(* Uniform stress and flux in one cell, linear displacements and temperatures *)
From Coquelicot Require Import Coquelicot.
From Coq Require Import String Reals QArith Qreals List Lia Lra Bool Arith ZArith Permutation Sorted.
From Verif Require Import Base BaseFacts Expr ExprProof ShapesData Kind MeshModel GraphModel MeshQuerySpec TopoModel TopoSpec TopoProof TopoFeat3 TopoFinal
  ShapesModel ShapesSpec ShapesProof GeomModel GeomProof PadModel PadSpec PadProof PadProof2 PadProof3 PadProof4 GaussModel GaussSpec GaussProof GaussProof2 GaussProof3 IntegModel IntegSpec IntegProof IntegProof2 IntegProof3 IntegProof6 IntegProof7 IntegProof10 PropInteg AnaProof AnaProof2
  NormalSpec NormalProof NormalProof2 NormalProof3 NormalModel NormalProof4 NormalProof5 PropNormal BalanceSpec BalanceProof BalanceProof2 BalanceProof3 PressureSpec PressureProof PatchSpec PatchProof.
Import ListNotations.
Local Open Scope list_scope.
Local Open Scope R_scope.

Section Element.
Variables (zdet : R) (A : args) (ka : R) (N : nat -> nat -> R).
Hypothesis Hz : 0 <= zdet.
Hypothesis W : pad_wf (a_pad A).
Hypothesis Ax : a_axi A = false.
Let nn := a_nnode A.
Let nd := p_space (a_pad A).
Let np := npoint (a_gauss A).
Hypothesis HN : forall d B, (forall p, (p < np)%nat -> gradient_at (a_pad A) (ksi_at A p) (d p) (B p)) -> forall m j, (m < nn)%nat -> (j < nd)%nat ->
  sum_n np (fun p => wt (a_gauss A) p * (d p * ent (B p) m j)) = ka * N m j.

Lemma integrate (S : nat -> R) d B m : (forall p, (p < np)%nat -> gradient_at (a_pad A) (ksi_at A p) (d p) (B p)) -> (m < nn)%nat ->
  integral A (fun p => dvol A d p * sum_n nd (fun j => S j * ent (B p) m j)) = ka * a_alpha A * sum_n nd (fun j => S j * N m j).
Proof.
  intros G Hm. unfold integral. fold np.
  rewrite (sum_n_ext np _ (fun p => sum_n nd (fun j => a_alpha A * S j * (wt (a_gauss A) p * (d p * ent (B p) m j))))).
  - rewrite sum_n_swap. rewrite <- sum_n_scal. apply sum_n_ext. intros j Hj. rewrite sum_n_scal, (HN d B G m j Hm Hj). ring.
  - intros p _. rewrite <- sum_n_scal. apply sum_n_ext. intros j _. unfold dvol. rewrite Ax. ring.
Qed.

Lemma forces_uniform t fn t' q (S : nat -> nat -> R) : vec_04_bt zdet A t fn = Ok (t', q) ->
  (forall p x sg, (p < np)%nat -> grad_facts zdet A p x -> fn p (N_p A p) (snd x) = Ok sg -> forall i j, (i < nd)%nat -> (j < nd)%nat -> tensor2 sg i j = S i j) ->
  forall m i, (m < nn)%nat -> (i < nd)%nat -> vec_added A t t' (i + m * nd) = ka * a_alpha A * sum_n nd (fun j => S i j * N m j).
Proof.
  intros H U m i Hm Hi. apply (vec_04_form zdet A Hz W) in H as (_ & _ & x & sg & F & V).
  etransitivity; [exact (vec_result_added _ _ _ _ _ _ V m i Hm Hi)|]. rewrite <- (integrate (S i) (fun p => fst (x p)) (fun p => snd (x p)) m); auto.
  - apply integral_ext. intros p Hp. rewrite Ax. cbn [andb]. rewrite Rplus_0_r. f_equal. apply sum_n_ext. intros j Hj. destruct (F p Hp) as (G & E). now rewrite (U p _ _ Hp G E i j Hi Hj).
  - intros p Hp. apply (F p Hp).
Qed.
Lemma fluxes_uniform t fn t' q (w : nat -> R) : vec_03_bv zdet A t fn = Ok (t', q) ->
  (forall p x wp, (p < np)%nat -> grad_facts zdet A p x -> fn p (N_p A p) (snd x) = Ok wp -> forall i, (i < nd)%nat -> nth i wp 0 = w i) ->
  forall m, (m < nn)%nat -> vec_added A t t' m = ka * a_alpha A * sum_n nd (fun j => w j * N m j).
Proof.
  intros H U m Hm. apply (vec_03_form zdet A Hz W) in H as (_ & x & sg & F & V).
  etransitivity; [exact (vec_result_added1 _ _ _ _ _ V m Hm)|]. rewrite <- (integrate w (fun p => fst (x p)) (fun p => snd (x p)) m); auto.
  - apply integral_ext. intros p Hp. f_equal. apply sum_n_ext. intros j Hj. destruct (F p Hp) as (G & E). now rewrite (U p _ _ Hp G E j Hj).
  - intros p Hp. apply (F p Hp).
Qed.

Lemma stress_linear p x c w D i j : grad_facts zdet A p x -> stress_u A (snd x) p (rigid A c w) D i j = linear_stress nd D w i j.
Proof.
  intros G. unfold stress_u, linear_stress. unfold strain_u. rewrite Ax. cbn [andb].
  pose proof (fun k l => grad_rigid zdet A p x c w k l G) as E. fold nd in E.
  destruct (space23 _ W) as [S2|S2]; fold nd in S2; rewrite S2 in *; unfold sum_n, sum; cbn [seq map fold_right]; rewrite !E; cbn [Nat.ltb Nat.leb andb]; lra.
Qed.
Lemma stiffness_linear nr nc kk D kk' q c w : is_matrix nr nc kk -> mat_10_bdb zdet A kk (fun _ _ _ => Ok D) = Ok (kk', q) ->
  forall m i, (m < nn)%nat -> (i < nd)%nat ->
    sum_n nn (fun b => sum_n nd (fun j => mat_added A kk kk' (i + m * nd) (j + b * nd) * rigid A c w b j)) =
    ka * a_alpha A * sum_n nd (fun j => linear_stress nd D w i j * N m j).
Proof.
  intros M H m i Hm Hi.
  assert (Off : a_axi A = true -> forall p, (p < npoint (a_gauss A))%nat -> r_of A p <> 0) by (rewrite Ax; discriminate).
  destruct (proj1 (proj1 (C67_mat_10 zdet A nr nc kk (fun _ _ _ => Ok D) Hz W Off M) ltac:(eauto)) (ex_intro _ _ H)) as (_ & _ & _ & Gok).
  set (fs := fun p (_ : list R) bb => Ok (IntegProof10.mandel (stress_u A bb p (rigid A c w) D))).
  destruct (proj2 (proj1 (C67_vec_04 zdet A (repeat 0 (a_ii0 A + a_nnode A * p_space (a_pad A))) fs Hz W) ltac:(unfold fs; eauto))) as ([t' q'] & Ht).
  { split; [rewrite repeat_length; apply le_n|]. split; [rewrite Ax; discriminate|exact Gok]. }
  pose proof (C63_stiffness_times zdet A nr nc kk _ kk' q _ fs t' q' (rigid A c w) Hz W Off M H Ht) as K.
  specialize (K ltac:(intros p x bb D' sg [= <-] [= <-] a b Ha Hb; apply mandel_tensor; auto; intros; apply stress_sym) m i Hm Hi).
  fold nn nd in K. etransitivity; [symmetry; exact K|]. apply (forces_uniform _ fs t' q' (linear_stress nd D w) Ht); auto.
  intros p x sg Hp G [= <-] a b Ha Hb. assert (L3 : (nd <= 3)%nat) by (destruct (space23 _ W) as [E|E]; unfold nd; rewrite E; lia). rewrite mandel_tensor by (try lia; intros; apply stress_sym). now apply stress_linear.
Qed.
Lemma conductivity_linear nr nc kk tt kk' q c g : is_matrix nr nc kk -> mat_03_btb zdet A kk (fun _ _ _ => Ok tt) = Ok (kk', q) ->
  forall m, (m < nn)%nat -> sum_n nn (fun b => mat_added A kk kk' m b * (c + sum_n nd (fun l => g l * node_x (a_pad A) l b))) =
    ka * a_alpha A * sum_n nd (fun j => sum_n nd (fun l => tensor2 tt j l * g l) * N m j).
Proof.
  intros M H m Hm. set (phi := fun b => c + sum_n nd (fun l => g l * node_x (a_pad A) l b)).
  destruct (proj1 (proj1 (C67_mat_03 zdet A nr nc kk (fun _ _ _ => Ok tt) Hz W M) ltac:(eauto)) (ex_intro _ _ H)) as (_ & _ & Gok).
  set (fw := fun (_ : nat) (_ : list R) bb => Ok (map (fun i => sum_n nd (fun j => tensor2 tt i j * sum_n nn (fun n => phi n * ent bb n j))) (seq 0 nd))).
  destruct (proj2 (proj1 (C67_vec_03 zdet A (repeat 0 (a_ii0 A + a_nnode A)) fw Hz W) ltac:(unfold fw; eauto))) as ([t' q'] & Ht).
  { split; [rewrite repeat_length; apply le_n|exact Gok]. }
  assert (Nw : forall bb i, (i < nd)%nat -> nth i (map (fun i => sum_n nd (fun j => tensor2 tt i j * sum_n nn (fun n => phi n * ent bb n j))) (seq 0 nd)) 0
    = sum_n nd (fun j => tensor2 tt i j * sum_n nn (fun n => phi n * ent bb n j))).
  { intros bb i Hi. rewrite (nth_map_in _ (seq 0 nd) i 0%nat) by (now rewrite seq_length). now rewrite seq_nth. }
  pose proof (C63_conductivity_times zdet A nr nc kk _ kk' q _ fw t' q' phi Hz W M H Ht) as K.
  specialize (K ltac:(intros p x bb T w [= <-] [= <-] i Hi; now apply Nw) m Hm). fold nn in K. etransitivity; [symmetry; exact K|].
  apply (fluxes_uniform _ fw t' q' (fun j => sum_n nd (fun l => tensor2 tt j l * g l)) Ht); auto.
  intros p x w Hp (_ & _ & G1 & G2) [= <-] i Hi. rewrite Nw by auto. apply sum_n_ext. intros j Hj. f_equal. fold nn nd in G1, G2.
  unfold phi. rewrite (sum_n_ext _ _ (fun n => c * ent (snd x) n j + sum_n nd (fun l => g l * (node_x (a_pad A) l n * ent (snd x) n j)))).
  - rewrite sum_n_plus, sum_n_scal, G1 by auto. rewrite sum_n_swap.
    rewrite (sum_n_ext nd _ (fun l => g l * delta l j)) by (intros l Hl; rewrite sum_n_scal, G2; auto).
    rewrite (sum_n_single nd _ j Hj); [unfold delta; rewrite Nat.eqb_refl; ring|]. intros l _ Ne. unfold delta. destruct (Nat.eqb_spec l j); [lia|ring].
  - intros n _. rewrite Rmult_plus_distr_r. f_equal. rewrite <- sum_n_scal_r. apply sum_n_ext. intros l _. ring.
Qed.
End Element.
