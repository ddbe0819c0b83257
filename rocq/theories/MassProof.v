(* Mass matrices *)
From Coquelicot Require Import Coquelicot.
From Coq Require Import String Reals List Lia Lra Bool Arith ZArith.
From Verif Require Import Base BaseFacts Kind MeshModel MeshQuerySpec TopoProof ShapesModel ShapesSpec PadModel PadSpec PadProof GaussModel GaussSpec GaussProof2 GaussProof3 IntegModel IntegSpec
  IntegProof IntegProof2 IntegProof3 IntegProof6 RecoverySpec RecoveryRank RecoveryRank2 BalanceSpec BalanceProof PatchSpec PatchProof3 PatchProof4 UniqueSpec UniqueProof LinearProof UniqueProof4 MassSpec.
Import ListNotations.
Local Open Scope list_scope.
Local Open Scope R_scope.

Lemma dependent_few k n : dependent_rule k n = true -> (n < kind_nnode k)%nat.
Proof. destruct k; cbn [dependent_rule]; try discriminate; intros H; repeat (destruct n as [|n]; try discriminate H); apply Nat.ltb_lt; vm_compute; reflexivity. Qed.
(* nodal values whose interpolation vanishes at all points vanish, if there are enough points *)
Lemma values_zero k n g u : gauss_new_sized (kind_class k) n = Ok g -> (kind_nnode k <= n)%nat ->
  (forall p, (p < n)%nat -> sum_n (kind_nnode k) (fun m => nth m (calc_interp k (ksi_of k g p)) 0 * u m) = 0) -> forall m, (m < kind_nnode k)%nat -> u m = 0.
Proof.
  intros G L. apply (right_rank k n g u G); auto. destruct (dependent_rule k n) eqn:E; auto. apply dependent_few in E. lia.
Qed.
Lemma rule_count k n g : gauss_new_sized (kind_class k) n = Ok g -> npoint g = n.
Proof. intros G. exact (proj1 (rule_points _ _ _ 0%nat G)). Qed.

Lemma sum_n_pos n f : (forall i, (i < n)%nat -> 0 <= f i) -> (exists i, (i < n)%nat /\ 0 < f i) -> 0 < sum_n n f.
Proof.
  induction n as [|n IH]; intros Hn (i & Hi & P); [lia|]. rewrite sum_n_S. pose proof (Hn n ltac:(lia)).
  destruct (Nat.eq_dec i n) as [->|Ne].
  - pose proof (sum_n_nonneg n f ltac:(intros; apply Hn; lia)). lra.
  - assert (0 < sum_n n f) by (apply IH; [intros; apply Hn; lia|exists i; split; [lia|auto]]). lra.
Qed.

Section Cell.
Variables (zdet : R) (A : args).
Hypothesis Hz : 0 <= zdet.
Hypothesis W : pad_wf (a_pad A).
Notation nnode := (a_nnode A).
Notation np := (npoint (a_gauss A)).
Lemma dvol_pos x p : (p < np)%nat -> sound_volumes A -> grad_facts zdet A p (x p) -> 0 < dvol A (fun p => fst (x p)) p.
Proof.
  intros Hp (Ha & Hw & Hr & Pj) G. pose proof (grad_facts_pos zdet A p (x p) Hp Pj G) as Hd. unfold dvol.
  apply Rmult_lt_0_compat; [apply Rmult_lt_0_compat; auto; apply Rmult_lt_0_compat; auto|]. destruct (a_axi A); [auto|lra].
Qed.
Definition value_at (u : nat -> R) (p : nat) : R := sum_n nnode (fun l => N_of A p l * u l).
Lemma mass_form nr nc kk fn kk' q u : is_matrix nr nc kk -> mat_01_nsn zdet A kk fn = Ok (kk', q) -> exists d s,
  (forall p, (p < np)%nat -> (sound_volumes A -> 0 < d p) /\ exists nn bb, fn p nn bb = Ok (s p)) /\
  quad_form nnode (mat_added A kk kk') u = sum_n np (fun p => d p * s p * (value_at u p * value_at u p)) /\
  forall k, (k < nnode)%nat -> sum_n nnode (fun l => mat_added A kk kk' k l * u l) = sum_n np (fun p => d p * s p * N_of A p k * value_at u p).
Proof.
  intros M H. apply (mat_01_form zdet A Hz W nr nc) in H as (_ & x & s & F & V); auto.
  exists (dvol A (fun p => fst (x p))), s. split; [|split].
  - intros p Hp. destruct (F p Hp) as (G & Fs). split; [intros Sv; exact (dvol_pos x p Hp Sv G)|eauto].
  - rewrite (quad_integral _ _ _ _ u (mat_result_added1 _ _ _ _ _ _ V)). unfold integral. apply sum_n_ext. intros p Hp. unfold value_at.
    rewrite (sum_n_ext _ _ (fun k => dvol A (fun p => fst (x p)) p * s p * (u k * N_of A p k) * sum_n nnode (fun l => N_of A p l * u l))).
    + rewrite sum_n_scal_r, sum_n_scal. rewrite (sum_n_ext nnode (fun k => u k * N_of A p k) (fun l => N_of A p l * u l)) by (intros; ring). ring.
    + intros k Hk. rewrite <- sum_n_scal. apply sum_n_ext. intros. ring.
  - intros k Hk. rewrite (sum_n_ext _ _ (fun l => sum_n np (fun p => dvol A (fun p => fst (x p)) p * s p * N_of A p k * N_of A p l * u l))).
    + rewrite sum_n_swap. apply sum_n_ext. intros p _. unfold value_at. rewrite <- sum_n_scal. apply sum_n_ext. intros l _. ring.
    + intros l Hl. rewrite (mat_result_added1 _ _ _ _ _ _ V k l Hk Hl). unfold integral. rewrite <- sum_n_scal_r. reflexivity.
Qed.
Lemma values_differ n u : gauss_new_sized (kind_class (p_kind (a_pad A))) n = Ok (a_gauss A) -> (nnode <= n)%nat -> (exists k, (k < nnode)%nat /\ u k <> 0) ->
  exists p, (p < np)%nat /\ value_at u p <> 0.
Proof.
  intros G L (k & Hk & Nu). destruct (zero_or np (value_at u)) as [Z|E]; [|exact E]. exfalso. apply Nu. pose proof (rule_count _ _ _ G) as Ec. unfold a_nnode in *.
  apply (values_zero (p_kind (a_pad A)) n (a_gauss A) u G L); [|exact Hk]. intros p Hp. rewrite <- Ec in Hp. exact (Z p Hp).
Qed.
Lemma mass_definite n nr nc kk fn kk' q : is_matrix nr nc kk -> gauss_new_sized (kind_class (p_kind (a_pad A))) n = Ok (a_gauss A) -> (nnode <= n)%nat -> sound_volumes A ->
  (forall p nn bb s, fn p nn bb = Ok s -> 0 < s) -> mat_01_nsn zdet A kk fn = Ok (kk', q) -> positive_definite nnode (mat_added A kk kk').
Proof.
  intros M G L Sv Ps H u Nu. destruct (mass_form nr nc kk fn kk' q u M H) as (d & s & F & -> & _).
  assert (Pd : forall p, (p < np)%nat -> 0 < d p * s p).
  { intros p Hp. destruct (F p Hp) as (Dp & nn & bb & E). apply Rmult_lt_0_compat; [auto|exact (Ps _ _ _ _ E)]. }
  destruct (values_differ n u G L Nu) as (p & Hp & Nv). apply sum_n_pos.
  - intros i Hi. apply Rmult_le_pos; [left; auto|]. apply Rle_0_sqr.
  - exists p. split; [exact Hp|]. apply Rmult_lt_0_compat; auto. apply Rsqr_pos_lt. exact Nv.
Qed.
Lemma few_points : (np < nnode)%nat -> exists u, (exists k, (k < nnode)%nat /\ u k <> 0) /\ forall p, (p < np)%nat -> value_at u p = 0.
Proof.
  intros L. destruct (underdetermined np (fun p k => N_of A p k)) as (x & (k & Hk & Nx) & E).
  exists (fun k => if (k <? S np)%nat then x k else 0). split.
  - exists k. split; [lia|]. apply Nat.ltb_lt in Hk. now rewrite Hk.
  - intros p Hp. unfold value_at. replace nnode with (S np + (nnode - S np))%nat by lia. generalize (nnode - S np)%nat as j.
    induction j as [|j IH].
    + rewrite Nat.add_0_r. rewrite <- (E p Hp). apply sum_n_ext. intros l Hl. apply Nat.ltb_lt in Hl. now rewrite Hl.
    + rewrite Nat.add_succ_r, sum_n_S, IH. destruct (Nat.ltb_spec (S np + j) (S np)); [lia|ring].
Qed.
Lemma mass_singular nr nc kk fn kk' q : is_matrix nr nc kk -> (np < nnode)%nat -> mat_01_nsn zdet A kk fn = Ok (kk', q) -> singular nnode (mat_added A kk kk').
Proof.
  intros M L H. destruct (few_points L) as (u & Nu & Z). exists u. split; [exact Nu|]. intros k Hk.
  destruct (mass_form nr nc kk fn kk' q u M H) as (d & s & _ & _ & ->); auto. apply sum_n_zero. intros p Hp. rewrite (Z p Hp). ring.
Qed.

(** ** mat_08: a tensor instead of a number *)
Notation nd := (p_space (a_pad A)).
Definition component (u : nat -> R) (i : nat) (m : nat) : R := u (i + m * nd)%nat.
Lemma mass_tensor_form nr nc kk fn kk' q u : (0 < nd)%nat -> is_matrix nr nc kk -> mat_08_ntn zdet A kk fn = Ok (kk', q) -> exists d T,
  (forall p, (p < np)%nat -> (sound_volumes A -> 0 < d p) /\ exists nn bb, fn p nn bb = Ok (T p)) /\
  quad_form (nnode * nd) (mat_added A kk kk') u = sum_n np (fun p => d p * quad_form nd (tensor2 (T p)) (fun i => value_at (component u i) p)).
Proof.
  intros Pn M H. apply (mat_08_form zdet A Hz W nr nc) in H as (_ & x & T & F & V); auto.
  exists (dvol A (fun p => fst (x p))), T. split.
  - intros p Hp. destruct (F p Hp) as (G & Fs). split; [intros Sv; exact (dvol_pos x p Hp Sv G)|eauto].
  - set (dv := dvol A (fun p => fst (x p))) in *. unfold quad_form at 1. rewrite sum_blocks by exact Pn.
    rewrite (sum_n_ext _ _ (fun m => sum_n nd (fun i => sum_n np (fun p => dv p * (u (i + m * nd)%nat * N_of A p m) * sum_n nd (fun j => tensor2 (T p) i j * value_at (component u j) p))))).
    + rewrite (sum_n_ext _ _ (fun m => sum_n np (fun p => sum_n nd (fun i => dv p * (u (i + m * nd)%nat * N_of A p m) * sum_n nd (fun j => tensor2 (T p) i j * value_at (component u j) p)))))
        by (intros; apply sum_n_swap).
      rewrite sum_n_swap. apply sum_n_ext. intros p Hp. rewrite sum_n_swap. unfold quad_form. rewrite <- sum_n_scal. apply sum_n_ext. intros i Hi.
      set (z := sum_n nd (fun j => tensor2 (T p) i j * value_at (component u j) p)).
      rewrite sum_n_scal_r, (sum_n_ext _ _ (fun m => dv p * (N_of A p m * component u i m))) by (intros; unfold component; ring). rewrite sum_n_scal.
      fold (value_at (component u i) p). rewrite (sum_n_ext nd _ (fun j => value_at (component u i) p * (tensor2 (T p) i j * value_at (component u j) p))) by (intros; ring).
      rewrite sum_n_scal. fold z. ring.
    + intros m Hm. apply sum_n_ext. intros i Hi. rewrite sum_blocks by exact Pn.
      rewrite (sum_n_ext _ _ (fun n => sum_n nd (fun j => sum_n np (fun p => dv p * (u (i + m * nd)%nat * N_of A p m) * tensor2 (T p) i j * (N_of A p n * component u j n))))).
      * rewrite (sum_n_ext _ _ (fun n => sum_n np (fun p => sum_n nd (fun j => dv p * (u (i + m * nd)%nat * N_of A p m) * tensor2 (T p) i j * (N_of A p n * component u j n)))))
          by (intros; apply sum_n_swap).
        rewrite sum_n_swap. apply sum_n_ext. intros p Hp. rewrite sum_n_swap. rewrite <- sum_n_scal. apply sum_n_ext. intros j Hj. rewrite sum_n_scal.
        unfold value_at. ring.
      * intros n Hn. apply sum_n_ext. intros j Hj. rewrite (mat_result_added _ _ _ _ _ _ _ _ V) by auto. unfold integral.
        rewrite <- sum_n_scal, <- sum_n_scal_r. apply sum_n_ext. intros p _. unfold component, dv. ring.
Qed.
Lemma mass_tensor_definite n nr nc kk fn kk' q : (0 < nd)%nat -> is_matrix nr nc kk -> gauss_new_sized (kind_class (p_kind (a_pad A))) n = Ok (a_gauss A) -> (nnode <= n)%nat -> sound_volumes A ->
  (forall p nn bb T, fn p nn bb = Ok T -> positive_definite nd (tensor2 T)) -> mat_08_ntn zdet A kk fn = Ok (kk', q) -> positive_definite (nnode * nd) (mat_added A kk kk').
Proof.
  intros Pn M G L Sv Ps H u (k & Hk & Nu). destruct (mass_tensor_form nr nc kk fn kk' q u Pn M H) as (d & T & F & ->).
  assert (Hi : (k mod nd < nd)%nat) by (apply Nat.mod_upper_bound; lia). assert (Hm : (k / nd < nnode)%nat) by (apply Nat.div_lt_upper_bound; lia).
  destruct (values_differ n (component u (k mod nd)) G L) as (p & Hp & Nv).
  { exists (k / nd)%nat. split; [exact Hm|]. unfold component. replace (k mod nd + k / nd * nd)%nat with k; [exact Nu|]. pose proof (Nat.div_mod k nd). lia. }
  apply sum_n_pos.
  - intros i Hi'. destruct (F i Hi') as (Dp & nn & bb & E). specialize (Dp Sv). apply Rmult_le_pos; [lra|].
    destruct (zero_or nd (fun j => value_at (component u j) i)) as [Z|Ex]; [|left; exact (Ps _ _ _ _ E _ Ex)].
    right. symmetry. unfold quad_form. apply sum_n_zero. intros a Ha. apply sum_n_zero. intros b Hb. rewrite (Z a Ha). ring.
  - exists p. split; [exact Hp|]. destruct (F p Hp) as (Dp & nn & bb & E). apply Rmult_lt_0_compat; [auto|]. apply (Ps _ _ _ _ E). eauto.
Qed.
End Cell.

(** ** the default rules *)
Lemma default_positive k p : (p < npoint (gauss_new k))%nat -> 0 < wt (gauss_new k) p.
Proof.
  intros Hp. pose proof (default_sized k) as G. destruct (rule_points _ _ _ p G) as (En & P & _). rewrite En in Hp. destruct (P Hp) as (x & y & z & w & _ & Ew & _ & Pw).
  unfold wt. rewrite Ew. apply Pw. destruct k; reflexivity.
Qed.
Lemma default_enough k : k <> Qua17 -> (kind_nnode k <= default_size k)%nat.
Proof. intros Ne. apply Nat.leb_le. destruct k; try congruence; vm_compute; reflexivity. Qed.

(** ** time steps *)
Section Step.
Variables (m : mesh R) (zdet : R) (A B : nat -> args) (mm mm' kk kk' : nat -> mat) (a b : R).
Hypothesis C : consistent m.
Hypothesis Hz : 0 <= zdet.
Hypotheses (Ha : 0 < a) (Hb : 0 <= b).
Notation np := (List.length (points m)).
Notation cs := (of_dim (MeshModel.ndim m) m).
Hypothesis St : forall c, In c cs -> let k := c_id c in storing zdet c (A k) (mm k) (mm' k) /\ spreading zdet c (B k) (kk k) (kk' k).
Hypothesis All : forall P, (P < np)%nat -> exists c, In c cs /\ In P (c_points c).
Definition stepped (u : nat -> R) (P : nat) : R := a * nodal_heat m A mm mm' u P + b * nodal_heat m B kk kk' u P.
Definition cell_step (u : nat -> R) (c : cell) (l : nat) : R :=
  a * conductivity_times (A (c_id c)) (mm (c_id c)) (mm' (c_id c)) (c_points c) u l + b * conductivity_times (B (c_id c)) (kk (c_id c)) (kk' (c_id c)) (c_points c) u l.
Lemma stepped_cells u P : stepped u P = sum_over (fun c => at_point (c_points c) P (fun l => cell_step u c l)) cs.
Proof.
  unfold stepped, nodal_heat. rewrite <- !sum_over_scal, <- sum_over_plus. apply sum_over_ext. intros c _. cbv zeta. rewrite <- !at_point_scal, <- at_point_plus. reflexivity.
Qed.
Lemma cell_count c : In c cs -> a_nnode (A (c_id c)) = List.length (c_points c) /\ a_nnode (B (c_id c)) = List.length (c_points c) /\ forall p, In p (c_points c) -> (p < np)%nat.
Proof.
  intros Hc. destruct (St c Hc) as ((n & nr & nc & fn & q & _ & E1 & _) & (nr' & nc' & fn' & q' & _ & E2 & _)).
  apply filter_In in Hc as (Ic & _). destruct (proj2 C _ _ (cell_by_id m c C Ic)) as (_ & L & Bd). unfold a_nnode. rewrite E1, E2. auto.
Qed.
Lemma form_times AA KK ps u : a_nnode AA = List.length ps -> quad_form (List.length ps) KK (fun l => u (nth l ps 0%nat)) =
  sum_n (List.length ps) (fun l => u (nth l ps 0%nat) * sum_n (a_nnode AA) (fun l' => KK l l' * u (nth l' ps 0%nat))).
Proof. intros ->. unfold quad_form. apply sum_n_ext. intros l _. rewrite <- sum_n_scal. apply sum_n_ext. intros. ring. Qed.
Lemma step_injective u v (fixed : nat -> bool) : (forall P, (P < np)%nat -> if fixed P then u P = v P else stepped u P = stepped v P) -> forall P, (P < np)%nat -> u P = v P.
Proof.
  intros H. set (d := fun p => u p - v p).
  pose proof (energy_zero cs np 1 (fun p _ => d p) (fun c l _ => cell_step d c l) (fun c Hc => proj2 (proj2 (cell_count c Hc)))) as En. cbv zeta in En.
  assert (Lin : forall P, stepped d P = stepped u P - stepped v P).
  { intros P. rewrite !stepped_cells. rewrite <- (Rplus_0_r (sum_over _ cs - _)).
    transitivity (sum_over (fun c => at_point (c_points c) P (fun l => cell_step u c l)) cs + sum_over (fun c => -1 * at_point (c_points c) P (fun l => cell_step v c l)) cs).
    - rewrite <- sum_over_plus. apply sum_over_ext. intros c _. rewrite <- at_point_scal, <- at_point_plus. apply at_point_ext. intros l _.
      unfold cell_step, conductivity_times, d. transitivity (a * (sum_n (a_nnode (A (c_id c))) (fun b0 => mat_added (A (c_id c)) (mm (c_id c)) (mm' (c_id c)) l b0 * u (nth b0 (c_points c) 0%nat)) +
        -1 * sum_n (a_nnode (A (c_id c))) (fun b0 => mat_added (A (c_id c)) (mm (c_id c)) (mm' (c_id c)) l b0 * v (nth b0 (c_points c) 0%nat))) +
        b * (sum_n (a_nnode (B (c_id c))) (fun b0 => mat_added (B (c_id c)) (kk (c_id c)) (kk' (c_id c)) l b0 * u (nth b0 (c_points c) 0%nat)) +
        -1 * sum_n (a_nnode (B (c_id c))) (fun b0 => mat_added (B (c_id c)) (kk (c_id c)) (kk' (c_id c)) l b0 * v (nth b0 (c_points c) 0%nat)))); [|ring].
      f_equal; f_equal; rewrite <- sum_n_scal, <- sum_n_plus; apply sum_n_ext; intros; ring.
    - rewrite sum_over_scal. ring. }
  assert (Q : forall c, In c cs -> sum_n 1 (fun _ => sum_n (List.length (c_points c)) (fun l => d (nth l (c_points c) 0%nat) * cell_step d c l)) =
    a * quad_form (a_nnode (A (c_id c))) (mat_added (A (c_id c)) (mm (c_id c)) (mm' (c_id c))) (fun l => d (nth l (c_points c) 0%nat)) +
    b * quad_form (a_nnode (B (c_id c))) (mat_added (B (c_id c)) (kk (c_id c)) (kk' (c_id c))) (fun l => d (nth l (c_points c) 0%nat))).
  { intros c Hc. destruct (cell_count c Hc) as (E1 & E2 & _). rewrite E1, E2 at 1. rewrite (form_times _ _ _ d E1), (form_times _ _ _ d E2). rewrite <- !sum_n_scal, <- sum_n_plus.
    unfold sum_n at 1, sum. cbn [seq map fold_right]. rewrite Rplus_0_r. apply sum_n_ext. intros l _. unfold cell_step, conductivity_times. ring. }
  assert (Facts : forall c, In c cs -> positive_definite (a_nnode (A (c_id c))) (mat_added (A (c_id c)) (mm (c_id c)) (mm' (c_id c))) /\
    psd (a_nnode (B (c_id c))) (mat_added (B (c_id c)) (kk (c_id c)) (kk' (c_id c)))).
  { intros c Hc. destruct (St c Hc) as ((n & nr & nc & fn & q & W & E1 & M1 & G & Le & Sv & Ps & R1) & (nr' & nc' & fn' & q' & W' & E2 & M2 & Gv & Pj & Ps' & R2)). split.
    - apply (mass_definite zdet _ Hz W n nr nc _ fn _ q); auto; unfold a_nnode; rewrite E1; auto.
    - apply (mat_03_psd zdet _ Hz W' nr' nc' _ fn' _ q'); auto. }
  assert (Nn : forall c, In c cs -> forall w, 0 <= quad_form (a_nnode (A (c_id c))) (mat_added (A (c_id c)) (mm (c_id c)) (mm' (c_id c))) w).
  { intros c Hc w. destruct (zero_or (a_nnode (A (c_id c))) w) as [Z|Ex]; [|left; apply (proj1 (Facts c Hc)), Ex].
    right. symmetry. unfold quad_form. apply sum_n_zero. intros i Hi. apply sum_n_zero. intros j Hj. rewrite (Z i Hi). ring. }
  intros P HP. destruct (All P HP) as (c & Hc & Ip). assert (D0 : d P = 0); [|unfold d in D0; lra].
  assert (E0 : sum_n 1 (fun _ => sum_n (List.length (c_points c)) (fun l => d (nth l (c_points c) 0%nat) * cell_step d c l)) = 0).
  { apply En; auto.
    - intros P' i HP' _. specialize (H P' HP'). destruct (fixed P'); [left; unfold d; lra|right]. rewrite <- stepped_cells, Lin. lra.
    - intros c' Hc'. rewrite (Q c' Hc'). pose proof (Nn c' Hc' (fun l => d (nth l (c_points c') 0%nat))). pose proof (proj2 (Facts c' Hc') (fun l => d (nth l (c_points c') 0%nat))). nra. }
  rewrite (Q c Hc) in E0. apply (In_nth _ _ 0%nat) in Ip as (l & Hl & <-).
  destruct (zero_or (a_nnode (A (c_id c))) (fun l => d (nth l (c_points c) 0%nat))) as [Z|Ex]; [apply (Z l); now rewrite (proj1 (cell_count c Hc))|].
  pose proof (proj1 (Facts c Hc) _ Ex). pose proof (proj2 (Facts c Hc) (fun l => d (nth l (c_points c) 0%nat))). nra.
Qed.
Lemma step_exists (fixed : nat -> bool) g f : exists u, forall P, (P < np)%nat -> if fixed P then u P = g P else stepped u P = f P.
Proof.
  assert (Ext : forall u v P, (forall p, (p < np)%nat -> u p = v p) -> stepped u P = stepped v P).
  { intros u v P E. rewrite !stepped_cells. apply sum_over_ext. intros c Hc. apply at_point_ext. intros l _. destruct (cell_count c Hc) as (E1 & E2 & Bd).
    unfold cell_step, conductivity_times. f_equal; f_equal; apply sum_n_ext; intros j Hj; rewrite E; auto; apply Bd, nth_In; congruence. }
  destruct (linear_solvable np (fun U r => if fixed r then U r else stepped U r)) with (b := fun r => if fixed r then g r else f r) as (U & E).
  - intros u v r _. destruct (fixed _); [reflexivity|]. rewrite !stepped_cells, <- sum_over_plus. apply sum_over_ext. intros c _. rewrite <- at_point_plus. apply at_point_ext. intros l _.
    unfold cell_step, conductivity_times. rewrite (sum_n_ext (a_nnode (A (c_id c))) _ (fun j => mat_added (A (c_id c)) (mm (c_id c)) (mm' (c_id c)) l j * u (nth j (c_points c) 0%nat) +
      mat_added (A (c_id c)) (mm (c_id c)) (mm' (c_id c)) l j * v (nth j (c_points c) 0%nat))) by (intros; ring).
    rewrite (sum_n_ext (a_nnode (B (c_id c))) _ (fun j => mat_added (B (c_id c)) (kk (c_id c)) (kk' (c_id c)) l j * u (nth j (c_points c) 0%nat) +
      mat_added (B (c_id c)) (kk (c_id c)) (kk' (c_id c)) l j * v (nth j (c_points c) 0%nat))) by (intros; ring). rewrite !sum_n_plus. ring.
  - intros t u r _. destruct (fixed _); [reflexivity|]. rewrite !stepped_cells, <- sum_over_scal. apply sum_over_ext. intros c _. rewrite <- at_point_scal. apply at_point_ext. intros l _.
    unfold cell_step, conductivity_times. rewrite (sum_n_ext (a_nnode (A (c_id c))) _ (fun j => t * (mat_added (A (c_id c)) (mm (c_id c)) (mm' (c_id c)) l j * u (nth j (c_points c) 0%nat)))) by (intros; ring).
    rewrite (sum_n_ext (a_nnode (B (c_id c))) _ (fun j => t * (mat_added (B (c_id c)) (kk (c_id c)) (kk' (c_id c)) l j * u (nth j (c_points c) 0%nat)))) by (intros; ring). rewrite !sum_n_scal. ring.
  - intros u v r Hr E. destruct (fixed _); [now apply E|]. now apply Ext.
  - intros U H. apply (step_injective U (fun _ => 0) fixed). intros P HP. specialize (H P HP). destruct (fixed P); [exact H|]. rewrite H. symmetry.
    rewrite stepped_cells. transitivity (sum_over (fun c => 0 * 0) cs); [|rewrite sum_over_scal; ring]. apply sum_over_ext. intros c _.
    transitivity (at_point (c_points c) P (fun _ => 0 * 0)); [|rewrite at_point_scal; ring]. apply at_point_ext. intros l _.
    unfold cell_step, conductivity_times. rewrite !sum_n_zero by (intros; ring). ring.
  - exists U. intros P HP. specialize (E P HP). destruct (fixed P); exact E.
Qed.
End Step.
