(* Stiffness matrix: symmetry, sign, rigid motions; forces equal the stiffness matrix times the displacements. *)
From Coq Require Import String Reals List Lia Lra Bool Arith.
From Verif Require Import Base BaseFacts Expr ShapesData Kind ShapesModel ShapesSpec ShapesProof GeomModel GeomProof PadModel PadSpec
  PadProof PadProof2 PadProof3 GaussModel GaussSpec IntegModel IntegSpec IntegProof IntegProof2 IntegProof3 IntegProof4 IntegProof5 IntegProof6.
Import ListNotations.
Local Open Scope R_scope.

Lemma sum_n_add n f g : sum_n n (fun i => f i + g i) = sum_n n f + sum_n n g.
Proof. apply sum_n_plus. Qed.
Lemma sum_n_div n f c : sum_n n (fun i => f i / c) = sum_n n f / c.
Proof. unfold Rdiv. apply sum_n_scal_r. Qed.

Section Stiff.
Variables (zdet : R) (A : args).
Hypothesis Hz : 0 <= zdet.
Hypothesis W : pad_wf (a_pad A).
Notation np := (npoint (a_gauss A)).
Notation nd := (p_space (a_pad A)).
Notation nnode := (a_nnode A).

Lemma pick_dir (u : nat -> R) b k l : sum_n nd (fun j => u j * (if (k =? j)%nat && (l <? nd)%nat then b else 0)) =
  if (k <? nd)%nat && (l <? nd)%nat then u k * b else 0.
Proof.
  destruct (l <? nd)%nat; [|rewrite andb_false_r; apply sum_n_zero; intros; rewrite andb_false_r; ring].
  rewrite andb_true_r. destruct (Nat.ltb_spec k nd) as [H|H].
  - rewrite (sum_n_single nd _ k H); [now rewrite Nat.eqb_refl|]. intros j _ N. destruct (Nat.eqb_spec k j); [congruence|]. cbn [andb]. ring.
  - apply sum_n_zero. intros j Hj. destruct (Nat.eqb_spec k j); [lia|]. cbn [andb]. ring.
Qed.
Lemma strain_u_sum B p u k l : strain_u A B p u k l = sum_n nnode (fun n => sum_n nd (fun j => u n j * strain A B p n j k l)).
Proof.
  assert (G : forall a b, grad_u A B u a b = sum_n nnode (fun n => sum_n nd (fun j => u n j * (if (a =? j)%nat && (b <? nd)%nat then ent B n b else 0)))).
  { intros a b. unfold grad_u. rewrite (sum_n_ext nnode (fun n => sum_n nd _) _ (fun n _ => pick_dir (u n) (ent B n b) a b)).
    destruct ((a <? nd)%nat && (b <? nd)%nat); auto. symmetry. apply sum_n_zero. auto. }
  unfold strain_u. rewrite !G, <- sum_n_add.
  replace (if a_axi A && (k =? 2)%nat && (l =? 2)%nat then sum_n nnode (fun n => N_of A p n * u n 0%nat) / r_of A p else 0)
    with (sum_n nnode (fun n => sum_n nd (fun j => u n j * (if a_axi A && (j =? 0)%nat && (k =? 2)%nat && (l =? 2)%nat then N_of A p n / r_of A p else 0)))).
  - rewrite <- sum_n_div, <- sum_n_add. apply sum_n_ext. intros n _. rewrite <- sum_n_add, <- sum_n_div, <- sum_n_add. apply sum_n_ext. intros j _.
    unfold strain. field.
  - assert (P : (0 < nd)%nat) by (destruct (space23 _ W); lia).
    destruct (a_axi A); cbn [andb]; [|apply sum_n_zero; intros; apply sum_n_zero; intros; ring].
    destruct (k =? 2)%nat; cbn [andb]; [|apply sum_n_zero; intros; apply sum_n_zero; intros; rewrite andb_false_r; cbn [andb]; ring].
    destruct (l =? 2)%nat; cbn [andb]; [|apply sum_n_zero; intros; apply sum_n_zero; intros; rewrite !andb_false_r; ring].
    rewrite <- sum_n_div. apply sum_n_ext. intros n _. rewrite (sum_n_single nd _ 0%nat P).
    + cbn [Nat.eqb andb]. unfold Rdiv. ring.
    + intros j _ N. destruct (Nat.eqb_spec j 0); [contradiction|]. cbn [andb]. ring.
Qed.
Lemma mv_sum B p u a : mv (strain_u A B p u) a = sum_n nnode (fun n => sum_n nd (fun j => u n j * mv (strain A B p n j) a)).
Proof.
  assert (S : forall k l, sqrt 2 * strain_u A B p u k l = sum_n nnode (fun n => sum_n nd (fun j => u n j * (sqrt 2 * strain A B p n j k l)))).
  { intros k l. rewrite strain_u_sum, <- sum_n_scal. apply sum_n_ext. intros n _. rewrite <- sum_n_scal. apply sum_n_ext. intros j _. ring. }
  destruct a as [|[|[|[|[|[|a]]]]]]; cbn [mv]; try apply strain_u_sum; try apply S.
  symmetry. apply sum_n_zero. intros. apply sum_n_zero. intros. ring.
Qed.
Lemma strain_u_sym B p u : sym2 (strain_u A B p u).
Proof. intros k l. rewrite !strain_u_sum. apply sum_n_ext. intros n _. apply sum_n_ext. intros j _. now rewrite strain_sym. Qed.

Hypothesis off_axis : a_axi A = true -> forall p, (p < np)%nat -> r_of A p <> 0.

(* what multiplies the strain of N_m e_i *)
Definition mand (d : mat) (e : nat -> nat -> R) (a : nat) : R := sum_n 6 (fun b => ent d a b * mv e b).
Lemma bdb_times p dj B d m i u :
  sum_n nnode (fun n => sum_n nd (fun j => bdb_value A p dj B d m i n j * u n j)) =
  dvol A (fun _ => dj) p * sum_n 6 (fun a => mv (strain A B p m i) a * mand d (strain_u A B p u) a).
Proof.
  unfold bdb_value, mand.
  transitivity (sum_n nnode (fun n => sum_n nd (fun j => sum_n 6 (fun a => sum_n 6 (fun b =>
    dvol A (fun _ => dj) p * mv (strain A B p m i) a * ent d a b * (u n j * mv (strain A B p n j) b)))))).
  - apply sum_n_ext. intros n _. apply sum_n_ext. intros j _. rewrite Rmult_assoc, (Rmult_comm _ (u n j)), <- Rmult_assoc, <- sum_n_scal.
    apply sum_n_ext. intros a _. rewrite <- sum_n_scal. apply sum_n_ext. intros b _. ring.
  - rewrite <- sum_n_scal.
    rewrite (sum_n_ext nnode _ (fun n => sum_n 6 (fun a => sum_n nd (fun j => sum_n 6 (fun b =>
      dvol A (fun _ => dj) p * mv (strain A B p m i) a * ent d a b * (u n j * mv (strain A B p n j) b)))))) by (intros; apply sum_n_swap).
    rewrite sum_n_swap. apply sum_n_ext. intros a _.
    rewrite (sum_n_ext nnode _ (fun n => sum_n 6 (fun b => sum_n nd (fun j =>
      dvol A (fun _ => dj) p * mv (strain A B p m i) a * ent d a b * (u n j * mv (strain A B p n j) b))))) by (intros; apply sum_n_swap).
    rewrite sum_n_swap, <- !sum_n_scal. apply sum_n_ext. intros b _. rewrite mv_sum.
    rewrite <- Rmult_assoc, <- Rmult_assoc. rewrite <- sum_n_scal. apply sum_n_ext. intros n _. rewrite <- sum_n_scal. apply sum_n_ext. intros j _. ring.
Qed.

(* mat_10_bdb as a linear map: row (m, i) times u *)
Lemma mat_10_times nr nc kk fn kk' q : is_matrix nr nc kk -> mat_10_bdb zdet A kk fn = Ok (kk', q) -> exists x D,
  (forall p, (p < np)%nat -> grad_facts zdet A p (x p) /\ fn p (N_p A p) (snd (x p)) = Ok (D p)) /\
  forall u m i, (m < nnode)%nat -> (i < nd)%nat ->
    sum_n nnode (fun n => sum_n nd (fun j => mat_added A kk kk' (i + m * nd) (j + n * nd) * u n j)) =
    integral A (fun p => dvol A (fun p => fst (x p)) p *
      sum_n 6 (fun a => mv (strain A (snd (x p)) p m i) a * mand (D p) (strain_u A (snd (x p)) p u) a)).
Proof.
  intros M H. apply (mat_10_form zdet A Hz W off_axis nr nc) in H as (_ & _ & x & D & F & V); auto. exists x, D. split; auto.
  intros u m i Hm Hi.
  transitivity (sum_n nnode (fun n => sum_n nd (fun j => integral A (fun p => bdb_value A p (fst (x p)) (snd (x p)) (D p) m i n j * u n j)))).
  - apply sum_n_ext. intros n Hn. apply sum_n_ext. intros j Hj. rewrite (mat_result_added _ _ _ _ _ _ _ _ V) by auto.
    unfold integral. now rewrite <- sum_n_scal_r.
  - rewrite (sum_n_ext nnode _ _ (fun n _ => integral_sum A nd _)), integral_sum. apply integral_ext. intros p Hp. rewrite bdb_times. reflexivity.
Qed.

Lemma mat_10_symmetric nr nc kk fn kk' q : is_matrix nr nc kk -> mat_10_bdb zdet A kk fn = Ok (kk', q) ->
  (forall p nn bb d, fn p nn bb = Ok d -> symmetric 6 (ent d)) -> symmetric (nnode * nd) (mat_added A kk kk').
Proof.
  intros M H Sd k l Hk Hl. apply (mat_10_form zdet A Hz W off_axis nr nc) in H as (_ & _ & x & D & F & V); auto.
  assert (Nd : (0 < nd)%nat) by (destruct (space23 _ W); lia).
  destruct (place_of nd k nnode Nd Hk) as (m & i & Hm & Hi & ->). destruct (place_of nd l nnode Nd Hl) as (n & j & Hn & Hj & ->).
  rewrite !(mat_result_added _ _ _ _ _ _ _ _ V) by auto. apply integral_ext. intros p Hp. unfold bdb_value. f_equal.
  destruct (F p Hp) as (_ & E). rewrite sum_n_swap. apply sum_n_ext. intros a Ha. apply sum_n_ext. intros b Hb.
  rewrite (Sd _ _ _ _ E b a) by auto. ring.
Qed.

Lemma mat_10_psd nr nc kk fn kk' q : is_matrix nr nc kk -> mat_10_bdb zdet A kk fn = Ok (kk', q) ->
  good_volumes A -> positive_jacobian A -> (forall p nn bb d, fn p nn bb = Ok d -> psd 6 (ent d)) -> psd (nnode * nd) (mat_added A kk kk').
Proof.
  intros M H Gv Pj Ps U. apply (mat_10_times nr nc) in H as (x & D & F & V); auto.
  assert (Nd : (0 < nd)%nat) by (destruct (space23 _ W); lia).
  unfold quad_form. rewrite sum_blocks by auto. set (u := fun n j => U (j + n * nd)%nat).
  rewrite (sum_n_ext nnode _ (fun m => sum_n nd (fun i => integral A (fun p => dvol A (fun p => fst (x p)) p *
      sum_n 6 (fun a => u m i * mv (strain A (snd (x p)) p m i) a * mand (D p) (strain_u A (snd (x p)) p u) a))))).
  - rewrite (sum_n_ext nnode _ _ (fun n _ => integral_sum A nd _)), integral_sum. apply integral_nonneg. intros p Hp. destruct (F p Hp) as (G & E).
    rewrite (sum_n_ext nnode _ (fun m => dvol A (fun p => fst (x p)) p * sum_n nd (fun i =>
      sum_n 6 (fun a => u m i * mv (strain A (snd (x p)) p m i) a * mand (D p) (strain_u A (snd (x p)) p u) a)))) by (intros; apply sum_n_scal).
    rewrite sum_n_scal. apply Rmult_le_pos; [apply dvol_nonneg; auto; now apply (grad_facts_pos zdet A p)|].
    rewrite (sum_n_ext nnode _ _ (fun m _ => sum_n_swap _ _ _)), sum_n_swap.
    pose proof (Ps _ _ _ _ E (mv (strain_u A (snd (x p)) p u))) as Q. unfold quad_form in Q.
    erewrite sum_n_ext; [exact Q|]. intros a _. cbv beta. unfold mand.
    transitivity (mv (strain_u A (snd (x p)) p u) a * sum_n 6 (fun b => ent (D p) a b * mv (strain_u A (snd (x p)) p u) b)).
    + rewrite (mv_sum _ _ u a). rewrite <- sum_n_scal_r. apply sum_n_ext. intros m _. apply sum_n_scal_r.
    + rewrite <- sum_n_scal. apply sum_n_ext. intros b _. ring.
  - intros m Hm. apply sum_n_ext. intros i Hi. rewrite sum_blocks by auto.
    transitivity (u m i * sum_n nnode (fun n => sum_n nd (fun j => mat_added A kk kk' (i + m * nd) (j + n * nd) * u n j))).
    + rewrite <- sum_n_scal. apply sum_n_ext. intros n _. rewrite <- sum_n_scal. apply sum_n_ext. intros j _. unfold u. ring.
    + rewrite V by auto. rewrite <- integral_scal. apply integral_ext. intros p _. rewrite <- !sum_n_scal. apply sum_n_ext. intros a _. ring.
Qed.

(** ** rigid motions *)
Lemma grad_rigid p x c w k l : grad_facts zdet A p x -> grad_u A (snd x) (rigid A c w) k l = if (k <? nd)%nat && (l <? nd)%nat then w k l else 0.
Proof.
  intros (_ & _ & G1 & G2). unfold grad_u. destruct (Nat.ltb_spec k nd) as [Hk|]; auto. destruct (Nat.ltb_spec l nd) as [Hl|]; auto. cbn [andb].
  unfold rigid. rewrite (sum_n_ext _ _ (fun n => c k * ent (snd x) n l + sum_n nd (fun l' => w k l' * (node_x (a_pad A) l' n * ent (snd x) n l)))).
  - rewrite sum_n_add, sum_n_scal, G1 by auto. rewrite sum_n_swap.
    rewrite (sum_n_ext nd _ (fun l' => w k l' * delta l' l)) by (intros l' Hl'; rewrite sum_n_scal, G2; auto).
    rewrite (sum_n_single nd _ l Hl); [unfold delta; rewrite Nat.eqb_refl; ring|].
    intros j _ N. unfold delta. destruct (Nat.eqb_spec j l); [contradiction|ring].
  - intros n _. rewrite Rmult_plus_distr_r. f_equal. rewrite <- sum_n_scal_r. apply sum_n_ext. intros; ring.
Qed.
Lemma mand_zero d e a : (forall k l, e k l = 0) -> mand d e a = 0.
Proof. intros Z. apply sum_n_zero. intros b _. destruct b as [|[|[|[|[|[|b]]]]]]; cbn [mv]; rewrite ?Z; ring. Qed.
Lemma mat_10_rigid nr nc kk fn kk' q c w : is_matrix nr nc kk -> mat_10_bdb zdet A kk fn = Ok (kk', q) ->
  (forall k l, w k l = - w l k) -> (a_axi A = true -> c 0%nat = 0 /\ forall k l, w k l = 0) ->
  forall k, (k < nnode * nd)%nat -> sum_n nnode (fun n => sum_n nd (fun j => mat_added A kk kk' k (j + n * nd) * rigid A c w n j)) = 0.
Proof.
  intros M H Aw Ax k Hk. apply (mat_10_times nr nc) in H as (x & D & F & V); auto.
  assert (Nd : (0 < nd)%nat) by (destruct (space23 _ W); lia).
  destruct (place_of nd k nnode Nd Hk) as (m & i & Hm & Hi & ->). rewrite V by auto. apply integral_zero. intros p Hp. destruct (F p Hp) as (G & _).
  rewrite (sum_n_zero 6); [ring|]. intros a _. rewrite mand_zero; [ring|]. intros e f. unfold strain_u. rewrite !(grad_rigid p) by auto.
  destruct (a_axi A).
  - destruct (Ax eq_refl) as (C0 & W0). rewrite !W0. rewrite (sum_n_zero nnode).
    + destruct ((e <? nd)%nat && (f <? nd)%nat), ((f <? nd)%nat && (e <? nd)%nat), (true && (e =? 2)%nat && (f =? 2)%nat); unfold Rdiv; ring.
    + intros n _. unfold rigid. rewrite C0. rewrite (sum_n_zero nd); [ring|]. intros; rewrite W0; ring.
  - cbn [andb]. rewrite (andb_comm (f <? nd)%nat). destruct ((e <? nd)%nat && (f <? nd)%nat); [rewrite (Aw e f)|]; field.
Qed.

(** ** forces and stiffness *)
Lemma stress_strain B p m i sg : (a_axi A = true -> nd = 2%nat) -> (i < nd)%nat -> (forall k l, sg k l = sg l k) ->
  sum_n 3 (fun k => sum_n 3 (fun l => sg k l * strain A B p m i k l)) =
  sum_n nd (fun j => sg i j * ent B m j) + (if a_axi A && (i =? 0)%nat then N_of A p m / r_of A p * sg 2%nat 2%nat else 0).
Proof.
  intros Ax Hi Sy. rewrite !sum3. rewrite (Sy 1%nat 0%nat), (Sy 2%nat 0%nat), (Sy 2%nat 1%nat).
  destruct (space23 _ W) as [E|E]; rewrite E in *.
  - unfold strain. rewrite E. destruct (a_axi A); (destruct i as [|[|i]]; [| |lia]); cbn [Nat.eqb Nat.ltb Nat.leb andb]; rewrite sum2;
      rewrite ?(Sy 1%nat 0%nat); unfold Rdiv; try (field; fail); generalize (/ r_of A p); intros; field.
  - assert (X : a_axi A = false) by (destruct (a_axi A); auto; specialize (Ax eq_refl); lia).
    unfold strain. rewrite E, X. (destruct i as [|[|[|i]]]; [| | |lia]); cbn [Nat.eqb Nat.ltb Nat.leb andb]; rewrite sum3;
      rewrite ?(Sy 1%nat 0%nat), ?(Sy 2%nat 0%nat), ?(Sy 2%nat 1%nat); field.
Qed.

Lemma forces_stiffness nr nc kk fn_dd kk' q t fn_sig t' q' u : is_matrix nr nc kk ->
  mat_10_bdb zdet A kk fn_dd = Ok (kk', q) -> vec_04_bt zdet A t fn_sig = Ok (t', q') ->
  (forall p nn bb D sg, fn_dd p nn bb = Ok D -> fn_sig p nn bb = Ok sg ->
     forall i j, (i < 3)%nat -> (j < 3)%nat -> tensor2 sg i j = stress_u A bb p u D i j) ->
  forall m i, (m < nnode)%nat -> (i < nd)%nat ->
    vec_added A t t' (i + m * nd) = sum_n nnode (fun n => sum_n nd (fun j => mat_added A kk kk' (i + m * nd) (j + n * nd) * u n j)).
Proof.
  intros M HK Ht St m i Hm Hi. apply (mat_10_times nr nc) in HK as (x & D & F & V); auto.
  apply vec_04_form in Ht as (Ax & _ & y & sg & F' & V'); auto.
  rewrite V by auto. rewrite (vec_result_added _ _ _ _ _ _ V') by auto. apply integral_ext. intros p Hp.
  destruct (F p Hp) as (G & E). destruct (F' p Hp) as (G' & E').
  assert (Exy : y p = x p) by (eapply grad_run_unique; [apply G'|apply G]). rewrite Exy in E'.
  specialize (St _ _ _ _ _ E E').
  assert (C : sum_n 6 (fun a => mv (strain A (snd (x p)) p m i) a * mand (D p) (strain_u A (snd (x p)) p u) a) =
     sum_n 3 (fun k => sum_n 3 (fun l => tensor2 (sg p) k l * strain A (snd (x p)) p m i k l))).
  { rewrite (sum_n_ext 6 _ (fun a => mand (D p) (strain_u A (snd (x p)) p u) a * mv (strain A (snd (x p)) p m i) a)) by (intros; ring).
    rewrite <- contract by apply strain_sym. apply sum_n_ext. intros k Hk. apply sum_n_ext. intros l Hl. f_equal. rewrite St by auto.
    unfold stress_u, mand. rewrite <- (contract (fun b => ent (D p) (mandel_index k l) b)) by apply strain_u_sym.
    unfold Rdiv. rewrite <- sum_n_scal_r. apply sum_n_ext. intros k' _. rewrite <- sum_n_scal_r. apply sum_n_ext. intros l' _.
    unfold tensor4, Rdiv. rewrite Rinv_mult. ring. }
  rewrite C, stress_strain by (auto; intros; apply tensor2_sym). rewrite Rmult_plus_distr_l. f_equal.
  - unfold dvol. now rewrite Exy.
  - unfold dvol. rewrite Exy. destruct (a_axi A) eqn:X; cbn [andb]; [|ring]. destruct (i =? 0)%nat; [|ring]. field. auto.
Qed.
End Stiff.

(** ** conductivity: mat_03 and vec_03 *)
Lemma fluxes_conductivity zdet A nr nc kk fn_tt kk' q c fn_w c' q' phi : 0 <= zdet -> pad_wf (a_pad A) -> is_matrix nr nc kk ->
  mat_03_btb zdet A kk fn_tt = Ok (kk', q) -> vec_03_bv zdet A c fn_w = Ok (c', q') ->
  (forall p nn bb T w, fn_tt p nn bb = Ok T -> fn_w p nn bb = Ok w -> forall i, (i < p_space (a_pad A))%nat ->
     nth i w 0 = sum_n (p_space (a_pad A)) (fun j => tensor2 T i j * sum_n (a_nnode A) (fun n => phi n * ent bb n j))) ->
  forall m, (m < a_nnode A)%nat -> vec_added A c c' m = sum_n (a_nnode A) (fun n => mat_added A kk kk' m n * phi n).
Proof.
  intros Hz W M HK Hc St m Hm. apply (mat_03_form zdet A Hz W nr nc) in HK as (_ & x & T & F & V); auto.
  apply vec_03_form in Hc as (_ & y & w & F' & V'); auto.
  rewrite (vec_result_added1 _ _ _ _ _ V') by auto.
  rewrite (sum_n_ext _ (fun n => mat_added A kk kk' m n * phi n) (fun n => integral A (fun p => dvol A (fun p => fst (x p)) p *
    sum_n (p_space (a_pad A)) (fun i => sum_n (p_space (a_pad A)) (fun j => ent (snd (x p)) m i * tensor2 (T p) i j * ent (snd (x p)) n j)) * phi n))).
  2:{ intros n Hn. rewrite (mat_result_added1 _ _ _ _ _ _ V) by auto. unfold integral. now rewrite sum_n_scal_r. }
  rewrite integral_sum. apply integral_ext. intros p Hp.
  destruct (F p Hp) as (G & E). destruct (F' p Hp) as (G' & E').
  assert (Exy : y p = x p) by (eapply grad_run_unique; [apply G'|apply G]). rewrite Exy in E'. specialize (St _ _ _ _ _ E E').
  unfold dvol. rewrite Exy. set (dv := fst (x p) * _ * _ * _).
  rewrite (sum_n_ext (a_nnode A) _ (fun n => dv * (sum_n (p_space (a_pad A)) (fun i => sum_n (p_space (a_pad A)) (fun j => ent (snd (x p)) m i * tensor2 (T p) i j * (phi n * ent (snd (x p)) n j)))))).
  2:{ intros n _. rewrite Rmult_assoc. f_equal. rewrite <- sum_n_scal_r. apply sum_n_ext. intros i _. rewrite <- sum_n_scal_r. apply sum_n_ext. intros j _. ring. }
  rewrite sum_n_scal. f_equal. rewrite sum_n_swap. apply sum_n_ext. intros i Hi. rewrite St by auto.
  rewrite sum_n_swap, <- sum_n_scal_r. apply sum_n_ext. intros j _. rewrite sum_n_scal. ring.
Qed.

(** ** mat_04 is the transpose of mat_07 *)
Lemma transpose_04_07 zdet A A' nr nc nr' nc' kk kk2 pb fn fn' kk' q kk2' q2 : 0 <= zdet -> pad_wf (a_pad A) ->
  a_pad A' = a_pad A -> a_gauss A' = a_gauss A -> a_axi A' = a_axi A -> a_alpha A' = a_alpha A ->
  is_matrix nr nc kk -> is_matrix nr' nc' kk2 ->
  mat_04_nsb zdet A kk pb fn = Ok (kk', q) -> mat_07_bsn zdet A' kk2 pb fn' = Ok (kk2', q2) ->
  (forall p nnb nn bb, fn' p nn bb nnb = fn p nnb nn bb) ->
  forall k l, (k < kind_nnode (p_kind pb))%nat -> (l < a_nnode A * p_space (a_pad A))%nat -> mat_added A' kk2 kk2' l k = mat_added A kk kk' k l.
Proof.
  intros Hz W Ep Eg Ea El M M2 H4 H7 Ef k l Hk Hl.
  apply (mat_04_form zdet A Hz W nr nc) in H4 as (_ & x & s & F & V); auto.
  apply (mat_07_form zdet A' Hz ltac:(now rewrite Ep) nr' nc') in H7 as (_ & y & s' & F' & V'); auto.
  assert (Nd : (0 < p_space (a_pad A))%nat) by (destruct (space23 _ W); lia).
  destruct (place_of _ l _ Nd Hl) as (m & i & Hm & Hi & ->).
  pose proof (mat_result_added _ _ _ _ _ _ _ _ V k 0%nat m i Hk ltac:(lia) Hm Hi) as R1. rewrite Nat.mul_1_r in R1. cbn [Nat.add] in R1. rewrite R1.
  assert (En : a_nnode A' = a_nnode A) by (unfold a_nnode; now rewrite Ep).
  pose proof (mat_result_added _ _ _ _ _ _ _ _ V' m i k 0%nat) as R2. rewrite En, Ep, Nat.mul_1_r in R2. cbn [Nat.add] in R2. rewrite R2 by (auto; lia).
  unfold integral. rewrite Eg. apply sum_n_ext. intros p Hp. destruct (F p Hp) as (G & E). destruct (F' p ltac:(now rewrite Eg)) as (G' & E').
  assert (Kat : ksi_at A' p = ksi_at A p) by (unfold ksi_at; now rewrite Ep, Eg).
  assert (Nat_ : N_p A' p = N_p A p) by (unfold N_p; now rewrite Ep, Kat).
  assert (Nb : N_b A' pb p = N_b A pb p) by (unfold N_b, ksi_b; now rewrite Eg).
  assert (Exy : y p = x p). { eapply grad_run_unique; [|apply G]. destruct G' as ((q' & G' & Gq) & _). exists q'. now rewrite <- Ep, <- Kat. }
  rewrite Exy, Nat_, Nb, Ef, E in E'. injection E' as E'.
  unfold dvol, r_of. rewrite Exy, Nb, Ep, Eg, Ea, El, Kat, <- E'. ring.
Qed.
