(* mat_10_bdb: the entries are the integrals of strain : D : strain; equality with mat_10_bdb_alt. *)
From Coq Require Import String Reals List Lia Lra Bool Arith.
From Verif Require Import Base BaseFacts Expr ShapesData Kind ShapesModel ShapesSpec ShapesProof GeomModel GeomProof PadModel PadSpec
  PadProof PadProof2 PadProof3 GaussModel GaussSpec IntegModel IntegSpec IntegProof IntegProof2 IntegProof3.
Import ListNotations.
Local Open Scope R_scope.

(* Mandel vector of a symmetric tensor *)
Definition mv (e : nat -> nat -> R) (a : nat) : R :=
  match a with
  | 0%nat => e 0%nat 0%nat | 1%nat => e 1%nat 1%nat | 2%nat => e 2%nat 2%nat
  | 3%nat => sqrt 2 * e 0%nat 1%nat | 4%nat => sqrt 2 * e 1%nat 2%nat | 5%nat => sqrt 2 * e 0%nat 2%nat
  | _ => 0
  end.
Definition sym2 (e : nat -> nat -> R) : Prop := forall i j, e i j = e j i.
Lemma s2s2 : sqrt 2 * sqrt 2 = 2.
Proof. apply sqrt_sqrt. lra. Qed.
Lemma inv_s2 : / sqrt 2 = sqrt 2 / 2.
Proof. pose proof s2_pos. pose proof s2s2. apply Rmult_eq_reg_l with (sqrt 2); auto. rewrite Rinv_r by auto. lra. Qed.
Lemma sum6 f : sum_n 6 f = f 0%nat + f 1%nat + f 2%nat + f 3%nat + f 4%nat + f 5%nat.
Proof. rewrite !sum_n_S, sum_n_0. ring. Qed.

Lemma contract X f : sym2 f ->
  sum_n 3 (fun k => sum_n 3 (fun l => X (mandel_index k l) / mandel_factor k l * f k l)) = sum_n 6 (fun b => X b * mv f b).
Proof.
  intros S. rewrite !sum3, sum6. unfold mandel_index, mandel_factor, mv. cbn [Nat.eqb].
  rewrite (S 1%nat 0%nat), (S 2%nat 1%nat), (S 2%nat 0%nat). unfold Rdiv. rewrite Rinv_1, inv_s2. field.
Qed.
Lemma dd_mandel d e f : sym2 e -> sym2 f ->
  double_dot (tensor4 d) e f = sum_n 6 (fun a => sum_n 6 (fun b => mv e a * ent d a b * mv f b)).
Proof.
  intros Se Sf. unfold double_dot.
  rewrite (sum_n_ext 6 _ (fun a => (fun a => sum_n 6 (fun b => ent d a b * mv f b)) a * mv e a)).
  2:{ intros a _. cbv beta. rewrite <- sum_n_scal_r. apply sum_n_ext. intros b _. ring. }
  rewrite <- (contract _ e Se). apply sum_n_ext. intros i _. apply sum_n_ext. intros j _.
  rewrite <- (contract (fun b => ent d (mandel_index i j) b) f Sf).
  unfold Rdiv. rewrite Rmult_assoc, <- sum_n_scal_r. apply sum_n_ext. intros k _.
  rewrite <- sum_n_scal_r. apply sum_n_ext. intros l _. unfold tensor4, Rdiv. rewrite Rinv_mult. ring.
Qed.
Lemma strain_sym A B p m i : sym2 (strain A B p m i).
Proof.
  intros k l. unfold strain. f_equal.
  - f_equal. ring.
  - rewrite <- !andb_assoc. rewrite (andb_comm (k =? 2)%nat). reflexivity.
Qed.

Lemma quad_mandel d e f : sum_n 6 (fun a => sum_n 6 (fun b => mv e a * ent d a b * mv f b)) =
  e 0%nat 0%nat * ent d 0 0 * f 0%nat 0%nat + e 0%nat 0%nat * ent d 0 1 * f 1%nat 1%nat + e 0%nat 0%nat * ent d 0 2 * f 2%nat 2%nat + sqrt 2 * e 0%nat 0%nat * ent d 0 3 * f 0%nat 1%nat + sqrt 2 * e 0%nat 0%nat * ent d 0 4 * f 1%nat 2%nat + sqrt 2 * e 0%nat 0%nat * ent d 0 5 * f 0%nat 2%nat + e 1%nat 1%nat * ent d 1 0 * f 0%nat 0%nat + e 1%nat 1%nat * ent d 1 1 * f 1%nat 1%nat + e 1%nat 1%nat * ent d 1 2 * f 2%nat 2%nat + sqrt 2 * e 1%nat 1%nat * ent d 1 3 * f 0%nat 1%nat + sqrt 2 * e 1%nat 1%nat * ent d 1 4 * f 1%nat 2%nat + sqrt 2 * e 1%nat 1%nat * ent d 1 5 * f 0%nat 2%nat + e 2%nat 2%nat * ent d 2 0 * f 0%nat 0%nat + e 2%nat 2%nat * ent d 2 1 * f 1%nat 1%nat + e 2%nat 2%nat * ent d 2 2 * f 2%nat 2%nat + sqrt 2 * e 2%nat 2%nat * ent d 2 3 * f 0%nat 1%nat + sqrt 2 * e 2%nat 2%nat * ent d 2 4 * f 1%nat 2%nat + sqrt 2 * e 2%nat 2%nat * ent d 2 5 * f 0%nat 2%nat + sqrt 2 * e 0%nat 1%nat * ent d 3 0 * f 0%nat 0%nat + sqrt 2 * e 0%nat 1%nat * ent d 3 1 * f 1%nat 1%nat + sqrt 2 * e 0%nat 1%nat * ent d 3 2 * f 2%nat 2%nat + 2 * e 0%nat 1%nat * ent d 3 3 * f 0%nat 1%nat + 2 * e 0%nat 1%nat * ent d 3 4 * f 1%nat 2%nat + 2 * e 0%nat 1%nat * ent d 3 5 * f 0%nat 2%nat + sqrt 2 * e 1%nat 2%nat * ent d 4 0 * f 0%nat 0%nat + sqrt 2 * e 1%nat 2%nat * ent d 4 1 * f 1%nat 1%nat + sqrt 2 * e 1%nat 2%nat * ent d 4 2 * f 2%nat 2%nat + 2 * e 1%nat 2%nat * ent d 4 3 * f 0%nat 1%nat + 2 * e 1%nat 2%nat * ent d 4 4 * f 1%nat 2%nat + 2 * e 1%nat 2%nat * ent d 4 5 * f 0%nat 2%nat + sqrt 2 * e 0%nat 2%nat * ent d 5 0 * f 0%nat 0%nat + sqrt 2 * e 0%nat 2%nat * ent d 5 1 * f 1%nat 1%nat + sqrt 2 * e 0%nat 2%nat * ent d 5 2 * f 2%nat 2%nat + 2 * e 0%nat 2%nat * ent d 5 3 * f 0%nat 1%nat + 2 * e 0%nat 2%nat * ent d 5 4 * f 1%nat 2%nat + 2 * e 0%nat 2%nat * ent d 5 5 * f 0%nat 2%nat.
Proof.
  rewrite !sum6. cbn [mv].
  match goal with |- ?l = ?r => assert (E : l = r + (sqrt 2 * sqrt 2 - 2) * (e 0%nat 1%nat * ent d 3 3 * f 0%nat 1%nat + e 0%nat 1%nat * ent d 3 4 * f 1%nat 2%nat + e 0%nat 1%nat * ent d 3 5 * f 0%nat 2%nat + e 1%nat 2%nat * ent d 4 3 * f 0%nat 1%nat + e 1%nat 2%nat * ent d 4 4 * f 1%nat 2%nat + e 1%nat 2%nat * ent d 4 5 * f 0%nat 2%nat + e 0%nat 2%nat * ent d 5 3 * f 0%nat 1%nat + e 0%nat 2%nat * ent d 5 4 * f 1%nat 2%nat + e 0%nat 2%nat * ent d 5 5 * f 0%nat 2%nat)) by ring end.
  rewrite E, s2s2. ring.
Qed.

Ltac strains := unfold strain; cbn [Nat.eqb Nat.ltb Nat.leb andb].

Lemma bdb_block A B p c d : (p_space (a_pad A) = 2 \/ p_space (a_pad A) = 3)%nat -> a_axi A = false ->
  bdb_contrib (p_space (a_pad A)) (a_ii0 A) (a_jj0 A) (a_nnode A) c d B =
  mblock (a_ii0 A) (a_jj0 A) (a_nnode A) (p_space (a_pad A)) (a_nnode A) (p_space (a_pad A))
    (fun m i n j => c * sum_n 6 (fun a => sum_n 6 (fun b => mv (strain A B p m i) a * ent d a b * mv (strain A B p n j) b))).
Proof.
  intros S Ax. unfold bdb_contrib, mblock, for_mn.
  destruct S as [S|S]; rewrite S; cbn [Nat.eqb]; apply flat_map_seq; intros m Hm; apply flat_map_seq; intros n Hn; m_items;
    rewrite quad_mandel; unfold strain; rewrite S, Ax; cbn [Nat.eqb Nat.ltb Nat.leb andb]; field.
Qed.
Lemma bdb_block_axi A B p c d r : p_space (a_pad A) = 2%nat -> a_axi A = true -> r = r_of A p -> r <> 0 ->
  bdb_contrib_axi (a_ii0 A) (a_jj0 A) (a_nnode A) c r d (N_p A p) B =
  mblock (a_ii0 A) (a_jj0 A) (a_nnode A) 2 (a_nnode A) 2
    (fun m i n j => c * r * sum_n 6 (fun a => sum_n 6 (fun b => mv (strain A B p m i) a * ent d a b * mv (strain A B p n j) b))).
Proof.
  intros S Ax Er Hr. unfold bdb_contrib_axi, mblock, for_mn.
  apply flat_map_seq; intros m Hm; apply flat_map_seq; intros n Hn; m_items;
    rewrite quad_mandel; unfold strain; rewrite S, Ax, <- Er; cbn [Nat.eqb Nat.ltb Nat.leb andb]; unfold N_of, vat; field; auto.
Qed.

(** ** mat_10_bdb *)
Section Bdb.
Variables (zdet : R) (A : args).
Hypothesis Hz : 0 <= zdet.
Hypothesis W : pad_wf (a_pad A).
Notation np := (npoint (a_gauss A)).
Notation nd := (p_space (a_pad A)).
Notation nnode := (a_nnode A).
Hypothesis off_axis : a_axi A = true -> forall p, (p < np)%nat -> r_of A p <> 0.

(* the additions at one integration point *)
Definition bdb_value (p : nat) (dj : R) (B d : mat) (m i n j : nat) : R :=
  dvol A (fun _ => dj) p * sum_n 6 (fun a => sum_n 6 (fun b => mv (strain A B p m i) a * ent d a b * mv (strain A B p n j) b)).
Lemma bdb_adds p dj B d pd : (p < np)%nat -> same_element (a_pad A) pd -> (a_axi A = true -> nd = 2%nat) ->
  (if a_axi A then bdb_contrib_axi (a_ii0 A) (a_jj0 A) nnode (dj * wt (a_gauss A) p * a_alpha A) (radius nnode (N_p A p) pd) d (N_p A p) B
   else bdb_contrib (a_space A) (a_ii0 A) (a_jj0 A) nnode (dj * wt (a_gauss A) p * a_alpha A) d B) =
  mblock (a_ii0 A) (a_jj0 A) nnode nd nnode nd (bdb_value p dj B d).
Proof.
  intros Hp SE Ax. unfold a_space, bdb_value, dvol. destruct (a_axi A) eqn:E.
  - rewrite (Ax eq_refl). rewrite radius_at by auto. rewrite (bdb_block_axi A B p _ d _ (Ax eq_refl) E eq_refl) by auto. reflexivity.
  - rewrite (bdb_block A B p _ d) by (auto; now apply space23). unfold mblock, for_mn.
    apply flat_map_seq; intros m Hm; apply flat_map_seq; intros n Hn. apply flat_map_seq; intros i Hi. apply map_ext. intros j. f_equal. ring.
Qed.
Lemma bdb_check_ok nr nc kk t : is_matrix nr nc kk -> bdb_check A kk = Ok t ->
  ((a_ii0 A + nnode * nd <= nr)%nat /\ (a_jj0 A + nnode * nd <= nc)%nat /\ (0 < nr)%nat) /\ (a_axi A = true -> nd = 2%nat).
Proof.
  intros M H. unfold bdb_check in H. apply bind_ok in H as (t0 & L & H).
  apply (kk_check_ok _ _ _ _ _ nr nc) in L; [|exact M|pose proof (nnode_pos (p_kind (a_pad A))); unfold a_nnode, a_space; destruct (space23 _ W); nia].
  split; auto. intros E. rewrite E in H. unfold a_space in H. destruct (Nat.eqb_spec nd 2); auto; discriminate.
Qed.
Lemma bdb_check_cases nr nc kk : is_matrix nr nc kk ->
  (((a_ii0 A + nnode * nd <= nr)%nat /\ (a_jj0 A + nnode * nd <= nc)%nat /\ (a_axi A = true -> nd = 2%nat)) /\ (0 < nr)%nat /\ bdb_check A kk = Ok tt) \/
  (~ ((a_ii0 A + nnode * nd <= nr)%nat /\ (a_jj0 A + nnode * nd <= nc)%nat /\ (a_axi A = true -> nd = 2%nat)) /\ exists msg, bdb_check A kk = Err msg).
Proof.
  clear off_axis. intros M. unfold bdb_check, a_space. destruct (kk_check_cases A kk (nnode * nd) (nnode * nd) nr nc M) as [(Rm & Hr & Ec)|(Rm & msg & Ec)].
  - pose proof (nnode_pos (p_kind (a_pad A))) as P0. fold (a_nnode A) in P0. destruct (space23 _ W); nia.
  - rewrite Ec. cbn [bind]. destruct (a_axi A), (Nat.eqb_spec nd 2); cbn [andb negb]; [left|right|left|left]; (split; [|eauto]); auto; intuition discriminate.
  - rewrite Ec. right. split; [tauto|]. cbn [bind]. eauto.
Qed.
Lemma mat_10_run nr nc kk fn : is_matrix nr nc kk ->
  run_spec ((a_ii0 A + nnode * nd <= nr)%nat /\ (a_jj0 A + nnode * nd <= nc)%nat /\ (a_axi A = true -> nd = 2%nat))
    (loop_spec (fun p _ nn x => fn p nn (snd x)) A (grad_facts zdet A) (grad_ok zdet A)
      (fun x D kk' => mat_result A kk kk' nnode nd nnode nd (fun m i n j => integral A (fun p => bdb_value p (fst (x p)) (snd (x p)) (D p) m i n j))))
    (mat_10_bdb zdet A kk fn).
Proof.
  intros M. unfold mat_10_bdb.
  destruct (bdb_check_cases nr nc kk M) as [(Rm & Hr & Ec)|(Rm & msg & Ec)]; rewrite Ec; cbn [bind]; [left|right; eauto].
  split; auto. destruct Rm as (R1 & R2 & Ax).
  apply (mat_loop (0, []) [] _ (fun p iota nn x => fn p nn (snd x)) A _ _ (grad_eval_spec zdet A Hz W) _
    (fun p x d m i n j => bdb_value p (fst x) (snd x) d m i n j) _ _ _ _ nr nc); try lia; auto.
  intros p [dj bb] pd st Hp SE. cbn [fst snd].
  destruct (fn p _ _) as [s| | |]; try reflexivity. cbn [bind]. f_equal. now apply bdb_adds.
Qed.
Lemma mat_10_form nr nc kk fn kk' q : is_matrix nr nc kk -> mat_10_bdb zdet A kk fn = Ok (kk', q) ->
  (a_axi A = true -> nd = 2%nat) /\ same_element (a_pad A) q /\ exists x D,
    (forall p, (p < np)%nat -> grad_facts zdet A p (x p) /\ fn p (N_p A p) (snd (x p)) = Ok (D p)) /\
    mat_result A kk kk' nnode nd nnode nd (fun m i n j => integral A (fun p => bdb_value p (fst (x p)) (snd (x p)) (D p) m i n j)).
Proof.
  intros M H. apply (run_ok _ _ _ _ (mat_10_run nr nc _ _ M)) in H as H'. destruct H' as ((_ & _ & Ax) & H' & _).
  split; [exact Ax|exact (H' _ _ H)].
Qed.
Lemma bdb_value_strain p dj B d m i n j : bdb_value p dj B d m i n j =
  dvol A (fun _ => dj) p * double_dot (tensor4 d) (strain A B p m i) (strain A B p n j).
Proof. unfold bdb_value. rewrite dd_mandel; auto using strain_sym. Qed.
End Bdb.
