(* scalar_field; when the functions return a result; the alternative stiffness function *)
From Coq Require Import String Reals List Arith Bool Lia Lra Psatz.
From Verif Require Import Base BaseFacts Expr ShapesData Kind ShapesModel ShapesSpec ShapesProof GeomModel GeomProof PadModel PadSpec
  PadProof PadProof2 PadProof3 GaussModel GaussSpec
  IntegModel IntegSpec IntegProof IntegProof2 IntegProof3 IntegProof4 IntegProof5 IntegProof6 IntegProof7.
Import ListNotations.
Local Open Scope list_scope.
Local Open Scope R_scope.

Section Scalar.
Variables (zdet : R) (p0 : pad) (g : gauss).
Hypothesis Hz : 0 <= zdet.
Hypothesis W : pad_wf p0.
Notation A := (args_new p0 g).
Notation np := (npoint g).

Lemma scalar_run fn : loop_spec (fun p _ _ _ => fn p) A (fun p x => measure_at p0 (ksi_at A p) x) (jac_ok zdet A)
  (fun x s v => v = sum_n np (fun p => s p * x p * wt g p)) (scalar_field zdet p0 g fn).
Proof.
  pose proof (jac_eval_spec zdet A Hz W) as EV. unfold scalar_field. set (f := fun (st : R * pad) p => _).
  assert (Step : forall p v pd, (p < np)%nat -> f (v, pd) p = let! r := eval_jac zdet pd (iota4 g p) in let! s := fn p in Ok (v + s * fst r * wt g p, snd r)).
  { intros p v pd Hp. unfold f. cbn [fst snd]. now rewrite g_coords_ok, g_weight_ok by auto. }
  split; [|split].
  - intros v q H.
    enough (G : forall n k v0 pd, (k + n <= np)%nat -> same_element p0 pd -> foldM f (seq k n) (v0, pd) = Ok (v, q) ->
      same_element p0 q /\ exists x s, (forall p, (k <= p < k + n)%nat -> measure_at p0 (ksi_at A p) (x p) /\ fn p = Ok (s p)) /\
        v = v0 + sum_n n (fun i => s (k + i)%nat * x (k + i)%nat * wt g (k + i))).
    { destruct (G np 0%nat 0 p0 ltac:(lia) (same_refl _) H) as (SE & x & s & F & V). split; auto.
      exists x, s. split; [intros p Hp; apply F; split; [lia|exact Hp]|]. rewrite V. cbn [Nat.add]. lra. }
    clear H. induction n as [|n IH]; intros k v0 pd Hk SE H.
    + cbn [seq foldM] in H. injection H as <- <-. split; auto. exists (fun _ => 0), (fun _ => 0). split; [intros; lia|]. rewrite sum_n_0. lra.
    + cbn [seq foldM] in H. rewrite Step in H by lia. apply bind_ok in H as (st & H1 & H). apply bind_ok in H1 as ([d q1] & Ej & H1).
      apply bind_ok in H1 as (sk & Es & H1). injection H1 as <-. cbn [fst snd] in *.
      destruct (proj1 (EV pd k ltac:(cbn; lia) SE) d q1 Ej) as (SE1 & Md).
      destruct (IH (S k) _ q1 ltac:(lia) SE1 H) as (SEq & x & s & F & V). split; auto.
      exists (fun p => if (p =? k)%nat then d else x p), (fun p => if (p =? k)%nat then sk else s p). split.
      * intros p Hp. destruct (Nat.eqb_spec p k) as [->|N]; auto. apply F. lia.
      * rewrite V, sum_n_head, Nat.add_0_r, Nat.eqb_refl, Rplus_assoc. do 2 f_equal. apply sum_n_ext. intros i Hi.
        replace (S k + i)%nat with (k + S i)%nat by lia. destruct (Nat.eqb_spec (k + S i) k); [lia|]. reflexivity.
  - intros T.
    enough (G : forall l, (forall p, In p l -> (p < np)%nat) -> forall v pd, same_element p0 pd ->
      ((exists s' q, foldM f l (v, pd) = Ok (s', q)) <-> forall p, In p l -> jac_ok zdet A p)).
    { rewrite (G (seq 0 np)); auto using same_refl.
      - split; intros H p Hp; [apply H, in_seq; split; [lia|exact Hp]|apply in_seq in Hp; apply H; cbn; lia].
      - intros p Hp. apply in_seq in Hp. lia. }
    induction l as [|p l IH]; intros Hl v pd SE; [split; [intros _ q []|cbn [foldM]; eauto]|].
    specialize (IH (fun p Hp => Hl p (or_intror Hp))). assert (Hp : (p < np)%nat) by (apply Hl; simpl; auto).
    cbn [foldM]. rewrite Step by auto. destruct (EV pd p Hp SE) as (E1 & E2 & _). cbn [a_gauss args_new] in E1, E2.
    destruct (T p [] [] 0) as (s & Es). destruct (eval_jac zdet pd (iota4 g p)) as [[d q1]| | |]; cbn [bind fst snd].
    + rewrite Es. cbn [bind]. destruct (E1 d q1 eq_refl) as (SE1 & _). rewrite (IH _ q1 SE1). split; intros H; [|intros q' Hq'; apply H; simpl; auto].
      intros p' [<-|Hp']; auto. apply E2. eauto.
    + split; [intros (? & ? & ?); discriminate|]. intros H. destruct (proj2 E2 (H p ltac:(simpl; auto))) as (? & ? & ?). discriminate.
    + split; [intros (? & ? & ?); discriminate|]. intros H. destruct (proj2 E2 (H p ltac:(simpl; auto))) as (? & ? & ?). discriminate.
    + split; [intros (? & ? & ?); discriminate|]. intros H. destruct (proj2 E2 (H p ltac:(simpl; auto))) as (? & ? & ?). discriminate.
  - intros T. enough (G : forall l, (forall p, In p l -> (p < np)%nat) -> forall v pd, same_element p0 pd -> no_panic (foldM f l (v, pd))).
    { apply G; auto using same_refl. intros p Hp. apply in_seq in Hp. lia. }
    induction l as [|p l IH]; intros Hl v pd SE; [left; cbn [foldM]; eauto|].
    specialize (IH (fun p Hp => Hl p (or_intror Hp))). assert (Hp : (p < np)%nat) by (apply Hl; simpl; auto).
    cbn [foldM]. rewrite Step by auto. destruct (EV pd p Hp SE) as (E1 & _ & [([d q1] & Ev)|(msg & Ev)]); cbn [a_gauss args_new] in Ev, E1; rewrite Ev; cbn [bind fst snd]; [|right; eauto].
    destruct (T p [] [] 0) as [(s & Es)|(msg & Es)]; rewrite Es; cbn [bind]; [|right; eauto]. apply IH. now apply (E1 d q1).
Qed.
End Scalar.

(** ** totality *)
Lemma run_total {X Y S} room fn A Q E Res (r : res (S * pad)) : run_spec room (@loop_spec X Y S fn A Q E Res) r ->
  total_when (forall p iota nn x, exists y, fn p iota nn x = Ok y) (forall p iota nn x, no_panic (fn p iota nn x))
    (room /\ forall p, (p < npoint (a_gauss A))%nat -> E p) r.
Proof.
  intros [(Rm & _ & H2 & H3)|(Rm & msg & ->)]; split; auto.
  - intros T. rewrite <- (and_iff_compat_l room (H2 T)) by auto. split.
    + intros ((s & q) & H). split; eauto.
    + intros (_ & s & q & H). eauto.
  - intros T. split; [intros (? & ?); discriminate|tauto].
  - intros _. right. eauto.
Qed.
Lemma total_weaken {T} (a a' b b' c c' : Prop) (r : res T) : (a' -> a) -> (b' -> b) -> (c <-> c') -> total_when a b c r -> total_when a' b' c' r.
Proof. intros H1 H2 H3 (T1 & T2). split; intros H; [rewrite (T1 (H1 H)); auto|auto]. Qed.

(** ** the alternative function, when kk is larger than the block *)
Lemma alt_larger zdet A nr nc kk fn : 0 <= zdet -> pad_wf (a_pad A) -> is_matrix nr nc kk ->
  (nr <> a_nnode A * p_space (a_pad A) \/ nc <> a_nnode A * p_space (a_pad A))%nat -> (0 < npoint (a_gauss A))%nat ->
  forall kk' q, mat_10_bdb_alt zdet A kk fn <> Ok (kk', q).
Proof.
  intros Hz W Mk Ne Hn kk' q H. unfold mat_10_bdb_alt in H. apply bind_ok in H as (t0 & Ck & H).
  apply bind_ok in H as (r & H & _).
  destruct (bdb_check_cases A W nr nc kk Mk) as [(Rm & Hr & Ec)|(_ & msg & Ec)]; [|congruence]. clear Ck t0.
  destruct Rm as (R1 & R2 & Ax).
  unfold gauss_loop in H. destruct (npoint (a_gauss A)) as [|n] eqn:En; [lia|]. cbn [seq foldM] in H.
  apply bind_ok in H as (st & H & _). cbn [fst snd] in H.
  rewrite g_coords_ok, g_weight_ok in H by lia. cbn [bind] in H. rewrite interp_ksi in H.
  apply bind_ok in H as ([[dj bb] q'] & Ev & H). cbn [fst snd] in H. apply bind_ok in H as (s & H & _).
  apply bind_ok in H as (dd & Ed & H). apply bind_ok in H as ([r0 M'] & Eb & H). apply bind_ok in H as (k1 & Ea & _).
  destruct (grad_eval_spec zdet A Hz W (with_interp (a_pad A) (N_p A 0)) 0%nat ltac:(lia) ltac:(apply same_interp, same_refl)) as (E1 & _).
  destruct (E1 _ _ Ev) as (SE & _).
  destruct (calc_bb_ok A W (zeros (2 * a_space A) (a_nnode A * a_space A)) 0%nat bb q' (bb_zeros A) SE Ax) as (M2 & Eb2 & (Mb & _) & _).
  unfold a_space in *. rewrite Eb2 in Eb. injection Eb as <- <-. cbn [fst snd] in Ea. unfold add_to_stiff_mat in Ea.
  assert (2 * p_space (a_pad A) > 0)%nat by (destruct (space23 _ W); lia).
  destruct (is_matrix_dims _ _ _ Mb) as (B1 & B2); [lia|]. rewrite B1, B2 in Ea.
  destruct (is_matrix_dims _ _ _ (mat_start_matrix A _ _ _ Mk)) as (K1 & K2); [lia|]. rewrite K1, K2 in Ea.
  destruct (negb _); [discriminate|].
  destruct (Nat.eqb_spec nr (a_nnode A * p_space (a_pad A))), (Nat.eqb_spec nc (a_nnode A * p_space (a_pad A))); cbn [andb negb] in Ea; try discriminate. lia.
Qed.

(** ** surfaces in 3D *)
Lemma shell_measure p ksi d : (1 < kind_ndim (p_kind p) < p_space p)%nat -> measure_at p ksi d -> d = -1.
Proof. intros H (J & _ & _ & _ & M). auto. Qed.
Lemma shell_scalar zdet p0 g fn v q : 0 <= zdet -> pad_wf p0 -> (1 < kind_ndim (p_kind p0) < p_space p0)%nat ->
  scalar_field zdet p0 g fn = Ok (v, q) -> exists s, (forall p, (p < npoint g)%nat -> fn p = Ok (s p)) /\
    v = - sum_n (npoint g) (fun p => s p * wt g p).
Proof.
  intros Hz W Hs H. apply (proj1 (scalar_run zdet p0 g Hz W fn)) in H as (_ & x & s & F & V). exists s. split; [intros p Hp; now apply F|].
  rewrite V, (sum_n_ext _ _ (fun p => (-1) * (s p * wt g p))); [rewrite sum_n_scal; lra|].
  intros p Hp. destruct (F p Hp) as (M & _). rewrite (shell_measure _ _ _ Hs M). ring.
Qed.
