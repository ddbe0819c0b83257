(* mat_10_bdb_alt computes the same as mat_10_bdb. *)
From Coq Require Import String Reals List Lia Lra Bool Arith.
From Verif Require Import Base BaseFacts Expr ShapesData Kind ShapesModel ShapesSpec ShapesProof GeomModel GeomProof PadModel PadSpec
  PadProof PadProof2 PadProof3 PadProof4 GaussModel GaussSpec IntegModel IntegSpec IntegProof IntegProof2 IntegProof3 IntegProof4.
Import ListNotations.
Local Open Scope R_scope.

Lemma mat_set_at_ok nr nc a i j x : is_matrix nr nc a -> (i < nr)%nat -> (j < nc)%nat ->
  exists a', mat_set_at a i j x = Ok a' /\ is_matrix nr nc a' /\
    forall k l, ent a' k l = if ((i =? k) && (j =? l))%nat then x else ent a k l.
Proof.
  intros M Hi Hj. pose proof (is_matrix_row _ _ _ _ M Hi) as L. assert (Li : (i < List.length a)%nat) by (destruct M; lia).
  unfold mat_set_at. rewrite (get_ok a i [] Li). cbn [bind]. rewrite set_ok by lia. cbn [bind].
  rewrite set_ok by auto. eexists. split; [reflexivity|]. split; [apply is_matrix_upd; auto; now rewrite upd_length|].
  intros k l. rewrite ent_upd by auto. destruct (Nat.eqb_spec i k) as [->|N]; cbn [andb]; auto. rewrite nth_upd by lia. reflexivity.
Qed.
Lemma pair_dec (x y : nat * nat) : {x = y} + {x <> y}.
Proof. decide equality; apply Nat.eq_dec. Qed.
Lemma mat_sets_ok nr nc V c : forall a, is_matrix nr nc a ->
  (forall e, In e c -> (fst (fst e) < nr)%nat /\ (snd (fst e) < nc)%nat /\ snd e = V (fst (fst e)) (snd (fst e))) ->
  exists a', mat_sets a c = Ok a' /\ is_matrix nr nc a' /\ forall k l,
    (In (k, l) (map fst c) -> ent a' k l = V k l) /\ (~ In (k, l) (map fst c) -> ent a' k l = ent a k l).
Proof.
  induction c as [|e c IH]; intros a M H.
  - exists a. split; [reflexivity|]. split; auto. intros k l. split; [intros []|auto].
  - destruct (H e ltac:(simpl; auto)) as (H1 & H2 & H3).
    destruct (mat_set_at_ok nr nc a (fst (fst e)) (snd (fst e)) (snd e) M H1 H2) as (a1 & E1 & M1 & V1).
    destruct (IH a1 M1) as (a2 & E2 & M2 & V2); [intros e' He'; apply H; simpl; auto|].
    exists a2. split; [unfold mat_sets in *; cbn [foldM]; rewrite E1; exact E2|]. split; auto.
    intros k l. destruct (V2 k l) as (I1 & I2). cbn [map]. split.
    + intros [E|I]; auto. destruct (in_dec pair_dec (k, l) (map fst c)) as [I|I]; auto.
      rewrite I2, V1 by auto. destruct e as [[i j] x]. cbn [fst snd] in *. injection E as -> ->. rewrite !Nat.eqb_refl. exact H3.
    + intros I. rewrite I2 by (intros J; apply I; simpl; auto). rewrite V1. destruct e as [[i j] x]. cbn [fst snd] in *.
      destruct (Nat.eqb_spec i k) as [->|]; auto. destruct (Nat.eqb_spec j l) as [->|]; auto. exfalso. apply I. simpl. auto.
Qed.

Lemma matrix_ext nr nc a b : is_matrix nr nc a -> is_matrix nr nc b ->
  (forall k l, (k < nr)%nat -> (l < nc)%nat -> ent a k l = ent b k l) -> a = b.
Proof.
  intros Ma Mb H. apply (nth_ext _ _ [] []); [destruct Ma, Mb; congruence|].
  intros k Hk. assert (Kn : (k < nr)%nat) by (destruct Ma; lia). apply (nth_ext _ _ 0 0).
  - rewrite (is_matrix_row _ _ _ _ Ma Kn). now rewrite (is_matrix_row _ _ _ _ Mb Kn).
  - intros l Hl. rewrite (is_matrix_row _ _ _ _ Ma Kn) in Hl. now apply H.
Qed.

Lemma divmod_place n i m : (i < n)%nat -> ((i + m * n) / n = m)%nat /\ ((i + m * n) mod n = i)%nat.
Proof. intros H. split; [rewrite Nat.div_add by lia; rewrite Nat.div_small by lia; lia|rewrite Nat.mod_add by lia; now apply Nat.mod_small]. Qed.
Lemma place_of n l N : (0 < n)%nat -> (l < N * n)%nat -> exists m i, (m < N)%nat /\ (i < n)%nat /\ l = (i + m * n)%nat.
Proof.
  intros Hn Hl. exists (l / n)%nat, (l mod n)%nat. split; [apply Nat.div_lt_upper_bound; nia|].
  split; [apply Nat.mod_upper_bound; lia|]. pose proof (Nat.div_mod l n). lia.
Qed.

Lemma sum4 f : sum_n 4 f = f 0%nat + f 1%nat + f 2%nat + f 3%nat.
Proof. rewrite !sum_n_S, sum_n_0. ring. Qed.

Section Alt.
Variables (zdet : R) (A : args).
Hypothesis Hz : 0 <= zdet.
Hypothesis W : pad_wf (a_pad A).
Notation np := (npoint (a_gauss A)).
Notation nd := (p_space (a_pad A)).
Notation nnode := (a_nnode A).

Definition bb_keys : list (nat * nat) := map fst (bb_sets nd nnode (a_axi A) 0 [] []).
Lemma bb_keys_eq r nn bb : map fst (bb_sets nd nnode (a_axi A) r nn bb) = bb_keys.
Proof.
  unfold bb_keys, bb_sets. destruct (nd =? 3)%nat; [|destruct (a_axi A)]; rewrite !map_flat_map; apply flat_map_seq; intros m Hm; reflexivity.
Qed.
Definition bb_inv (M : mat) : Prop :=
  is_matrix (2 * nd) (nnode * nd) M /\ forall k l, ~ In (k, l) bb_keys -> ent M k l = 0.
Lemma bb_zeros : bb_inv (zeros (2 * nd) (nnode * nd)).
Proof.
  split; [apply zeros_wf|]. intros k l _. unfold ent, zeros.
  destruct (nth_in_or_default k (repeat (repeat 0 (nnode * nd)) (2 * nd)) []) as [I| ->]; [|now destruct l].
  apply repeat_spec in I. rewrite I. destruct (nth_in_or_default l (repeat 0 (nnode * nd)) 0) as [J| ->]; auto.
  now apply repeat_spec in J.
Qed.

Definition bb_value (B : mat) (p k l : nat) : R := mv (strain A B p (l / nd) (l mod nd)) k.
Ltac in_sets H := apply in_flat_map in H as (m & Hm & H); apply in_seq in Hm; cbn [In] in H;
  repeat (destruct H as [<- | H]); try contradiction; cbn [fst snd].
Lemma bb_sets_value B p e : (a_axi A = true -> nd = 2%nat) -> In e (bb_sets nd nnode (a_axi A) (if a_axi A then r_of A p else 1) (N_p A p) B) ->
  (fst (fst e) < 2 * nd)%nat /\ (snd (fst e) < nnode * nd)%nat /\ snd e = bb_value B p (fst (fst e)) (snd (fst e)).
Proof.
  intros Ax H. unfold bb_value. destruct (space23 _ W) as [E|E]; unfold bb_sets in H; rewrite E in *; cbn [Nat.eqb] in H.
  - destruct (a_axi A) eqn:X; in_sets H; (split; [lia|]); (split; [nia|]);
      match goal with |- context [((?i + ?m * 2) / 2)%nat] => destruct (divmod_place 2 i m ltac:(lia)) as [-> ->] end;
      cbn [mv]; unfold strain; rewrite E, X; cbn [Nat.eqb Nat.ltb Nat.leb andb]; unfold N_of, vat, Rdiv; rewrite ?inv_s2; unfold Rdiv; try (field; fail); ring.
  - assert (X : a_axi A = false) by (destruct (a_axi A); auto; exfalso; specialize (Ax eq_refl); lia).
    in_sets H; (split; [lia|]); (split; [nia|]);
      match goal with |- context [((?i + ?m * 3) / 3)%nat] => destruct (divmod_place 3 i m ltac:(lia)) as [-> ->] end;
      cbn [mv]; unfold strain; rewrite E, X; cbn [Nat.eqb Nat.ltb Nat.leb andb]; unfold Rdiv; rewrite ?inv_s2; unfold Rdiv; field.
Qed.

(* positions that are not set hold a zero component of the strain *)
Lemma bb_unset B p k m i : (a_axi A = true -> nd = 2%nat) -> (k < 2 * nd)%nat -> (m < nnode)%nat -> (i < nd)%nat ->
  ~ In (k, (i + m * nd)%nat) bb_keys -> mv (strain A B p m i) k = 0.
Proof.
  intros Ax Hk Hm Hi N. assert (N' : forall e, In e (bb_sets nd nnode (a_axi A) 0 [] []) -> fst e <> (k, (i + m * nd)%nat)).
  { intros e He F. apply N. unfold bb_keys. rewrite <- F. now apply in_map. }
  clear N. unfold bb_sets in N'. assert (Is : In m (seq 0 nnode)) by (apply in_seq; lia).
  destruct (space23 _ W) as [E|E]; rewrite E in *; cbn [Nat.eqb] in N'.
  - destruct (a_axi A) eqn:X;
    (destruct i as [|[|i]]; [| |lia]); (destruct k as [|[|[|[|k]]]]; [| | | |lia]);
      cbn [mv]; unfold strain; rewrite E, X; cbn [Nat.eqb Nat.ltb Nat.leb andb]; try (field; fail); exfalso;
      match goal with
      | _ : _ |- _ => eapply N'; [apply in_flat_map; exists m; split; [exact Is|]; cbn [In]; left; reflexivity|reflexivity]
      | _ : _ |- _ => eapply N'; [apply in_flat_map; exists m; split; [exact Is|]; cbn [In]; right; left; reflexivity|reflexivity]
      | _ : _ |- _ => eapply N'; [apply in_flat_map; exists m; split; [exact Is|]; cbn [In]; do 2 right; left; reflexivity|reflexivity]
      | _ : _ |- _ => eapply N'; [apply in_flat_map; exists m; split; [exact Is|]; cbn [In]; do 3 right; left; reflexivity|reflexivity]
      | _ : _ |- _ => eapply N'; [apply in_flat_map; exists m; split; [exact Is|]; cbn [In]; do 4 right; left; reflexivity|reflexivity]
      end.
  - assert (X : a_axi A = false) by (destruct (a_axi A); auto; exfalso; specialize (Ax eq_refl); lia).
    (destruct i as [|[|[|i]]]; [| | |lia]); (destruct k as [|[|[|[|[|[|k]]]]]]; [| | | | | |lia]);
      cbn [mv]; unfold strain; rewrite E, X; cbn [Nat.eqb Nat.ltb Nat.leb andb]; try (field; fail); exfalso;
      match goal with
      | _ : _ |- _ => eapply N'; [apply in_flat_map; exists m; split; [exact Is|]; cbn [In]; left; reflexivity|reflexivity]
      | _ : _ |- _ => eapply N'; [apply in_flat_map; exists m; split; [exact Is|]; cbn [In]; right; left; reflexivity|reflexivity]
      | _ : _ |- _ => eapply N'; [apply in_flat_map; exists m; split; [exact Is|]; cbn [In]; do 2 right; left; reflexivity|reflexivity]
      | _ : _ |- _ => eapply N'; [apply in_flat_map; exists m; split; [exact Is|]; cbn [In]; do 3 right; left; reflexivity|reflexivity]
      | _ : _ |- _ => eapply N'; [apply in_flat_map; exists m; split; [exact Is|]; cbn [In]; do 4 right; left; reflexivity|reflexivity]
      | _ : _ |- _ => eapply N'; [apply in_flat_map; exists m; split; [exact Is|]; cbn [In]; do 5 right; left; reflexivity|reflexivity]
      | _ : _ |- _ => eapply N'; [apply in_flat_map; exists m; split; [exact Is|]; cbn [In]; do 6 right; left; reflexivity|reflexivity]
      | _ : _ |- _ => eapply N'; [apply in_flat_map; exists m; split; [exact Is|]; cbn [In]; do 7 right; left; reflexivity|reflexivity]
      | _ : _ |- _ => eapply N'; [apply in_flat_map; exists m; split; [exact Is|]; cbn [In]; do 8 right; left; reflexivity|reflexivity]
      end.
Qed.

Lemma bb_radius_at p pd : same_element (a_pad A) pd -> (a_axi A = true -> nd = 2%nat) ->
  bb_radius nd nnode (a_axi A) (N_p A p) pd = if a_axi A then r_of A p else 1.
Proof.
  intros SE Ax. unfold bb_radius. rewrite radius_at by auto. destruct (Nat.eqb_spec nd 3) as [E|]; auto.
  destruct (a_axi A); auto. specialize (Ax eq_refl). lia.
Qed.
Lemma calc_bb_ok M p B pd : bb_inv M -> same_element (a_pad A) pd -> (a_axi A = true -> nd = 2%nat) ->
  exists M', calc_bb_matrix M nd nnode (a_axi A) (N_p A p) B pd = Ok (if a_axi A then r_of A p else 1, M') /\ bb_inv M' /\
    forall k m i, (k < 2 * nd)%nat -> (m < nnode)%nat -> (i < nd)%nat -> ent M' k (i + m * nd) = mv (strain A B p m i) k.
Proof.
  intros (Mm & Mz) SE Ax. unfold calc_bb_matrix. rewrite bb_radius_at by auto.
  destruct (mat_sets_ok (2 * nd) (nnode * nd) (bb_value B p) (bb_sets nd nnode (a_axi A) (if a_axi A then r_of A p else 1) (N_p A p) B) M Mm)
    as (M' & E & M1 & V); [intros e He; now apply bb_sets_value|].
  rewrite E. cbn [bind]. exists M'. split; auto. rewrite bb_keys_eq in V. split.
  - split; auto. intros k l N. destruct (V k l) as (_ & V2). rewrite V2; auto.
  - intros k m i Hk Hm Hi. destruct (V k (i + m * nd)%nat) as (V1 & V2). destruct (in_dec pair_dec (k, (i + m * nd)%nat) bb_keys) as [I|I].
    + rewrite V1 by auto. unfold bb_value. destruct (divmod_place nd i m Hi) as [-> ->]. reflexivity.
    + rewrite V2 by auto. rewrite Mz by auto. symmetry. now apply bb_unset.
Qed.

Lemma msum_for n m (v : nat -> nat -> nat -> nat -> R) k l : (k < n)%nat -> (l < n)%nat ->
  msum k l (for_mn n n (fun i j => for_mn m m (fun a b => [((i, j), v i j a b)]))) = sum_n m (fun a => sum_n m (fun b => v k l a b)).
Proof.
  intros Hk Hl. unfold msum, for_mn. rewrite map_flat_map, sum_flat_map'.
  change (sum (map ?f (seq 0 n))) with (sum_n n f). rewrite (sum_n_single n _ k); auto.
  - rewrite map_flat_map, sum_flat_map'. change (sum (map ?f (seq 0 n))) with (sum_n n f). rewrite (sum_n_single n _ l); auto.
    + rewrite map_flat_map, sum_flat_map'. change (sum (map ?f (seq 0 m))) with (sum_n m f). apply sum_n_ext. intros a _.
      rewrite map_flat_map, sum_flat_map'. change (sum (map ?f (seq 0 m))) with (sum_n m f). apply sum_n_ext. intros b _.
      cbn [map sum fst snd]. rewrite !Nat.eqb_refl. cbn [andb]. ring.
    + intros j Hj N. rewrite map_flat_map, sum_flat_map'. change (sum (map ?f (seq 0 m))) with (sum_n m f). apply sum_n_zero. intros a _.
      rewrite map_flat_map, sum_flat_map'. change (sum (map ?f (seq 0 m))) with (sum_n m f). apply sum_n_zero. intros b _.
      cbn [map sum fst snd]. destruct (Nat.eqb_spec j l); [contradiction|]. rewrite andb_false_r. ring.
  - intros i Hi N. rewrite map_flat_map, sum_flat_map'. change (sum (map ?f (seq 0 n))) with (sum_n n f). apply sum_n_zero. intros j Hj.
    rewrite map_flat_map, sum_flat_map'. change (sum (map ?f (seq 0 m))) with (sum_n m f). apply sum_n_zero. intros a _.
    rewrite map_flat_map, sum_flat_map'. change (sum (map ?f (seq 0 m))) with (sum_n m f). apply sum_n_zero. intros b _.
    cbn [map sum fst snd]. destruct (Nat.eqb_spec i k); [contradiction|]. cbn [andb]. ring.
Qed.

Lemma strain_flat B p m i : nd = 2%nat -> (i < nd)%nat -> mv (strain A B p m i) 4 = 0 /\ mv (strain A B p m i) 5 = 0.
Proof.
  intros E Hi. cbn [mv]. unfold strain. rewrite E in *. cbn [Nat.eqb Nat.ltb Nat.leb andb]. rewrite !andb_false_r. cbn [andb].
  destruct i as [|[|i]]; [| |lia]; split; cbn [Nat.eqb andb]; field.
Qed.
Lemma stiff_ok kk M d p dj B : is_matrix (nnode * nd) (nnode * nd) kk -> is_matrix (2 * nd) (nnode * nd) M -> is_matrix (2 * nd) (2 * nd) d ->
  (forall k m i, (k < 2 * nd)%nat -> (m < nnode)%nat -> (i < nd)%nat -> ent M k (i + m * nd) = mv (strain A B p m i) k) ->
  add_to_stiff_mat kk (dj * wt (a_gauss A) p * a_alpha A * (if a_axi A then r_of A p else 1)) M d =
  mat_adds kk (mblock 0 0 nnode nd nnode nd (bdb_value A p dj B d)).
Proof.
  intros Mk Mm Md V. pose proof (nnode_pos (p_kind (a_pad A))) as Nn. fold nnode in Nn.
  assert (Nd : (0 < nd)%nat) by (destruct (space23 _ W); lia).
  destruct (is_matrix_dims _ _ _ Mk) as (K1 & K2); [nia|]. destruct (is_matrix_dims _ _ _ Mm) as (M1 & M2); [lia|].
  destruct (is_matrix_dims _ _ _ Md) as (D1 & D2); [lia|].
  unfold add_to_stiff_mat. rewrite K1, K2, M1, M2, D1, D2, !Nat.eqb_refl. cbn [andb negb].
  set (n := (nnode * nd)%nat) in *. set (c := dj * _ * _ * _).
  destruct (mat_adds_ok n n (mblock 0 0 nnode nd nnode nd (bdb_value A p dj B d)) kk Mk) as (k2 & E2 & S2 & V2).
  { intros e He. apply mblock_bound in He. subst n. lia. }
  match goal with |- mat_adds kk ?l = _ => destruct (mat_adds_ok n n l kk Mk) as (k1 & E1 & S1 & V1) end.
  { intros e He. unfold for_mn in He. apply in_flat_map in He as (i & Hi & He). apply in_flat_map in He as (j & Hj & He).
    apply in_flat_map in He as (a & Ha & He). apply in_flat_map in He as (b & Hb & He). cbn [In] in He. destruct He as [<-|[]].
    apply in_seq in Hi, Hj. cbn [fst snd]. lia. }
  rewrite E1, E2. f_equal. apply (matrix_ext n n); auto. intros k l Hk Hl. rewrite V1, V2. f_equal.
  rewrite msum_for by auto.
  destruct (place_of nd k nnode Nd Hk) as (m & i & Hm & Hi & ->). destruct (place_of nd l nnode Nd Hl) as (m' & j & Hm' & Hj & ->).
  change (i + m * nd)%nat with (0 + i + m * nd)%nat at 2. change (j + m' * nd)%nat with (0 + j + m' * nd)%nat at 2.
  rewrite msum_in by auto. unfold bdb_value, dvol. fold c.
  rewrite (sum_n_ext (2 * nd) _ (fun a => c * sum_n (2 * nd) (fun b => mv (strain A B p m i) a * ent d a b * mv (strain A B p m' j) b))).
  2:{ intros a Ha. rewrite <- sum_n_scal. apply sum_n_ext. intros b Hb. rewrite !V by auto. ring. }
  rewrite sum_n_scal. f_equal. destruct (space23 _ W) as [E|E].
  - destruct (strain_flat B p m i E Hi) as (Z1 & Z2). destruct (strain_flat B p m' j E Hj) as (Z3 & Z4). rewrite E.
    replace (2 * 2)%nat with 4%nat by lia. rewrite !sum4, !sum6. rewrite Z1, Z2, Z3, Z4. ring.
  - rewrite E. reflexivity.
Qed.
End Alt.

(** ** two loops in step *)
Definition res_rel {S1 S2} (P : S1 -> S2 -> Prop) (a : res S1) (b : res S2) : Prop :=
  match a, b with
  | Ok x, Ok y => P x y
  | Err s, Err t => s = t
  | Panic, Panic => True
  | NoFuel, NoFuel => True
  | _, _ => False
  end.
Lemma foldM_sim {A S1 S2} (P : S1 -> S2 -> Prop) (f1 : S1 -> A -> res S1) (f2 : S2 -> A -> res S2) l :
  (forall x s1 s2, In x l -> P s1 s2 -> res_rel P (f1 s1 x) (f2 s2 x)) -> forall s1 s2, P s1 s2 -> res_rel P (foldM f1 l s1) (foldM f2 l s2).
Proof.
  induction l as [|x l IH]; intros H s1 s2 Ps; cbn [foldM]; auto. specialize (H x s1 s2 ltac:(simpl; auto) Ps) as Hx.
  destruct (f1 s1 x), (f2 s2 x); cbn [bind res_rel] in *; try contradiction; auto. apply IH; auto. intros; apply H; simpl; auto.
Qed.

Lemma alt_equal zdet A kk fn :
  0 <= zdet -> pad_wf (a_pad A) -> a_ii0 A = 0%nat -> a_jj0 A = 0%nat ->
  is_matrix (a_nnode A * p_space (a_pad A)) (a_nnode A * p_space (a_pad A)) kk ->
  (a_axi A = true -> forall p, (p < npoint (a_gauss A))%nat -> r_of A p <> 0) ->
  (forall p nn bb d, fn p nn bb = Ok d -> is_matrix (2 * p_space (a_pad A)) (2 * p_space (a_pad A)) d) ->
  mat_10_bdb_alt zdet A kk fn = mat_10_bdb zdet A kk fn.
Proof.
  intros Hz W I0 J0 Mk Off Dd. unfold mat_10_bdb_alt, mat_10_bdb. destruct (bdb_check A kk) as [t| | |] eqn:Ck; try reflexivity. cbn [bind].
  apply (bdb_check_ok A W _ _ _ _ Mk) in Ck as (_ & Ax).
  set (P := fun (s1 : mat * mat * pad) (s2 : mat * pad) => fst (fst s1) = fst s2 /\ snd s1 = snd s2 /\ same_element (a_pad A) (snd s2) /\
     is_matrix (a_nnode A * p_space (a_pad A)) (a_nnode A * p_space (a_pad A)) (fst s2) /\ bb_inv A (snd (fst s1))).
  match goal with |- bind (gauss_loop ?e ?b ?g ?p ?s) _ = gauss_loop ?e ?b2 ?g ?p ?s2 =>
    assert (H : res_rel P (gauss_loop e b g p s) (gauss_loop e b2 g p s2)) end.
  - unfold gauss_loop. apply foldM_sim.
    + intros p [[kk1 bm] pd] [kk2 pd2] Hp (E1 & E2 & SE & Mk2 & Bi). cbn [fst snd] in *. subst kk1 pd2. apply in_seq in Hp.
      rewrite g_coords_ok, g_weight_ok by lia. cbn [bind].
      assert (Ek : p_kind pd = p_kind (a_pad A)) by (destruct SE; auto). rewrite Ek, interp_ksi.
      destruct (eval_grad zdet (with_interp pd (N_p A p)) (iota4 (a_gauss A) p)) as [[[dj bb] q]| | |] eqn:Eg; cbn [bind fst snd res_rel]; auto.
      apply (grad_eval zdet A Hz W _ p) in Eg as (SE' & _); [|lia|now apply same_interp].
      destruct (fn p (N_p A p) bb) as [d| | |] eqn:Ef; cbn [bind fst snd res_rel]; auto.
      unfold a_space. destruct (calc_bb_ok A W bm p bb q Bi SE' Ax) as (M' & Ec & Bi' & V). rewrite Ec. cbn [bind fst snd].
      rewrite (stiff_ok A W kk2 M' d p dj bb); eauto; [|apply Bi'].
      pose proof (bdb_adds A W Off p dj bb d q ltac:(lia) SE' Ax) as Ea. unfold a_space in Ea. rewrite Ea, I0, J0.
      destruct (mat_adds_ok _ _ (mblock 0 0 (a_nnode A) (p_space (a_pad A)) (a_nnode A) (p_space (a_pad A)) (bdb_value A p dj bb d)) kk2 Mk2) as (k' & E' & M2 & _).
      { intros e He. apply mblock_bound in He. lia. }
      rewrite E'. cbn [bind res_rel]. unfold P. cbn [fst snd]. auto.
    + unfold P. cbn [fst snd]. split; auto. split; auto. split; [apply same_refl|]. split; [now apply mat_start_matrix|]. apply bb_zeros.
  - destruct (gauss_loop _ _ _ _ (mat_start A kk, _)) as [[[k1 bm] q1]| | |]; destruct (gauss_loop _ _ _ _ (mat_start A kk)) as [[k2 q2]| | |];
      cbn [res_rel] in H; try contradiction; cbn [bind]; try congruence.
    destruct H as (E1 & E2 & _). cbn [fst snd] in *. congruence.
Qed.
