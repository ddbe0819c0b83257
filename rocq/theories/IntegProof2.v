(* What the loop over the integration points computes; quantities at the integration points. *)
From Coq Require Import String Reals List Lia Lra Bool Arith.
From Verif Require Import Base BaseFacts Expr ShapesData Kind ShapesModel ShapesSpec ShapesProof GeomModel GeomProof PadModel PadSpec
  PadProof PadProof2 PadProof3 GaussModel GaussSpec IntegModel IntegSpec IntegProof.
Import ListNotations.
Local Open Scope R_scope.


(* what is known of a run of the loop: its result; when it is Ok; that it does not panic *)
Definition loop_spec {X Y S} (fn : nat -> list R -> list R -> X -> res Y) (A : args) (Q : nat -> X -> Prop) (E : nat -> Prop)
    (Res : (nat -> X) -> (nat -> Y) -> S -> Prop) (r : res (S * pad)) : Prop :=
  (forall s' q, r = Ok (s', q) -> same_element (a_pad A) q /\ exists x y,
     (forall p, (p < npoint (a_gauss A))%nat -> Q p (x p) /\ fn p (iota4 (a_gauss A) p) (N_p A p) (x p) = Ok (y p)) /\ Res x y s') /\
  ((forall p iota nn x, exists y, fn p iota nn x = Ok y) ->
     ((exists s' q, r = Ok (s', q)) <-> forall p, (p < npoint (a_gauss A))%nat -> E p)) /\
  ((forall p iota nn x, no_panic (fn p iota nn x)) -> no_panic r).
(* a run that starts with a check *)
Definition run_spec {T} (room : Prop) (LS : res T -> Prop) (r : res T) : Prop :=
  (room /\ LS r) \/ (~ room /\ exists msg, r = Err msg).

Section VecLoop.
Context {X Y : Type}.
Variables (dx : X) (dy : Y).
Variable eval : pad -> list R -> res (X * pad).
Variable fn : nat -> list R -> list R -> X -> res Y.
Variable A : args.
Variable Q : nat -> X -> Prop.
Variable E : nat -> Prop.
Definition eval_spec : Prop := forall pd p, (p < npoint (a_gauss A))%nat -> same_element (a_pad A) pd ->
  (forall x q, eval pd (iota4 (a_gauss A) p) = Ok (x, q) -> same_element (a_pad A) q /\ Q p x) /\
  ((exists x q, eval pd (iota4 (a_gauss A) p) = Ok (x, q)) <-> E p) /\ no_panic (eval pd (iota4 (a_gauss A) p)).
Hypothesis eval_all : eval_spec.
Notation iota p := (iota4 (a_gauss A) p).
Notation w p := (wt (a_gauss A) p).
Notation np := (npoint (a_gauss A)).
Lemma eval_same : forall pd p x q, (p < np)%nat -> same_element (a_pad A) pd ->
  eval pd (iota p) = Ok (x, q) -> same_element (a_pad A) q /\ Q p x.
Proof. intros pd p x q Hp SE. now apply eval_all. Qed.

(* the loop runs to the end *)
Lemma loop_total {S} body (Inv : S -> Prop) s0 : Inv s0 ->
  (forall p x pd s, (p < np)%nat -> same_element (a_pad A) pd -> Inv s ->
     exists s', body p (iota p) (w p) (N_p A p) x pd s = Ok s' /\ Inv s') ->
  ((exists s' q, gauss_loop eval body (a_gauss A) (a_pad A) s0 = Ok (s', q)) <-> forall p, (p < np)%nat -> E p).
Proof.
  intros I0 B. unfold gauss_loop. set (f := fun (st : S * pad) p => _).
  enough (G : forall l, (forall p, In p l -> (p < np)%nat) -> forall s pd, Inv s -> same_element (a_pad A) pd ->
    ((exists s' q, foldM f l (s, pd) = Ok (s', q)) <-> forall p, In p l -> E p)).
  { rewrite G; auto using same_refl.
    - split; intros H p Hp; [apply H, in_seq; lia|apply in_seq in Hp; apply H; lia].
    - intros p Hp. apply in_seq in Hp. lia. }
  induction l as [|p l IH]; intros Hl s pd Is SE; [split; [intros _ q []|cbn [foldM]; eauto]|].
  specialize (IH (fun p Hp => Hl p (or_intror Hp))). assert (Hp : (p < np)%nat) by (apply Hl; simpl; auto).
  cbn [foldM]. unfold f at 1. cbv beta. cbn [fst snd]. rewrite g_coords_ok, g_weight_ok by auto. cbn [bind].
  assert (Ek : p_kind pd = p_kind (a_pad A)) by (destruct SE; auto). rewrite Ek, interp_ksi.
  destruct (eval_all (with_interp pd (N_p A p)) p Hp ltac:(now apply same_interp)) as (Es & Eiff & Enp).
  destruct (eval (with_interp pd (N_p A p)) (iota p)) as [[x q]| | |] eqn:Ev.
  - destruct (Es x q eq_refl) as (SE' & _). cbn [bind fst snd]. destruct (B p x q s Hp SE' Is) as (s' & E' & Is'). rewrite E'. cbn [bind].
    rewrite (IH s' q Is' SE'). split; intros H; [|intros q' Hq'; apply H; simpl; auto].
    intros p' [<-|Hp']; auto. apply Eiff. eauto.
  - cbn [bind]. split; [intros (? & ? & ?); discriminate|]. intros H. destruct (proj2 Eiff (H p ltac:(simpl; auto))) as (? & ? & ?). discriminate.
  - cbn [bind]. split; [intros (? & ? & ?); discriminate|]. intros H. destruct (proj2 Eiff (H p ltac:(simpl; auto))) as (? & ? & ?). discriminate.
  - cbn [bind]. split; [intros (? & ? & ?); discriminate|]. intros H. destruct (proj2 Eiff (H p ltac:(simpl; auto))) as (? & ? & ?). discriminate.
Qed.
Lemma loop_no_panic {S} body (Inv : S -> Prop) s0 : Inv s0 ->
  (forall p x pd s, (p < np)%nat -> same_element (a_pad A) pd -> Inv s ->
     (exists s', body p (iota p) (w p) (N_p A p) x pd s = Ok s' /\ Inv s') \/ exists msg, body p (iota p) (w p) (N_p A p) x pd s = Err msg) ->
  no_panic (gauss_loop eval body (a_gauss A) (a_pad A) s0).
Proof.
  intros I0 B. unfold gauss_loop. set (f := fun (st : S * pad) p => _).
  enough (G : forall l, (forall p, In p l -> (p < np)%nat) -> forall s pd, Inv s -> same_element (a_pad A) pd -> no_panic (foldM f l (s, pd))).
  { apply G; auto using same_refl. intros p Hp. apply in_seq in Hp. lia. }
  induction l as [|p l IH]; intros Hl s pd Is SE; [left; cbn [foldM]; eauto|].
  specialize (IH (fun p Hp => Hl p (or_intror Hp))). assert (Hp : (p < np)%nat) by (apply Hl; simpl; auto).
  cbn [foldM]. unfold f at 1. cbv beta. cbn [fst snd]. rewrite g_coords_ok, g_weight_ok by auto. cbn [bind].
  assert (Ek : p_kind pd = p_kind (a_pad A)) by (destruct SE; auto). rewrite Ek, interp_ksi.
  destruct (eval_all (with_interp pd (N_p A p)) p Hp ltac:(now apply same_interp)) as (Es & _ & Enp).
  destruct Enp as [([x q] & Ev)|(msg & Ev)]; rewrite Ev; cbn [bind fst snd]; [|right; eauto].
  destruct (Es x q Ev) as (SE' & _). destruct (B p x q s Hp SE' Is) as [(s' & E' & Is')|(msg & E')]; rewrite E'; cbn [bind]; [auto|right; eauto].
Qed.

Lemma vec_loop body (V : nat -> X -> Y -> nat -> nat -> R) M ni a :
  (forall p x pd s, (p < np)%nat -> same_element (a_pad A) pd ->
     body p (iota p) (w p) (N_p A p) x pd s =
     let! y := fn p (iota p) (N_p A p) x in vec_adds s (vblock (a_ii0 A) M ni (V p x y))) ->
  (a_ii0 A + M * ni <= List.length a)%nat ->
  loop_spec fn A Q E (fun x y a' => vec_result A a a' M ni (fun m i => integral A (fun p => V p (x p) (y p) m i)))
    (gauss_loop eval body (a_gauss A) (a_pad A) (vec_start A a)).
Proof.
  intros B La.
  assert (Add : forall s c p x pd, List.length s = List.length a -> (p < np)%nat -> same_element (a_pad A) pd ->
    forall y, fn p (iota p) (N_p A p) x = Ok y -> c = vblock (a_ii0 A) M ni (V p x y) -> exists s', vec_adds s c = Ok s' /\ List.length s' = List.length a).
  { intros s c p x pd Ls Hp SE y Ey ->. destruct (vec_adds_ok (vblock (a_ii0 A) M ni (V p x y)) s) as (s' & Es & Ls' & _).
    - intros e He. apply vblock_bound in He. lia.
    - exists s'. split; auto. congruence. }
  split; [|split].
  2:{ intros T. apply (loop_total _ (fun s => List.length s = List.length a)); [apply vec_start_length|]. intros p x pd s Hp SE Ls. rewrite B by auto.
      destruct (T p (iota p) (N_p A p) x) as (y & Ey). rewrite Ey. cbn [bind]. eapply Add; eauto. }
  2:{ intros T. apply (loop_no_panic _ (fun s => List.length s = List.length a)); [apply vec_start_length|]. intros p x pd s Hp SE Ls. rewrite B by auto.
      destruct (T p (iota p) (N_p A p) x) as [(y & Ey)|(msg & Ey)]; rewrite Ey; cbn [bind]; [left; eapply Add; eauto|right; eauto]. }
  intros a' q H. apply (loop_run _ _ _ _ Q eval_same dx) in H as (SE & x & st & E0 & E1 & Rn). split; auto.
  exists x, (fun p => the dy (fn p (iota p) (N_p A p) (x p))).
  assert (F : forall p, (p < np)%nat -> Q p (x p) /\ fn p (iota p) (N_p A p) (x p) = Ok (the dy (fn p (iota p) (N_p A p) (x p))) /\
     vec_adds (st p) (vblock (a_ii0 A) M ni (V p (x p) (the dy (fn p (iota p) (N_p A p) (x p))))) = Ok (st (S p))).
  { intros p Hp. destruct (Rn p Hp) as (Qp & pd & Sp & Bp). split; auto. rewrite interp_ksi, B in Bp by auto.
    destruct (fn p _ _ _) as [y| | |]; try discriminate. split; auto. }
  split; [intros p Hp; destruct (F p Hp) as (? & ? & _); auto|].
  assert (G : forall n, (n <= np)%nat -> List.length (st n) = List.length a /\
    forall k, nth k (st n) 0 = vec_base A a k + sum_n n (fun p => vsum k (vblock (a_ii0 A) M ni (V p (x p) (the dy (fn p (iota p) (N_p A p) (x p))))))).
  { induction n as [|n IH]; intros Hn.
    - rewrite E0, vec_start_length. split; auto. intros k. rewrite vec_start_nth, sum_n_0. lra.
    - destruct (IH ltac:(lia)) as (L & Vn). destruct (F n ltac:(lia)) as (_ & _ & Ad).
      destruct (vec_adds_ok (vblock (a_ii0 A) M ni (V n (x n) (the dy (fn n (iota n) (N_p A n) (x n))))) (st n)) as (l' & El & L' & V').
      { intros e He. apply vblock_bound in He. lia. }
      rewrite El in Ad. injection Ad as <-. split; [congruence|]. intros k. rewrite V', Vn, sum_n_S. lra. }
  destruct (G np (le_n _)) as (L & Vn). rewrite E1 in *. split; auto. split.
  - intros m i Hm Hi. rewrite Vn. unfold integral. f_equal. apply sum_n_ext. intros p Hp. now apply vsum_in.
  - intros k Hk. rewrite Vn, (sum_n_zero np); [lra|]. intros p Hp. now apply vsum_out.
Qed.

Lemma mat_loop body (V : nat -> X -> Y -> nat -> nat -> nat -> nat -> R) M ni N nj nr nc a :
  (forall p x pd s, (p < np)%nat -> same_element (a_pad A) pd ->
     body p (iota p) (w p) (N_p A p) x pd s =
     let! y := fn p (iota p) (N_p A p) x in mat_adds s (mblock (a_ii0 A) (a_jj0 A) M ni N nj (V p x y))) ->
  is_matrix nr nc a -> (a_ii0 A + M * ni <= nr)%nat -> (a_jj0 A + N * nj <= nc)%nat -> (0 < nr)%nat ->
  loop_spec fn A Q E (fun x y a' => mat_result A a a' M ni N nj (fun m i n j => integral A (fun p => V p (x p) (y p) m i n j)))
    (gauss_loop eval body (a_gauss A) (a_pad A) (mat_start A a)).
Proof.
  intros B Ma Lr Lc Hr.
  assert (Add : forall s p x y, is_matrix nr nc s ->
    exists s', mat_adds s (mblock (a_ii0 A) (a_jj0 A) M ni N nj (V p x y)) = Ok s' /\ is_matrix nr nc s').
  { intros s p x y Ms. destruct (mat_adds_ok nr nc (mblock (a_ii0 A) (a_jj0 A) M ni N nj (V p x y)) s Ms) as (s' & Es & Ms' & _); eauto.
    intros e He. apply mblock_bound in He. lia. }
  split; [|split].
  2:{ intros T. apply (loop_total _ (is_matrix nr nc)); [now apply mat_start_matrix|]. intros p x pd s Hp SE Ms. rewrite B by auto.
      destruct (T p (iota p) (N_p A p) x) as (y & Ey). rewrite Ey. cbn [bind]. auto. }
  2:{ intros T. apply (loop_no_panic _ (is_matrix nr nc)); [now apply mat_start_matrix|]. intros p x pd s Hp SE Ms. rewrite B by auto.
      destruct (T p (iota p) (N_p A p) x) as [(y & Ey)|(msg & Ey)]; rewrite Ey; cbn [bind]; [left; auto|right; eauto]. }
  intros a' q H. apply (loop_run _ _ _ _ Q eval_same dx) in H as (SE & x & st & E0 & E1 & Rn). split; auto.
  exists x, (fun p => the dy (fn p (iota p) (N_p A p) (x p))).
  assert (F : forall p, (p < np)%nat -> Q p (x p) /\ fn p (iota p) (N_p A p) (x p) = Ok (the dy (fn p (iota p) (N_p A p) (x p))) /\
     mat_adds (st p) (mblock (a_ii0 A) (a_jj0 A) M ni N nj (V p (x p) (the dy (fn p (iota p) (N_p A p) (x p))))) = Ok (st (S p))).
  { intros p Hp. destruct (Rn p Hp) as (Qp & pd & Sp & Bp). split; auto. rewrite interp_ksi, B in Bp by auto.
    destruct (fn p _ _ _) as [y| | |]; try discriminate. split; auto. }
  split; [intros p Hp; destruct (F p Hp) as (? & ? & _); auto|].
  assert (G : forall n, (n <= np)%nat -> is_matrix nr nc (st n) /\
    forall k l, ent (st n) k l = mat_base A a k l + sum_n n (fun p => msum k l (mblock (a_ii0 A) (a_jj0 A) M ni N nj (V p (x p) (the dy (fn p (iota p) (N_p A p) (x p))))))).
  { induction n as [|n IH]; intros Hn.
    - rewrite E0. split; [now apply mat_start_matrix|]. intros k l. rewrite mat_start_ent, sum_n_0. lra.
    - destruct (IH ltac:(lia)) as (L & Vn). destruct (F n ltac:(lia)) as (_ & _ & Ad).
      destruct (mat_adds_ok nr nc (mblock (a_ii0 A) (a_jj0 A) M ni N nj (V n (x n) (the dy (fn n (iota n) (N_p A n) (x n))))) (st n)) as (l' & El & L' & V'); auto.
      { intros e He. apply mblock_bound in He. lia. }
      rewrite El in Ad. injection Ad as <-. split; auto. intros k l. rewrite V', Vn, sum_n_S. lra. }
  destruct (G np (le_n _)) as (L & Vn). rewrite E1 in *. unfold mat_result. destruct (is_matrix_dims _ _ _ Ma Hr) as (-> & ->). split; auto. split.
  - intros m i n j Hm Hi Hn Hj. rewrite Vn. unfold integral. f_equal. apply sum_n_ext. intros p Hp. now apply msum_in.
  - intros k l Hk. rewrite Vn, (sum_n_zero np); [lra|]. intros p Hp. now apply msum_out.
Qed.
End VecLoop.

(** ** quantities at a point *)
Lemma same_jacobian p q ksi J : same_element p q -> jacobian_of q ksi J -> jacobian_of p ksi J.
Proof.
  intros (E1 & E2 & E3 & _) H i j Hi Hj. unfold jacobian_of in H. rewrite E1, E2 in H. specialize (H i j Hi Hj).
  unfold partial, pos, node_x in *. rewrite E1, E3 in H. exact H.
Qed.
Lemma jac_iota zdet A pd p : same_element (a_pad A) pd -> calc_jacobian zdet pd (iota4 (a_gauss A) p) = calc_jacobian zdet pd (ksi_at A p).
Proof. intros (E & _). unfold calc_jacobian. now rewrite E, deriv_ksi. Qed.
Lemma grad_iota zdet A pd p : same_element (a_pad A) pd -> calc_gradient zdet pd (iota4 (a_gauss A) p) = calc_gradient zdet pd (ksi_at A p).
Proof. intros H. unfold calc_gradient. now rewrite jac_iota. Qed.
Lemma normal_iota A pd n p : same_element (a_pad A) pd -> calc_normal_vector pd n (iota4 (a_gauss A) p) = calc_normal_vector pd n (ksi_at A p).
Proof. intros (E & _). unfold calc_normal_vector. now rewrite E, deriv_ksi. Qed.

Lemma jac_eval zdet A : 0 <= zdet -> pad_wf (a_pad A) ->
  forall pd p x q, (p < npoint (a_gauss A))%nat -> same_element (a_pad A) pd ->
  eval_jac zdet pd (iota4 (a_gauss A) p) = Ok (x, q) -> same_element (a_pad A) q /\ measure_at (a_pad A) (ksi_at A p) x.
Proof.
  intros Hz W pd p x q Hp SE H. unfold eval_jac in H. rewrite jac_iota in H by auto.
  pose proof (same_wf _ _ SE W) as Wd. pose proof (calc_jacobian_post _ _ _ _ _ Hz Wd H) as P.
  assert (L : List.length (ksi_at A p) = kind_ndim (p_kind pd)) by (rewrite ksi_at_length; destruct SE; congruence).
  pose proof (jac_post_jacobian _ _ _ _ _ Wd L P) as J. destruct P as (_ & S2 & _ & _ & P1 & P2 & P3).
  split; [eapply same_trans; eauto|]. exists (ent (p_jac q)). split; [eapply same_jacobian; eauto|].
  destruct SE as (E1 & E2 & _). rewrite E1, E2 in *. split; [intros E; apply P1; auto|]. auto.
Qed.

Definition grad_run (zdet : R) (A : args) (p : nat) (x : R * mat) : Prop :=
  exists q, calc_gradient zdet (a_pad A) (ksi_at A p) = Ok (fst x, q) /\ p_grad q = snd x.
Lemma grad_run_unique zdet A p x y : grad_run zdet A p x -> grad_run zdet A p y -> x = y.
Proof. intros (q & H & E) (q' & H' & E'). destruct x, y. cbn [fst snd] in *. congruence. Qed.
Lemma calc_gradient_same zdet p q ksi d q' : same_element p q -> calc_gradient zdet q ksi = Ok (d, q') ->
  exists p', calc_gradient zdet p ksi = Ok (d, p') /\ p_grad p' = p_grad q'.
Proof.
  intros (E1 & E2 & E3 & E4) H. unfold calc_gradient, calc_jacobian, p_geo in *. rewrite E1, E2, E3, E4 in *.
  destruct (Nat.eqb_spec (kind_ndim (p_kind p)) (p_space p)) as [E|]; cbn [negb] in *; [|discriminate].
  destruct (p_ok p); cbn [negb] in *; [|discriminate]. destruct (mat_inverse _ _ _) as [r| | |]; cbn [bind] in *; try discriminate.
  injection H as <- <-. eexists. split; reflexivity.
Qed.
Definition grad_facts (zdet : R) (A : args) (p : nat) (x : R * mat) : Prop :=
  grad_run zdet A p x /\
  gradient_at (a_pad A) (ksi_at A p) (fst x) (snd x) /\
  (forall i, (i < p_space (a_pad A))%nat -> sum_n (a_nnode A) (fun m => ent (snd x) m i) = 0) /\
  (forall i l, (i < p_space (a_pad A))%nat -> (l < p_space (a_pad A))%nat ->
     sum_n (a_nnode A) (fun m => node_x (a_pad A) l m * ent (snd x) m i) = delta l i).
Lemma calc_gradient_at zdet p ksi d q : 0 <= zdet -> pad_wf p -> List.length ksi = kind_ndim (p_kind p) ->
  calc_gradient zdet p ksi = Ok (d, q) -> gradient_at p ksi d (p_grad q).
Proof.
  intros Hz W L H. destruct (gradient_entries _ _ _ _ _ Hz W H) as (E & S2 & P & _). split; auto.
  exists (ent (p_jac q)). split; [eapply jac_post_jacobian; eauto|].
  destruct P as (_ & _ & _ & _ & P & _). destruct (P E) as (Ed & Zd & _). split; auto. split.
  - intros Z0. rewrite Z0, Rabs_R0 in Zd. lra.
  - intros m j Hm Hj. rewrite (gradient_times_jacobian _ _ _ _ _ Hz W H) by auto. unfold partial.
    pose proof (interp_curve (p_kind p) (fun t => set_coord ksi j t) (nth j ksi 0) ksi (delta j) m) as I.
    rewrite <- (sum_n_delta_r (kind_ndim (p_kind p)) j (fun l => ent (calc_deriv (p_kind p) ksi) m l)) by lia.
    rewrite (sum_n_ext _ _ (fun l => ent (calc_deriv (p_kind p) ksi) m l * delta j l)).
    + apply I; auto. apply coord_curve; lia.
    + intros l _. unfold delta. now rewrite Nat.eqb_sym.
Qed.
Lemma same_gradient p q ksi d B : same_element p q -> gradient_at q ksi d B -> gradient_at p ksi d B.
Proof.
  intros SE (E & J & HJ & Hd & Hn & HB). pose proof (same_jacobian _ _ _ _ SE HJ) as J'. destruct SE as (E1 & E2 & E3 & _).
  rewrite E1, E2 in *. split; auto. exists J. auto.
Qed.
Lemma grad_eval zdet A : 0 <= zdet -> pad_wf (a_pad A) ->
  forall pd p x q, (p < npoint (a_gauss A))%nat -> same_element (a_pad A) pd ->
  eval_grad zdet pd (iota4 (a_gauss A) p) = Ok (x, q) -> same_element (a_pad A) q /\ grad_facts zdet A p x.
Proof.
  intros Hz W pd p x q Hp SE H. unfold eval_grad in H. rewrite grad_iota in H by auto.
  apply bind_ok in H as ([d q'] & H & H'). cbn [fst snd] in H'. injection H' as <- <-.
  pose proof (same_wf _ _ SE W) as Wd.
  destruct (gradient_entries _ _ _ _ _ Hz Wd H) as (_ & S2 & _). split; [eapply same_trans; eauto|].
  unfold grad_facts. cbn [fst snd]. split; [|split; [|split]].
  - destruct (calc_gradient_same _ _ _ _ _ _ SE H) as (p' & Hp' & E). exists p'. auto.
  - eapply same_gradient; [exact SE|]. eapply calc_gradient_at; eauto. rewrite ksi_at_length. destruct SE; congruence.
  - intros i Hi. pose proof (gradient_sum _ _ _ _ _ Hz Wd H i) as G. destruct SE as (E1 & E2 & E3 & _).
    unfold a_nnode. rewrite E1, E2 in G. auto.
  - intros i l Hi Hl. pose proof (gradient_coords _ _ _ _ _ Hz Wd H i l) as G. destruct SE as (E1 & E2 & E3 & _).
    unfold a_nnode. unfold node_x in *. rewrite E1, E2, E3 in G. auto.
Qed.

Lemma sum2 f : sum_n 2 f = f 0%nat + f 1%nat.
Proof. rewrite !sum_n_S, sum_n_0. ring. Qed.
Lemma sum3 f : sum_n 3 f = f 0%nat + f 1%nat + f 2%nat.
Proof. rewrite !sum_n_S, sum_n_0. ring. Qed.
Lemma calc_normal_at p ksi mag un q : pad_wf p -> List.length ksi = kind_ndim (p_kind p) ->
  calc_normal_vector p (p_space p) ksi = Ok (mag, un, q) -> same_element p q /\ normal_at p ksi mag un.
Proof.
  intros W L H. pose proof (jj_partial p ksi W ltac:(lia)) as J. destruct W as ([S2|S2] & _); unfold calc_normal_vector, normal_at, p_geo in *; rewrite S2 in *; cbn [Nat.eqb andb negb] in H.
  - destruct (Nat.eqb_spec (kind_ndim (p_kind p)) 1) as [G|]; [|discriminate]. cbn [negb] in H. rewrite G in *.
    remember (mat_mul 1 (p_xxt p) (calc_deriv (p_kind p) ksi)) as JJ eqn:EJ. injection H as <- <- <-.
    split; [repeat split; auto|]. split; auto. exists (ent JJ). split; auto. split; [destruct (Rltb _ _); reflexivity|].
    rewrite sum2. cbn [normal_of].
    replace ((- ent JJ 1 0) ^ 2 + ent JJ 0 0 ^ 2) with (- ent JJ 1 0 * - ent JJ 1 0 + ent JJ 0 0 * ent JJ 0 0) by ring.
    split; auto. set (s := sqrt _).
    assert (M : s * s = - ent JJ 1 0 * - ent JJ 1 0 + ent JJ 0 0 * ent JJ 0 0) by (apply sqrt_sqrt; nra).
    assert (Mn : 0 <= s) by apply sqrt_pos. intros i Hi. destruct (Rltb 0 s) eqn:E.
    + apply Rltb_iff in E. destruct i as [|[|i]]; [| |lia]; cbn [nth normal_of]; field; lra.
    + assert (s = 0). { destruct (Rle_lt_or_eq_dec 0 s Mn) as [K|K]; auto. apply Rltb_iff in K. congruence. }
      rewrite H in *. assert (ent JJ 1 0 = 0) by nra. assert (ent JJ 0 0 = 0) by nra.
      destruct i as [|[|i]]; [| |lia]; cbn [nth normal_of]; lra.
  - destruct (Nat.eqb_spec (kind_ndim (p_kind p)) 2) as [G|]; [|discriminate]. cbn [negb] in H. rewrite G in *.
    remember (mat_mul 2 (p_xxt p) (calc_deriv (p_kind p) ksi)) as JJ eqn:EJ.
    set (a := ent JJ 1 0 * ent JJ 2 1 - ent JJ 2 0 * ent JJ 1 1) in *.
    set (b := ent JJ 2 0 * ent JJ 0 1 - ent JJ 0 0 * ent JJ 2 1) in *.
    set (c := ent JJ 0 0 * ent JJ 1 1 - ent JJ 1 0 * ent JJ 0 1) in *. injection H as <- <- <-.
    split; [repeat split; auto|]. split; auto. exists (ent JJ). split; auto. split; [destruct (Rltb _ _); reflexivity|].
    rewrite sum3. cbn [normal_of]. fold a b c.
    replace (a ^ 2 + b ^ 2 + c ^ 2) with (a * a + b * b + c * c) by ring.
    split; auto. set (s := sqrt _).
    assert (M : s * s = a * a + b * b + c * c) by (apply sqrt_sqrt; nra).
    assert (Mn : 0 <= s) by apply sqrt_pos. intros i Hi. destruct (Rltb 0 s) eqn:E.
    + apply Rltb_iff in E. destruct i as [|[|[|i]]]; [| | |lia]; cbn [nth normal_of]; fold a b c; field; lra.
    + assert (s = 0). { destruct (Rle_lt_or_eq_dec 0 s Mn) as [K|K]; auto. apply Rltb_iff in K. congruence. }
      rewrite H in *. assert (a = 0) by nra. assert (b = 0) by nra. assert (c = 0) by nra.
      destruct i as [|[|[|i]]]; [| | |lia]; cbn [nth normal_of]; fold a b c; lra.
Qed.
Lemma same_normal p q ksi mag un : same_element p q -> normal_at q ksi mag un -> normal_at p ksi mag un.
Proof.
  intros SE (E & J & HJ & R). pose proof (same_jacobian _ _ _ _ SE HJ) as J'. destruct SE as (E1 & E2 & E3 & _).
  unfold normal_at. rewrite E1, E2 in *. split; auto. exists J. auto.
Qed.
Lemma normal_eval A : pad_wf (a_pad A) ->
  forall pd p x q, (p < npoint (a_gauss A))%nat -> same_element (a_pad A) pd ->
  eval_normal pd (iota4 (a_gauss A) p) = Ok (x, q) -> same_element (a_pad A) q /\ normal_at (a_pad A) (ksi_at A p) (fst x) (snd x).
Proof.
  intros W pd p [mag un] q Hp SE H. unfold eval_normal in H. rewrite normal_iota in H by auto.
  pose proof (same_wf _ _ SE W) as Wd. apply calc_normal_at in H as (S2 & N); auto.
  - split; [eapply same_trans; eauto|]. eapply same_normal; eauto.
  - rewrite ksi_at_length. destruct SE; congruence.
Qed.

(** the radius and the coefficient *)
Lemma fold_sum_n (f : nat -> R) n : fold_left (fun r m => r + f m) (seq 0 n) 0 = sum_n n f.
Proof. induction n; [reflexivity|]. rewrite seq_S, fold_left_app, IHn, sum_n_S. reflexivity. Qed.
Lemma radius_at A pd p : same_element (a_pad A) pd -> radius (a_nnode A) (N_p A p) pd = r_of A p.
Proof.
  intros (_ & _ & E & _). unfold radius. rewrite fold_sum_n. unfold r_of, pos. apply sum_n_ext. intros m _.
  unfold vat, N_p, ent, node_x. now rewrite E.
Qed.
Lemma coef_at A pd p c : same_element (a_pad A) pd -> coef A c (N_p A p) pd = c * (if a_axi A then r_of A p else 1).
Proof. intros H. unfold coef. rewrite radius_at by auto. destruct (a_axi A); ring. Qed.

(** ** evaluations *)
Lemma some_jacobian p ksi : pad_wf p -> List.length ksi = kind_ndim (p_kind p) ->
  jacobian_of p ksi (ent (mat_mul (p_geo p) (p_xxt p) (calc_deriv (p_kind p) ksi))).
Proof. intros W L. apply jj_partial; auto. lia. Qed.
Lemma same_jacobian_iff p q ksi J : same_element p q -> jacobian_of q ksi J <-> jacobian_of p ksi J.
Proof.
  intros S. split; [now apply same_jacobian|]. destruct S as (E1 & E2 & E3 & E4). apply same_jacobian. repeat split; auto.
Qed.
Lemma jac_total zdet A pd p : pad_wf (a_pad A) -> same_element (a_pad A) pd ->
  ((exists d q, calc_jacobian zdet pd (ksi_at A p) = Ok (d, q)) <-> jac_ok zdet A p) /\ no_panic (calc_jacobian zdet pd (ksi_at A p)).
Proof.
  intros W SE. pose proof (same_wf _ _ SE W) as Wd. unfold jac_ok.
  assert (L : List.length (ksi_at A p) = kind_ndim (p_kind pd)) by (rewrite ksi_at_length; destruct SE; congruence).
  pose proof (some_jacobian pd _ Wd L) as HJ. set (J := ent _) in HJ.
  pose proof (fun J' => proj2 (same_jacobian_iff _ _ (ksi_at A p) J' SE)) as To.
  pose proof (fun J0 => proj1 (same_jacobian_iff _ _ (ksi_at A p) J0 SE)) as Fr.
  destruct SE as (E1 & E2 & E3 & E4). rewrite <- E1, <- E2, <- E4. clear E1 E2 E3 E4.
  destruct (p_ok pd) eqn:O.
  2:{ rewrite calc_jacobian_unset by auto. split; [|right; eauto]. split; [intros (? & ? & ?); discriminate|intros []; discriminate]. }
  destruct (Nat.eq_dec (kind_ndim (p_kind pd)) (p_space pd)) as [E|N].
  - destruct (calc_jacobian_solid zdet pd _ J Wd O ltac:(rewrite L; apply le_n) E HJ) as (H1 & H2).
    destruct (Rlt_le_dec zdet (Rabs (det (p_space pd) J))) as [D|D].
    + destruct (H1 D) as (q & Eq). rewrite Eq. split; [|left; eauto]. split; eauto. intros _. split; auto. intros _ J' HJ'.
      rewrite (det_ext _ J' J); auto. intros i j Hi Hj. apply (jacobian_unique pd (ksi_at A p)); [now apply To|exact HJ|exact Hi|rewrite E; exact Hj].
    + rewrite (H2 D). split; [|right; eauto]. split; [intros (? & ? & ?); discriminate|].
      intros (_ & H). assert (HJ' : jacobian_of (a_pad A) (ksi_at A p) J) by now apply Fr. specialize (H E J HJ'). lra.
  - destruct (calc_jacobian_flat zdet pd (ksi_at A p) O N) as (d & q & Eq). rewrite Eq.
    split; [|left; eauto]. split; eauto. intros _. split; auto. intros; contradiction.
Qed.
Lemma jac_eval_spec zdet A : 0 <= zdet -> pad_wf (a_pad A) ->
  eval_spec (eval_jac zdet) A (fun p x => measure_at (a_pad A) (ksi_at A p) x) (jac_ok zdet A).
Proof.
  intros Hz W pd p Hp SE. split; [intros x q; now apply jac_eval|]. unfold eval_jac. rewrite jac_iota by auto. now apply jac_total.
Qed.
Lemma grad_eval_spec zdet A : 0 <= zdet -> pad_wf (a_pad A) -> eval_spec (eval_grad zdet) A (grad_facts zdet A) (grad_ok zdet A).
Proof.
  intros Hz W pd p Hp SE. split; [intros x q; now apply grad_eval|]. unfold eval_grad. rewrite grad_iota by auto.
  destruct (jac_total zdet A pd p W SE) as (J1 & J2). unfold jac_ok in J1. unfold grad_ok. destruct SE as (E1 & E2 & E3 & E4).
  unfold calc_gradient, p_geo. rewrite E1, E2 in *. destruct (Nat.eqb_spec (kind_ndim (p_kind (a_pad A))) (p_space (a_pad A))) as [E|N]; cbn [negb bind].
  - destruct (calc_jacobian zdet pd (ksi_at A p)) as [[d q]| | |]; cbn [bind fst snd].
    + split; [|left; eauto]. split; eauto. intros _. destruct J1 as (J1 & _). destruct J1; eauto.
    + split; [|right; eauto]. split; [intros (? & ? & ?); discriminate|]. intros (H1 & _ & H2). destruct (proj2 J1) as (? & ? & ?); auto. discriminate.
    + destruct J2 as [(? & ?)|(? & ?)]; discriminate.
    + destruct J2 as [(? & ?)|(? & ?)]; discriminate.
  - split; [|right; eauto]. split; [intros (? & ? & ?); discriminate|]. intros (_ & ? & _). contradiction.
Qed.
Lemma normal_eval_spec A : pad_wf (a_pad A) -> p_space (a_pad A) = (kind_ndim (p_kind (a_pad A)) + 1)%nat ->
  eval_spec eval_normal A (fun p x => normal_at (a_pad A) (ksi_at A p) (fst x) (snd x)) (fun _ => True).
Proof.
  intros W S pd p Hp SE. split; [intros x q; now apply normal_eval|]. unfold eval_normal. rewrite normal_iota by auto.
  pose proof (same_wf _ _ SE W) as Wd. destruct (normal_total pd (ksi_at A p) Wd) as (mag & un & q & E).
  { destruct SE as (E1 & E2 & _). congruence. }
  rewrite E. split; [|left; eauto]. split; auto. intros _. exists (mag, un), q. reflexivity.
Qed.
