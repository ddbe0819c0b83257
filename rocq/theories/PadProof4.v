(* Filling the pad from a mesh; check_jacobian. *)
From Coq Require Import String Reals QArith Qreals List Lia Lra Bool Arith.
From Verif Require Import Base BaseFacts Expr ExprProof ShapesData Kind MeshModel MeshQuerySpec ShapesModel ShapesSpec ShapesProof
  GeomModel GeomProof PadModel PadSpec PadProof PadProof2 PadProof3.
Import ListNotations.
Local Open Scope R_scope.

Lemma foldM_seq {S} (f : S -> nat -> res S) (P : nat -> S -> Prop) n s : P 0%nat s ->
  (forall i s, (i < n)%nat -> P i s -> exists s', f s i = Ok s' /\ P (Datatypes.S i) s') ->
  exists s', foldM f (seq 0 n) s = Ok s' /\ P n s'.
Proof.
  intros H0 H. induction n as [|n IH]; [exists s; auto|].
  destruct IH as (s1 & E & P1); [intros; apply H; auto|].
  destruct (H n s1 ltac:(lia) P1) as (s2 & E2 & P2).
  exists s2. split; auto. rewrite seq_S, foldM_app, E. cbn [bind foldM]. rewrite Nat.add_0_l, E2. reflexivity.
Qed.

Lemma zeros_wf m n : List.length (zeros m n) = m /\ Forall (fun row => List.length row = n) (zeros m n).
Proof.
  unfold zeros. split; [apply repeat_length|]. apply Forall_forall. intros r Hr. apply repeat_spec in Hr. subst. apply repeat_length.
Qed.

Lemma pad_new_ok n k : (n = 2 \/ n = 3)%nat -> (kind_ndim k <= n)%nat ->
  exists p, pad_new n k = Ok p /\ pad_wf p /\ p_kind p = k /\ p_space p = n /\ p_ok p = false.
Proof.
  intros S H. unfold pad_new.
  replace ((n <? 2) || (3 <? n))%nat with false by (destruct S as [-> | ->]; reflexivity).
  destruct (Nat.ltb_spec n (kind_ndim k)); [lia|].
  eexists. split; [reflexivity|]. split; [|repeat split].
  split; [auto|]. split; [auto|]. apply zeros_wf.
Qed.
Lemma pad_new_err n k : ~ ((n = 2 \/ n = 3)%nat /\ (kind_ndim k <= n)%nat) -> exists msg, pad_new n k = Err msg.
Proof.
  intros H. unfold pad_new. destruct (Nat.ltb_spec n 2); [eexists; reflexivity|].
  destruct (Nat.ltb_spec 3 n); [eexists; reflexivity|]. simpl.
  destruct (Nat.ltb_spec n (kind_ndim k)); [eexists; reflexivity|]. exfalso. apply H. lia.
Qed.

Lemma set_xx_ok p m j v : pad_wf p -> (m < kind_nnode (p_kind p))%nat -> (j < p_space p)%nat ->
  exists q, set_xx p m j v = Ok q /\ pad_wf q /\ p_kind q = p_kind p /\ p_space q = p_space p /\
    (forall i n, node_x q i n = if Nat.eqb i j && Nat.eqb n m then v else node_x p i n) /\
    p_ok q = ((m =? kind_nnode (p_kind p) - 1) && (j =? p_space p - 1))%nat.
Proof.
  intros W Hm Hj. pose proof (wf_row p j W Hj) as L. pose proof W as (S23 & Hg & Lx & F).
  unfold set_xx. rewrite (get_ok _ _ []) by lia. cbn [bind].
  unfold set at 1. rewrite (proj2 (Nat.ltb_lt m _)) by lia. cbn [bind].
  unfold set. rewrite (proj2 (Nat.ltb_lt j _)) by lia. cbn [bind].
  eexists. split; [reflexivity|]. split; [|split; [reflexivity|split; [reflexivity|split; [|reflexivity]]]].
  - split; [auto|]. split; [auto|]. split; [simpl; now rewrite upd_length|]. simpl.
    apply Forall_forall. intros r Hr. apply (In_nth _ _ []) in Hr as (i & Hi & <-). rewrite upd_length in Hi.
    destruct (Nat.eq_dec i j) as [->|N].
    + rewrite nth_upd_same by lia. now rewrite upd_length.
    + rewrite nth_upd_other by lia. apply wf_row; auto; lia.
  - intros i n. unfold node_x. simpl. destruct (Nat.eqb_spec i j) as [->|N].
    + rewrite nth_upd_same by lia. destruct (Nat.eqb_spec n m) as [->|N2]; simpl.
      * rewrite nth_upd_same by lia. reflexivity.
      * rewrite nth_upd_other by lia. reflexivity.
    + simpl. rewrite nth_upd_other by lia. reflexivity.
Qed.

Lemma set_xx_panic p m j v : pad_wf p -> ~ ((m < kind_nnode (p_kind p))%nat /\ (j < p_space p)%nat) -> set_xx p m j v = Panic.
Proof.
  intros W H. pose proof W as (S23 & Hg & Lx & F). unfold set_xx.
  destruct (Nat.lt_ge_cases j (p_space p)) as [Hj|Hj].
  - rewrite (get_ok _ _ []) by lia. cbn [bind]. unfold set at 1.
    rewrite (proj2 (Nat.ltb_ge m _)) by (rewrite (wf_row p j W Hj); lia). reflexivity.
  - unfold get. rewrite (proj2 (nth_error_None _ _)) by lia. reflexivity.
Qed.

Lemma mesh_set_pad_points m c p : coords_complete m -> List.length (c_points c) = kind_nnode (c_kind c) ->
  (forall q, In q (c_points c) -> (q < List.length (points m))%nat) ->
  pad_wf p -> p_kind p = c_kind c -> p_space p = ndim m ->
  exists q, mesh_set_pad m p (c_points c) = Ok q /\ element_of m c q /\ p_ok q = true.
Proof.
  intros K L R W Ek Es.
  unfold mesh_set_pad. rewrite Ek, L, Nat.eqb_refl. cbn [negb].
  assert (Sp : (ndim m = 2 \/ ndim m = 3)%nat) by (rewrite <- Es; apply W).
  assert (NZ := nnode_pos (c_kind c)).
  set (x := fun a i => match nth_error (c_points c) a with
    | Some id => match nth_error (points m) id with Some pt => nth i (pt_coords pt) 0 | None => 0 end | None => 0 end).
  set (P := fun n (q : pad) => pad_wf q /\ p_kind q = c_kind c /\ p_space q = ndim m /\
       (forall a i, (a < n)%nat -> (i < ndim m)%nat -> node_x q i a = x a i) /\
       p_ok q = (if Nat.eqb n 0 then p_ok p else Nat.eqb n (kind_nnode (c_kind c)))).
  destruct (foldM_seq (fun (p : pad) a =>
      foldM (fun (p : pad) j =>
          let! id := get (c_points c) a in
          let! pt := get (points m) id in
          let! v := get (pt_coords pt) j in
          set_xx p a j v)
        (seq 0 (ndim m)) p) P (kind_nnode (c_kind c)) p) as (q & Eq & Pq).
  - split; auto. split; auto. split; auto. split; [intros; lia|reflexivity].
  - intros a p1 Ha (W1 & K1 & S1 & X1 & O1).
    destruct (nth_error (c_points c) a) as [id|] eqn:Eid; [|apply nth_error_None in Eid; lia].
    assert (Hid : (id < List.length (points m))%nat) by (apply R; eapply nth_error_In; eauto).
    destruct (nth_error (points m) id) as [pt|] eqn:Ept; [|apply nth_error_None in Ept; lia].
    assert (Lc : List.length (pt_coords pt) = ndim m) by (apply K; eapply nth_error_In; eauto).
    set (Q := fun n (q : pad) => pad_wf q /\ p_kind q = c_kind c /\ p_space q = ndim m /\
       (forall b i, (b < a)%nat -> (i < ndim m)%nat -> node_x q i b = x b i) /\
       (forall i, (i < n)%nat -> node_x q i a = x a i) /\
       (n = ndim m -> p_ok q = Nat.eqb (S a) (kind_nnode (c_kind c)))).
    destruct (foldM_seq (fun (p : pad) j =>
          let! id := get (c_points c) a in
          let! pt := get (points m) id in
          let! v := get (pt_coords pt) j in
          set_xx p a j v) Q (ndim m) p1) as (p2 & E2 & Q2).
    + do 4 (split; [auto|]). split; intros; lia.
    + intros j p2 Hj (W2 & K2 & S2 & X2 & Y2 & O2).
      unfold get at 1. rewrite Eid. cbn [bind]. unfold get at 1. rewrite Ept. cbn [bind].
      rewrite (get_ok _ _ 0) by lia. cbn [bind].
      destruct (set_xx_ok p2 a j (nth j (pt_coords pt) 0) W2) as (p3 & E3 & W3 & K3 & S3 & X3 & O3); try (rewrite K2 || rewrite S2; lia).
      exists p3. split; auto. split; auto. split; [congruence|]. split; [congruence|]. split; [|split].
      * intros b i Hb Hi. rewrite X3. destruct (Nat.eqb_spec b a); [lia|]. rewrite andb_false_r. auto.
      * intros i Hi. rewrite X3, Nat.eqb_refl, andb_true_r. destruct (Nat.eqb_spec i j) as [->|].
        { unfold x. now rewrite Eid, Ept. }
        apply Y2. lia.
      * intros En. rewrite O3, K2, S2. rewrite <- En. simpl. rewrite Nat.sub_0_r, Nat.eqb_refl, andb_true_r.
        destruct (Nat.eqb_spec a (kind_nnode (c_kind c) - 1)), (kind_nnode (c_kind c)) as [|nn] eqn:EE; try lia; auto.
        { simpl in e. symmetry. apply Nat.eqb_eq. lia. }
        { symmetry. apply Nat.eqb_neq. lia. }
    + exists p2. split; auto. destruct Q2 as (W2 & K2 & S2 & X2 & Y2 & O2).
      split; auto. split; auto. split; auto. split; [|simpl; now apply O2].
      intros b i Hb Hi. destruct (Nat.eq_dec b a) as [->|]; [auto|apply X2; lia].
  - exists q. rewrite Eq. split; auto. destruct Pq as (W2 & K2 & S2 & X2 & O2). split.
    + split; auto. split; auto. split; auto. intros a id pt i Ha Hp Hi.
      rewrite X2; auto; [unfold x; now rewrite Ha, Hp|]. rewrite <- L. apply nth_error_Some. congruence.
    + rewrite O2. destruct (Nat.eqb_spec (kind_nnode (c_kind c)) 0); [lia|]. apply Nat.eqb_refl.
Qed.

Lemma mesh_set_pad_ok m c p : consistent m -> coords_complete m -> In c (cells m) ->
  pad_wf p -> p_kind p = c_kind c -> p_space p = ndim m ->
  exists q, mesh_set_pad m p (c_points c) = Ok q /\ element_of m c q /\ p_ok q = true.
Proof.
  intros [_ C] K Hc W Ek Es. apply In_nth_error in Hc as (ci & Hci). destruct (C _ _ Hci) as (_ & L & R).
  now apply mesh_set_pad_points.
Qed.

Lemma get_pad_ok m i c : consistent m -> coords_complete m -> (ndim m = 2 \/ ndim m = 3)%nat ->
  nth_error (cells m) i = Some c -> (kind_ndim (c_kind c) <= ndim m)%nat ->
  exists p, get_pad m i = Ok p /\ element_of m c p /\ p_ok p = true.
Proof.
  intros C K S Hc Hg. unfold get_pad, get. rewrite Hc. cbn [bind].
  destruct (pad_new_ok _ _ S Hg) as (p & -> & W & Ek & Es & _).
  apply mesh_set_pad_ok; auto. eapply nth_error_In; eauto.
Qed.

Lemma element_pos m c p q : consistent m -> In c (cells m) -> element_of m c p -> element_of m c q ->
  forall ksi i, (i < ndim m)%nat -> pos p ksi i = pos q ksi i.
Proof.
  intros [_ C] Hc (W1 & K1 & S1 & X1) (W2 & K2 & S2 & X2) ksi i Hi.
  apply In_nth_error in Hc as (ci & Hci). destruct (C _ _ Hci) as (_ & L & R).
  unfold pos. rewrite K1, K2. apply sum_n_ext. intros a Ha. f_equal.
  destruct (nth_error (c_points c) a) as [id|] eqn:Eid; [|apply nth_error_None in Eid; lia].
  assert (Hid : (id < List.length (points m))%nat) by (apply R; eapply nth_error_In; eauto).
  destruct (nth_error (points m) id) as [pt|] eqn:Ept; [|apply nth_error_None in Ept; lia].
  rewrite (X1 a id pt i), (X2 a id pt i); auto.
Qed.

(** check_jacobian *)
Lemma repeat_third k n j : (kind_ndim k <= n)%nat -> (n <= 3)%nat -> (j < kind_ndim k)%nat ->
  env [1/3; 1/3; 1/3] j = env (repeat (1/3) n) j.
Proof.
  intros H1 H2 Hj. unfold env. transitivity (1/3); [destruct j as [|[|[|j]]]; try reflexivity; lia|].
  symmetry. rewrite (nth_indep _ 0 (1/3)) by (rewrite repeat_length; lia). apply nth_repeat.
Qed.
Lemma deriv_third k n : (kind_ndim k <= n)%nat -> (n <= 3)%nat ->
  calc_deriv k [1/3; 1/3; 1/3] = calc_deriv k (repeat (1/3) n).
Proof.
  intros H1 H2. unfold calc_deriv. apply map_ext_in. intros r Hr. apply map_ext_in. intros e He.
  apply (eval_below (kind_ndim k)); [intros j Hj; now apply (repeat_third k)|].
  pose proof (kind_deriv_below k) as B. rewrite forallb_forall in B. specialize (B _ Hr).
  rewrite forallb_forall in B. auto.
Qed.

Definition check_cell (zdet : R) (m : mesh R) (c : cell) : res unit :=
  let! p := pad_new (ndim m) (c_kind c) in
  let! p := mesh_set_pad m p (c_points c) in
  let! r := calc_jacobian zdet p [1/3; 1/3; 1/3] in
  if is_shell (kind_ndim (c_kind c)) (ndim m) then
    if Req_EM_T (fst r) (-1) then Ok tt else Panic
  else if Rltb (fst r) 0 then Err "negative determinant of Jacobian found"%string else Ok tt.

Lemma det_third_unique m c d d' : consistent m -> In c (cells m) -> kind_ndim (c_kind c) = ndim m ->
  det_third m c d -> det_third m c d' -> d = d'.
Proof.
  intros C Hc E (p & a & He & J & ->) (q & b & He' & J' & ->). apply det_ext. intros i j Hi Hj.
  pose proof (element_pos m c p q C Hc He He') as X.
  destruct He as (_ & K1 & S1 & _). destruct He' as (_ & K2 & S2 & _).
  eapply partial_unique; [apply J; rewrite ?S1, ?K1; lia|].
  unfold partial. apply (dlim_ext (fun t => pos q (set_coord (repeat (1 / 3) (ndim m)) j t) i)).
  { intros t. symmetry. now apply X. }
  apply J'; rewrite ?S2, ?K2; lia.
Qed.

Lemma check_cell_ok zdet m c : 0 <= zdet -> consistent m -> coords_complete m -> In c (cells m) ->
  ((ndim m = 2 \/ ndim m = 3)%nat /\ (kind_ndim (c_kind c) <= ndim m)%nat /\
   (kind_ndim (c_kind c) = ndim m -> exists d, det_third m c d /\ zdet < d) /\ check_cell zdet m c = Ok tt) \/
  (~ ((ndim m = 2 \/ ndim m = 3)%nat /\ (kind_ndim (c_kind c) <= ndim m)%nat /\
      (kind_ndim (c_kind c) = ndim m -> exists d, det_third m c d /\ zdet < d)) /\
   exists msg, check_cell zdet m c = Err msg).
Proof.
  intros Hz C K Hc. unfold check_cell.
  assert (D : ((ndim m = 2 \/ ndim m = 3) /\ kind_ndim (c_kind c) <= ndim m)%nat \/
              ~ ((ndim m = 2 \/ ndim m = 3) /\ kind_ndim (c_kind c) <= ndim m)%nat) by lia.
  destruct D as [[S Hg]|N].
  2:{ right. split; [tauto|]. destruct (pad_new_err _ _ N) as (msg & ->). exists msg. reflexivity. }
  destruct (pad_new_ok _ _ S Hg) as (p0 & -> & W0 & Ek & Es & _). cbn [bind].
  destruct (mesh_set_pad_ok m c p0 C K Hc W0 Ek Es) as (p & -> & He & O). cbn [bind].
  pose proof He as (W & Kp & Sp & _).
  unfold is_shell. destruct (Nat.eqb_spec (kind_ndim (c_kind c)) (ndim m)) as [E|NE].
  - (* solid *)
    cbn [negb andb].
    assert (Es' : kind_ndim (p_kind p) = p_space p) by congruence.
    assert (L3 : (kind_ndim (p_kind p) <= List.length [1/3; 1/3; 1/3]%R)%nat) by (rewrite Kp; simpl; lia).
    pose proof (jj_partial p [1/3; 1/3; 1/3] W L3) as J3.
    destruct (calc_jacobian_solid zdet p _ _ W O L3 Es' J3) as (H1 & H2).
    assert (Lr : (kind_ndim (p_kind p) <= List.length (repeat (1/3)%R (ndim m)))%nat) by (rewrite repeat_length, Kp; lia).
    pose proof (jj_partial p (repeat (1/3) (ndim m)) W Lr) as Jr.
    rewrite (deriv_third _ (ndim m)) in H1, H2 by (rewrite ?Kp; lia).
    set (A := ent (mat_mul (p_geo p) (p_xxt p) (calc_deriv (p_kind p) (repeat (1/3) (ndim m))))) in *.
    assert (DT : det_third m c (det (p_space p) A)).
    { exists p, A. split; auto. split; [exact Jr|]. now rewrite Sp. }
    destruct (Rlt_le_dec zdet (Rabs (det (p_space p) A))) as [D|D].
    + destruct (H1 D) as (q & ->). cbn [bind fst].
      destruct (Rltb (det (p_space p) A) 0) eqn:T.
      * apply Rltb_iff in T. right. split; [|eexists; reflexivity]. intros (_ & _ & H).
        destruct (H E) as (d & Hd & Hp). rewrite (det_third_unique m c d _ C Hc E Hd DT) in Hp. lra.
      * apply Rltb_false in T. left. split; auto. split; auto. split; auto. intros _.
        exists (det (p_space p) A). split; auto. rewrite Rabs_pos_eq in D; lra.
    + right. rewrite (H2 D). split; [|eexists; reflexivity]. intros (_ & _ & H).
      destruct (H E) as (d & Hd & Hp). rewrite (det_third_unique m c d _ C Hc E Hd DT) in Hp.
      pose proof (Rle_abs (det (p_space p) A)). lra.
  - left. split; auto. split; auto. split; [congruence|].
    destruct (calc_jacobian_flat zdet p [1/3; 1/3; 1/3] O) as (d & q & Ej); [congruence|].
    rewrite Ej. cbn [bind fst negb andb].
    destruct (calc_jacobian_post zdet p _ d q Hz W Ej) as (_ & _ & _ & _ & _ & P1 & P2). rewrite Kp, Sp in *.
    destruct (Nat.eqb_spec (kind_ndim (c_kind c)) 1) as [E1|N1]; cbn [negb].
    + assert (0 <= d) by (rewrite (P1 E1); apply sqrt_pos).
      destruct (Rltb d 0) eqn:T; auto. apply Rltb_iff in T. lra.
    + rewrite P2.
      * destruct (Req_EM_T (-1) (-1)); auto. lra.
      * assert (0 < kind_ndim (c_kind c))%nat by (destruct (c_kind c); vm_compute; lia). lia.
Qed.

Lemma foldM_unit {A} (f : A -> res unit) l :
  (forall x, In x l -> f x = Ok tt \/ exists msg, f x = Err msg) ->
  (foldM (fun (_ : unit) x => f x) l tt = Ok tt /\ forall x, In x l -> f x = Ok tt) \/
  (exists msg x, foldM (fun (_ : unit) x => f x) l tt = Err msg /\ In x l /\ f x = Err msg).
Proof.
  induction l as [|a l IH]; intros H; [left; split; auto; intros x []|]. cbn [foldM].
  destruct (H a (or_introl eq_refl)) as [E|(msg & E)]; rewrite E; cbn [bind].
  - destruct (IH ltac:(intros; apply H; simpl; auto)) as [(E1 & H1)|(msg & x & E1 & I & E2)].
    + left. split; auto. intros x [<-|Hx]; auto.
    + right. exists msg, x. simpl. auto.
  - right. exists msg, a. simpl. auto.
Qed.

Lemma check_jacobian_iff zdet m : 0 <= zdet -> consistent m -> coords_complete m ->
  (check_jacobian zdet m = Ok tt <->
   forall c, In c (cells m) -> (ndim m = 2 \/ ndim m = 3)%nat /\ (kind_ndim (c_kind c) <= ndim m)%nat /\
     (kind_ndim (c_kind c) = ndim m -> exists d, det_third m c d /\ zdet < d)) /\
  (check_jacobian zdet m = Ok tt \/ exists msg, check_jacobian zdet m = Err msg).
Proof.
  intros Hz C K. change (check_jacobian zdet m) with (foldM (fun (_ : unit) c => check_cell zdet m c) (cells m) tt).
  destruct (foldM_unit (check_cell zdet m) (cells m)) as [(E & H)|(msg & c & E & I & H)].
  - intros c Hc. destruct (check_cell_ok zdet m c Hz C K Hc) as [(_ & _ & _ & E)|(_ & E)]; auto.
  - rewrite E. split; auto. split; auto. intros _ c Hc.
    destruct (check_cell_ok zdet m c Hz C K Hc) as [(A & B & D & _)|(_ & msg & E')]; auto. rewrite H in E' by auto. discriminate.
  - rewrite E. split; [|right; eauto]. split; [discriminate|]. intros A. exfalso.
    destruct (check_cell_ok zdet m c Hz C K I) as [(_ & _ & _ & E')|(N & _)]; [congruence|]. apply N. auto.
Qed.
