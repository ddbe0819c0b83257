(* Normal vectors; Newton iterations of approximate_ksi. *)
From Coq Require Import String Reals QArith Qreals List Lia Lra Bool Arith.
From Verif Require Import Base BaseFacts Expr ExprProof ShapesData Kind ShapesModel ShapesSpec ShapesProof
  GeomModel GeomProof PadModel PadSpec PadProof PadProof2.
Import ListNotations.
Local Open Scope R_scope.

(** calc_normal_vector *)
Lemma normal_2d p n ksi mag un q : pad_wf p -> p_space p = 2%nat -> List.length ksi = kind_ndim (p_kind p) ->
  calc_normal_vector p n ksi = Ok (mag, un, q) ->
  kind_ndim (p_kind p) = 1%nat /\ n = 2%nat /\ same_element p q /\ jacobian_of p ksi (ent (p_jac q)) /\
  List.length un = 2%nat /\
  let t i := ent (p_jac q) i 0 in
  mag = sqrt (t 0%nat ^ 2 + t 1%nat ^ 2) /\
  mag * nth 0 un 0 = - t 1%nat * (if Rltb 0 mag then 1 else mag) /\
  mag * nth 1 un 0 = t 0%nat * (if Rltb 0 mag then 1 else mag) /\
  (0 < mag -> nth 0 un 0 ^ 2 + nth 1 un 0 ^ 2 = 1) /\ (mag = 0 -> un = [0; 0]).
Proof.
  intros W S2 L. unfold calc_normal_vector, p_geo. rewrite S2. cbn [Nat.eqb andb].
  destruct (Nat.eqb_spec (kind_ndim (p_kind p)) 1) as [G|]; [|discriminate]. cbn [negb andb].
  destruct (Nat.eqb_spec n 2) as [->|]; [|discriminate]. cbn [negb].
  set (J := mat_mul _ _ _). set (m := sqrt _). intros [= <- <- <-].
  assert (M : m * m = ent J 1 0 ^ 2 + ent J 0 0 ^ 2).
  { unfold m. rewrite sqrt_sqrt; [ring|]. nra. }
  assert (Mn : 0 <= m) by apply sqrt_pos.
  split; auto. split; auto. split; [repeat split; auto|]. split.
  { cbn [p_jac with_jac]. apply jj_partial; auto. lia. }
  cbn [p_jac with_jac]. split; [destruct (Rltb 0 m); reflexivity|]. cbv zeta.
  split. { unfold m. f_equal. ring. }
  destruct (Rltb 0 m) eqn:E.
  - apply Rltb_iff in E. cbn [nth]. assert (m <> 0) by lra.
    split; [field; auto|]. split; [field; auto|]. split; [|lra]. intros _.
    transitivity ((- ent J 1 0 / m) * (- ent J 1 0 / m) + (ent J 0 0 / m) * (ent J 0 0 / m)); [ring|].
    apply rows_dot2; auto. rewrite M. ring.
  - apply Rltb_false in E. assert (m = 0) by lra. cbn [nth]. split; [ring|]. split; [ring|]. split; [lra|].
    intros _. rewrite H in M. assert (ent J 1 0 = 0) by nra. assert (ent J 0 0 = 0) by nra.
    rewrite H0, H1. f_equal. ring.
Qed.

Lemma normal_3d p n ksi mag un q : pad_wf p -> p_space p = 3%nat -> List.length ksi = kind_ndim (p_kind p) ->
  calc_normal_vector p n ksi = Ok (mag, un, q) ->
  kind_ndim (p_kind p) = 2%nat /\ n = 3%nat /\ same_element p q /\ jacobian_of p ksi (ent (p_jac q)) /\
  List.length un = 3%nat /\
  let t i := ent (p_jac q) i 0 in let s i := ent (p_jac q) i 1 in
  mag = sqrt (sum_n 3 (fun i => t i ^ 2) * sum_n 3 (fun i => s i ^ 2) - sum_n 3 (fun i => t i * s i) ^ 2) /\
  sum_n 3 (fun i => nth i un 0 * t i) = 0 /\ sum_n 3 (fun i => nth i un 0 * s i) = 0 /\
  det 3 (fun i j => match j with 0%nat => t i | 1%nat => s i | _ => nth i un 0 end) = (if Rltb 0 mag then mag else 0) /\
  (0 < mag -> sum_n 3 (fun i => nth i un 0 ^ 2) = 1) /\ (mag = 0 -> un = [0; 0; 0]).
Proof.
  intros W S3 L. unfold calc_normal_vector, p_geo. rewrite S3. cbn [Nat.eqb andb].
  destruct (Nat.eqb_spec (kind_ndim (p_kind p)) 2) as [G|]; [|discriminate]. cbn [negb andb].
  destruct (Nat.eqb_spec n 3) as [->|]; [|discriminate]. cbn [negb].
  set (J := mat_mul _ _ _). cbv zeta. set (m := sqrt _). intros [= <- <- <-].
  set (a := ent J 1 0 * ent J 2 1 - ent J 2 0 * ent J 1 1) in *.
  set (b := ent J 2 0 * ent J 0 1 - ent J 0 0 * ent J 2 1) in *.
  set (c := ent J 0 0 * ent J 1 1 - ent J 1 0 * ent J 0 1) in *.
  assert (M : m * m = a * a + b * b + c * c).
  { unfold m. rewrite sqrt_sqrt; [ring|]. nra. }
  assert (Mn : 0 <= m) by apply sqrt_pos.
  split; auto. split; auto. split; [repeat split; auto|]. split.
  { cbn [p_jac with_jac]. apply jj_partial; auto. lia. }
  cbn [p_jac with_jac]. split; [destruct (Rltb 0 m); reflexivity|].
  split. { unfold m, sum_n. f_equal. simpl. unfold a, b, c. ring. }
  destruct (Rltb 0 m) eqn:E.
  - apply Rltb_iff in E. assert (m <> 0) by lra. unfold sum_n. simpl.
    split; [unfold a, b, c; field; auto|]. split; [unfold a, b, c; field; auto|]. split.
    + transitivity ((a * a + b * b + c * c) / m); [unfold a, b, c; field; auto|]. rewrite <- M. field; auto.
    + split; [|lra]. intros _. transitivity ((a / m) * (a / m) + (b / m) * (b / m) + (c / m) * (c / m)); [ring|]. now apply rows_dot3.
  - apply Rltb_false in E. assert (m = 0) by lra. rewrite H in M.
    assert (Ha : a = 0) by nra. assert (Hb : b = 0) by nra. assert (Hc : c = 0) by nra.
    rewrite Ha, Hb, Hc. unfold sum_n. simpl.
    split; [ring|]. split; [ring|]. split; [ring|]. split; [lra|]. auto.
Qed.

Lemma normal_total p ksi : pad_wf p -> (p_space p = kind_ndim (p_kind p) + 1)%nat ->
  exists mag un q, calc_normal_vector p (p_space p) ksi = Ok (mag, un, q).
Proof.
  intros (S23 & _) E. unfold calc_normal_vector, p_geo.
  replace (kind_ndim (p_kind p)) with (p_space p - 1)%nat by lia.
  destruct S23 as [-> | ->]; cbn; eexists _, _, _; reflexivity.
Qed.
Lemma normal_err p n ksi : pad_wf p -> (p_space p <> kind_ndim (p_kind p) + 1)%nat ->
  exists msg, calc_normal_vector p n ksi = Err msg.
Proof.
  intros (S23 & _) E. unfold calc_normal_vector, p_geo.
  destruct S23 as [S | S]; rewrite S in *.
  - destruct (Nat.eqb_spec (kind_ndim (p_kind p)) 1); [lia|]. cbn. eexists; reflexivity.
  - destruct (Nat.eqb_spec (kind_ndim (p_kind p)) 2); [lia|]. cbn. eexists; reflexivity.
Qed.

(** vectors *)
Lemma vec_sub_length a : forall b, List.length a = List.length b -> List.length (vec_sub a b) = List.length a.
Proof. induction a as [|x a IH]; intros [|y b] L; simpl in *; try lia. f_equal. apply IH. lia. Qed.
Lemma vec_sub_nth a : forall b i, List.length a = List.length b -> nth i (vec_sub a b) 0 = nth i a 0 - nth i b 0.
Proof.
  induction a as [|x a IH]; intros [|y b] i L; simpl in *; try lia; [destruct i; simpl; ring|].
  destruct i; simpl; auto.
Qed.
Lemma vec_add_length a : forall b, List.length a = List.length b -> List.length (vec_add a b) = List.length a.
Proof. induction a as [|x a IH]; intros [|y b] L; simpl in *; try lia. f_equal. apply IH. lia. Qed.
Lemma vec_add_nth a : forall b i, List.length a = List.length b -> nth i (vec_add a b) 0 = nth i a 0 + nth i b 0.
Proof.
  induction a as [|x a IH]; intros [|y b] i L; simpl in *; try lia; [destruct i; simpl; ring|].
  destruct i; simpl; auto.
Qed.

Lemma euclid_residual p ksi x c : List.length x = p_space p -> List.length c = p_space p ->
  (forall i, (i < p_space p)%nat -> nth i c 0 = pos p ksi i) ->
  euclid (vec_sub x c) = residual p ksi x.
Proof.
  intros Lx Lc H. unfold euclid, residual. f_equal.
  rewrite (dot_sum_n _ _ (p_space p)) by (rewrite vec_sub_length; lia).
  apply sum_n_ext. intros i Hi. rewrite !vec_sub_nth by lia. rewrite H by auto. ring.
Qed.

Lemma same_residual p q ksi x : same_element p q -> residual q ksi x = residual p ksi x.
Proof.
  intros S. unfold residual. destruct S as (E1 & E2 & E3 & E4). rewrite E2. f_equal.
  apply sum_n_ext. intros i _. rewrite (same_pos p q); [reflexivity|repeat split; auto].
Qed.
Lemma same_jacobian p q ksi a : same_element p q -> jacobian_of q ksi a -> jacobian_of p ksi a.
Proof.
  intros S H i j Hi Hj. unfold jacobian_of, partial in *.
  destruct S as (E1 & E2 & E3 & E4). rewrite E1, E2 in H.
  apply (dlim_ext (fun t => pos q (set_coord ksi j t) i)); [|now apply H].
  intros t. apply same_pos. repeat split; auto.
Qed.

(* solving J delta = r with the inverse *)
Lemma inverse_solve n a b r : inverse_of n a b ->
  forall i, (i < n)%nat -> sum_n n (fun j => a i j * sum_n n (fun l => b j l * r l)) = r i.
Proof.
  intros I i Hi.
  rewrite (sum_n_ext _ _ (fun j => sum_n n (fun l => a i j * b j l * r l))).
  - rewrite sum_n_swap. rewrite (sum_n_ext _ _ (fun l => delta i l * r l)); [now apply sum_n_delta|].
    intros l Hl. rewrite sum_n_scal_r. f_equal. now apply I.
  - intros j Hj. rewrite <- sum_n_scal. apply sum_n_ext. intros; ring.
Qed.

(* one iteration *)
Lemma newton_iter zdet n it p ksi x tol : 0 <= zdet -> pad_wf p -> p_ok p = true ->
  kind_ndim (p_kind p) = p_space p -> List.length ksi = p_space p -> List.length x = p_space p ->
  (residual p ksi x <= tol /\ exists q, same_element p q /\ newton zdet (S n) it p ksi x tol = Ok (it, ksi, q)) \/
  (tol < residual p ksi x /\
   ((exists ksi' q, newton_step p x ksi ksi' /\ same_element p q /\
      newton zdet (S n) it p ksi x tol = newton zdet n (S it) q ksi' x tol) \/
    (exists a, jacobian_of p ksi a /\ Rabs (det (p_space p) a) <= zdet /\
      newton zdet (S n) it p ksi x tol = Err "cannot compute inverse due to zero determinant"%string))).
Proof.
  intros Hz W O E Lk Lx. simpl newton.
  destruct (pad_coords_ok p ksi W O) as (c & q & Ec & Lc & Hc & Sq). rewrite Ec. cbn [bind fst snd].
  rewrite (euclid_residual p ksi x c) by auto.
  destruct (Rleb (residual p ksi x) tol) eqn:T.
  - apply Rleb_iff in T. left. split; auto. exists q. auto.
  - apply Rleb_false in T. right. split; auto.
    assert (Wq : pad_wf q) by (eapply same_wf; eauto).
    assert (Hq : p_kind q = p_kind p /\ p_space q = p_space p /\ p_ok q = true).
    { destruct Sq as (A & B & _ & D). rewrite A, B, D. auto. }
    destruct Hq as (Kq & Sp & Oq).
    assert (Lk' : List.length ksi = kind_ndim (p_kind q)) by (rewrite Kq; lia).
    assert (Lk2 : (kind_ndim (p_kind q) <= List.length ksi)%nat) by lia.
    assert (Eq : kind_ndim (p_kind q) = p_space q) by (rewrite Kq, Sp; auto).
    pose proof (jj_partial q ksi Wq Lk2) as JQ.
    destruct (calc_jacobian_solid zdet q ksi _ Wq Oq Lk2 Eq JQ) as (H1 & H2).
    destruct (Rlt_le_dec zdet (Rabs (det (p_space q) (ent (mat_mul (p_geo q) (p_xxt q) (calc_deriv (p_kind q) ksi)))))) as [D|D].
    + left. destruct (H1 D) as (r & Er). clear H1 H2. rewrite Er. cbn [bind fst snd].
      pose proof (calc_jacobian_post zdet q ksi _ r Hz Wq Er) as P.
      pose proof (jac_post_jacobian zdet q r ksi _ Wq Lk' P) as JR.
      destruct P as (_ & Sr & _ & _ & F & _). destruct (F Eq) as (Dr & Dz & I & L1 & L2). clear F.
      assert (Spr : same_element p r) by (eapply same_trans; eauto).
      assert (Ld : List.length (mat_vec (p_inv r) (vec_sub x c)) = p_space p) by (rewrite mat_vec_length; lia).
      eexists _, r. split; [|split; [exact Spr|reflexivity]].
      exists (ent (p_jac r)). split; [|split; [|split]].
      * apply (same_jacobian p q ksi _ Sq JR).
      * rewrite Sp in Dr, Dz. intros Z. rewrite Z in Dr. rewrite Dr, Rabs_R0 in Dz. lra.
      * rewrite vec_add_length; lia.
      * intros i Hi. rewrite Sp in I, L1, L2.
        rewrite <- (Hc i Hi). rewrite <- (vec_sub_nth x c i) by lia.
        rewrite <- (inverse_solve (p_space p) _ _ (fun l => nth l (vec_sub x c) 0) I i Hi).
        apply sum_n_ext. intros j Hj. f_equal.
        rewrite vec_add_nth by lia. rewrite mat_vec_nth by lia.
        rewrite (dot_sum_n _ _ (p_space p)); [unfold ent; ring|apply L2; auto|rewrite vec_sub_length; lia].
    + right. eexists. split; [apply (same_jacobian p q ksi _ Sq JQ)|]. rewrite <- Sp. split; [exact D|].
      now rewrite (H2 D).
Qed.

Lemma newton_post zdet x tol : 0 <= zdet -> forall n it p ksi it' ksi' q,
  pad_wf p -> kind_ndim (p_kind p) = p_space p -> p_ok p = true ->
  List.length ksi = p_space p -> List.length x = p_space p ->
  newton zdet n it p ksi x tol = Ok (it', ksi', q) ->
  exists z : nat -> list R, z 0%nat = ksi /\ z (it' - it)%nat = ksi' /\ (it <= it' < it + n)%nat /\
    residual p ksi' x <= tol /\ List.length ksi' = p_space p /\ same_element p q /\
    forall s, (s < it' - it)%nat -> tol < residual p (z s) x /\ newton_step p x (z s) (z (S s)).
Proof.
  intros Hz. induction n as [|n IH]; intros it p ksi it' ksi' q W E O Lk Lx H; [discriminate|].
  destruct (newton_iter zdet n it p ksi x tol Hz W O E Lk Lx) as [(T & r & Sr & Er)|(T & [(k1 & r & St & Sr & Er)|(a & _ & _ & Er)])];
    rewrite Er in H.
  - injection H as <- <- <-. exists (fun _ => ksi). rewrite Nat.sub_diag.
    split; [reflexivity|]. split; [reflexivity|]. split; [lia|]. do 3 (split; [auto|]). intros s Hs; lia.
  - pose proof St as (a & _ & _ & Lk1 & _).
    assert (Er' := Sr). destruct Er' as (K1 & K2 & K3 & K4).
    destruct (IH (S it) r k1 it' ksi' q) as (z & Z0 & Z1 & R1 & R2 & R3 & R4 & R5); auto; try congruence.
    { eapply same_wf; eauto. }
    exists (fun s => match s with O => ksi | S s' => z s' end).
    split; [reflexivity|]. split.
    { replace (it' - it)%nat with (S (it' - S it))%nat by lia. auto. }
    split; [lia|]. split; [rewrite (same_residual p r) in R2; auto|]. split; [congruence|].
    split; [eapply same_trans; eauto|].
    intros s Hs. destruct s as [|s].
    + rewrite Z0. auto.
    + destruct (R5 s ltac:(lia)) as (A & B). split.
      * rewrite (same_residual p r) in A; auto.
      * destruct B as (a' & J & D & L & Q). exists a'. split; [apply (same_jacobian p r _ _ Sr J)|].
        rewrite K2 in D, L, Q. split; auto. split; auto. intros i Hi. rewrite Q by auto. now rewrite (same_pos p r).
  - discriminate.
Qed.

(** the first guess *)
Lemma fold_min_spec : forall l a, (forall b, In b l -> fold_left Rmin l a <= b) /\ fold_left Rmin l a <= a /\
  (fold_left Rmin l a = a \/ In (fold_left Rmin l a) l).
Proof.
  induction l as [|c l IH]; intros a; simpl; [repeat split; auto; try lra; intros b []|].
  destruct (IH (Rmin a c)) as (H1 & H2 & H3).
  pose proof (Rmin_l a c). pose proof (Rmin_r a c).
  split; [|split].
  - intros b [<-|Hb]; [lra|auto].
  - lra.
  - destruct H3 as [->|H3]; auto. unfold Rmin. destruct (Rle_dec a c); auto.
Qed.
Lemma fold_max_spec : forall l a, (forall b, In b l -> b <= fold_left Rmax l a) /\ a <= fold_left Rmax l a /\
  (fold_left Rmax l a = a \/ In (fold_left Rmax l a) l).
Proof.
  induction l as [|c l IH]; intros a; simpl; [repeat split; auto; try lra; intros b []|].
  destruct (IH (Rmax a c)) as (H1 & H2 & H3).
  pose proof (Rmax_l a c). pose proof (Rmax_r a c).
  split; [|split].
  - intros b [<-|Hb]; [lra|auto].
  - lra.
  - destruct H3 as [->|H3]; auto. unfold Rmax. destruct (Rle_dec a c); auto.
Qed.
Lemma row_min_spec r : r <> [] -> least (fun v => In v r) (row_min r).
Proof.
  destruct r as [|a l]; [easy|]. intros _. unfold row_min; simpl. destruct (fold_min_spec l a) as (H1 & H2 & H3).
  split; simpl; [destruct H3 as [->|H3]; auto|]. intros y [<-|Hy]; auto.
Qed.
Lemma row_max_spec r : r <> [] -> greatest (fun v => In v r) (row_max r).
Proof.
  destruct r as [|a l]; [easy|]. intros _. unfold row_max; simpl. destruct (fold_max_spec l a) as (H1 & H2 & H3).
  split; simpl; [destruct H3 as [->|H3]; auto|]. intros y [<-|Hy]; auto.
Qed.

Lemma nnode_pos k : (0 < kind_nnode k)%nat.
Proof. destruct k; vm_compute; lia. Qed.

Lemma node_coord_row p j v : pad_wf p -> (j < p_space p)%nat -> node_coord p j v <-> In v (nth j (p_xxt p) []).
Proof.
  intros W Hj. pose proof (wf_row p j W Hj) as L. split.
  - intros (m & Hm & ->). apply nth_In. lia.
  - intros H. apply (In_nth _ _ 0) in H as (m & Hm & <-). exists m. split; [lia|reflexivity].
Qed.

Lemma row_nonempty p j : pad_wf p -> (j < p_space p)%nat -> nth j (p_xxt p) [] <> [].
Proof. intros W Hj E. pose proof (wf_row p j W Hj) as L. rewrite E in L. pose proof (nnode_pos (p_kind p)). simpl in L. lia. Qed.

Definition kmin_of (k : geokind) : R := if is_tri_or_tet k then 0 else -1.
Definition kdel_of (k : geokind) : R := if is_tri_or_tet k then 1 else 2.

Lemma guess_fold p x n : pad_wf p -> List.length x = p_space p -> (n <= p_space p)%nat ->
  let f := fun (ksi : list R) j =>
      let! row := get (p_xxt p) j in
      let! xj := get x j in
      if Req_EM_T (row_max row) (row_min row) then Err "approximate_ksi failed to converge"%string
      else Ok (ksi ++ [kmin_of (p_kind p) + kdel_of (p_kind p) * (xj - row_min row) / (row_max row - row_min row)])%list in
  ((exists j, (j < n)%nat /\ row_max (nth j (p_xxt p) []) = row_min (nth j (p_xxt p) [])) /\
     foldM f (seq 0 n) [] = Err "approximate_ksi failed to converge"%string) \/
  ((forall j, (j < n)%nat -> row_max (nth j (p_xxt p) []) <> row_min (nth j (p_xxt p) [])) /\
   foldM f (seq 0 n) [] = Ok (map (fun j => kmin_of (p_kind p) + kdel_of (p_kind p) *
      (nth j x 0 - row_min (nth j (p_xxt p) [])) / (row_max (nth j (p_xxt p) []) - row_min (nth j (p_xxt p) []))) (seq 0 n))).
Proof.
  intros W Lx Hn f. induction n as [|n IH].
  - right. split; [intros; lia|reflexivity].
  - destruct (IH ltac:(lia)) as [((j & Hj & Ej) & E)|(N & E)].
    + left. split; [exists j; split; [lia|auto]|]. rewrite seq_S, foldM_app, E. reflexivity.
    + rewrite seq_S, foldM_app, E. cbn [bind foldM]. rewrite Nat.add_0_l. unfold f.
      rewrite (get_ok _ _ []) by (destruct W as (_ & _ & -> & _); lia). cbn [bind].
      rewrite (get_ok _ _ 0) by lia. cbn [bind].
      destruct (Req_EM_T _ _) as [Q|Q].
      * left. split; [exists n; split; [lia|exact Q]|reflexivity].
      * right. split.
        { intros j Hj. destruct (Nat.eq_dec j n) as [->|]; auto. apply N. lia. }
        cbn [bind]. rewrite map_app. reflexivity.
Qed.

Lemma guess_spec p x : pad_wf p -> List.length x = p_space p ->
  (exists z, guess p x = Ok z /\ first_guess p x z) \/
  (guess p x = Err "approximate_ksi failed to converge"%string /\
   exists j v, (j < p_space p)%nat /\ forall m, (m < kind_nnode (p_kind p))%nat -> node_x p j m = v).
Proof.
  intros W Lx.
  assert (EG : guess p x = foldM (fun (ksi : list R) j =>
      let! row := get (p_xxt p) j in
      let! xj := get x j in
      if Req_EM_T (row_max row) (row_min row) then Err "approximate_ksi failed to converge"%string
      else Ok (ksi ++ [kmin_of (p_kind p) + kdel_of (p_kind p) * (xj - row_min row) / (row_max row - row_min row)])%list)
      (seq 0 (p_space p)) []).
  { unfold guess, kmin_of, kdel_of. destruct (is_tri_or_tet (p_kind p)); reflexivity. }
  rewrite EG. clear EG.
  destruct (guess_fold p x (p_space p) W Lx (le_n _)) as [((j & Hj & Ej) & E)|(N & E)]; rewrite E.
  - right. split; auto. exists j, (row_min (nth j (p_xxt p) [])). split; auto. intros m Hm.
    pose proof (row_min_spec _ (row_nonempty p j W Hj)) as (_ & A).
    pose proof (row_max_spec _ (row_nonempty p j W Hj)) as (_ & B).
    assert (I : In (node_x p j m) (nth j (p_xxt p) [])) by (apply nth_In; rewrite wf_row; auto).
    specialize (A _ I). specialize (B _ I). rewrite Ej in B. apply Rle_antisym; auto.
  - left. eexists. split; [reflexivity|]. split; [now rewrite map_length, seq_length|].
    intros j Hj. exists (row_min (nth j (p_xxt p) [])), (row_max (nth j (p_xxt p) [])).
    pose proof (row_min_spec _ (row_nonempty p j W Hj)) as (A1 & A2).
    pose proof (row_max_spec _ (row_nonempty p j W Hj)) as (B1 & B2).
    split; [split; [now apply node_coord_row|intros y Hy; apply A2; now apply (node_coord_row p j y W Hj)]|].
    split; [split; [now apply node_coord_row|intros y Hy; apply B2; now apply (node_coord_row p j y W Hj)]|].
    split. { specialize (B2 _ A1). specialize (N j Hj). lra. }
    rewrite nth_map_seq by auto. unfold kmin_of, kdel_of. specialize (N j Hj).
    destruct (is_tri_or_tet (p_kind p)); field; lra.
Qed.

Lemma approximate_ksi_post zdet p nk x nit tol it ksi q : 0 <= zdet -> pad_wf p ->
  approximate_ksi zdet p nk x nit tol = Ok (it, ksi, q) ->
  (it < nit)%nat /\ List.length ksi = nk /\ residual p ksi x <= tol /\ same_element p q /\
  exists z : nat -> list R, first_guess p x (z 0%nat) /\ z it = ksi /\
    forall s, (s < it)%nat -> tol < residual p (z s) x /\ newton_step p x (z s) (z (S s)).
Proof.
  intros Hz W. unfold approximate_ksi, p_geo.
  destruct (Nat.eqb_spec (kind_ndim (p_kind p)) (p_space p)) as [E|]; [|discriminate]. cbn [negb].
  destruct (Nat.eqb_spec (List.length x) (p_space p)) as [Lx|]; [|discriminate]. cbn [negb].
  destruct (Nat.eqb_spec nk (kind_ndim (p_kind p))) as [->|]; [|discriminate]. cbn [negb].
  destruct (guess_spec p x W Lx) as [(z0 & Ez & G)|(Ez & _)]; rewrite Ez; [|discriminate]. cbn [bind].
  intros H.
  destruct (p_ok p) eqn:O.
  - destruct (newton_post zdet x tol Hz nit 0 p z0 it ksi q) as (z & Z0 & Z1 & R1 & R2 & R3 & R4 & R5); auto.
    { apply G. }
    rewrite Nat.sub_0_r in *. split; [lia|]. split; [lia|]. split; auto. split; auto.
    exists z. rewrite Z0. auto.
  - destruct nit; [discriminate|]. simpl in H. rewrite pad_coords_unset in H by auto. discriminate.
Qed.

(** Affine elements: one step is enough *)
Lemma affine_pos p a b : pad_wf p -> affine_pad p a b -> forall ksi i,
  List.length ksi = kind_ndim (p_kind p) -> (i < p_space p)%nat ->
  pos p ksi i = b i + sum_n (kind_ndim (p_kind p)) (fun j => a i j * nth j ksi 0).
Proof.
  intros W A ksi i L Hi. set (al := map (a i) (seq 0 (kind_ndim (p_kind p)))).
  assert (La : List.length al = kind_ndim (p_kind p)) by (unfold al; now rewrite map_length, seq_length).
  pose proof (affine_reproduction (p_kind p) (b i) al ksi La L) as R.
  rewrite (affine_sum_n al ksi _ La L) in R.
  rewrite (sum_n_ext _ (fun j => a i j * _) (fun j => nth j al 0 * nth j ksi 0)).
  2:{ intros j Hj. unfold al. now rewrite nth_map_seq. }
  rewrite <- R. rewrite (dot_sum_n _ _ (kind_nnode (p_kind p))); [|apply calc_interp_length|now rewrite map_length, seq_length].
  unfold pos. apply sum_n_ext. intros m Hm. f_equal. rewrite nth_map_seq by auto. rewrite A by auto. f_equal.
  rewrite (affine_sum_n al _ (kind_ndim (p_kind p))); auto; [|now apply ref_coords_length].
  apply sum_n_ext. intros j Hj. unfold al. now rewrite nth_map_seq.
Qed.

Lemma set_coord_length ksi : forall j t, List.length (set_coord ksi j t) = List.length ksi.
Proof. induction ksi as [|c ksi IH]; intros [|j] t; simpl; auto. Qed.

Lemma affine_jacobian p a b ksi : pad_wf p -> affine_pad p a b -> List.length ksi = kind_ndim (p_kind p) ->
  jacobian_of p ksi a.
Proof.
  intros W A L i j Hi Hj. unfold partial.
  apply (dlim_ext (fun t => b i + sum_n (kind_ndim (p_kind p)) (fun l => a i l * nth l (set_coord ksi j t) 0))).
  { intros t. symmetry. apply affine_pos; auto. now rewrite set_coord_length. }
  replace (a i j) with (0 + sum_n (kind_ndim (p_kind p)) (fun l => a i l * delta j l)).
  2:{ rewrite (sum_n_ext _ _ (fun l => delta j l * a i l)) by (intros; ring). rewrite sum_n_delta by auto. ring. }
  apply (derivable_pt_lim_plus (fun _ => b i)); [apply derivable_pt_lim_const|].
  apply dlim_sum_n. intros l Hl. rewrite (Rmult_comm (a i l)).
  apply (dlim_ext (fun t => nth l (set_coord ksi j t) 0 * a i l)); [intros; ring|]. apply dlim_scal.
  destruct (coord_curve (kind_ndim (p_kind p)) ksi j ltac:(lia) ltac:(lia)) as (_ & C). now apply C.
Qed.

(* a coordinate that is the same at all nodes makes the determinant vanish *)
Lemma const_coord_det p a j v : pad_wf p -> kind_ndim (p_kind p) = p_space p -> (j < p_space p)%nat ->
  (forall m, (m < kind_nnode (p_kind p))%nat -> node_x p j m = v) ->
  forall ksi, List.length ksi = kind_ndim (p_kind p) -> jacobian_of p ksi a -> det (p_space p) a = 0.
Proof.
  intros W E Hj H ksi L J.
  assert (Z : forall l, (l < p_space p)%nat -> a j l = 0).
  { intros l Hl. eapply (partial_unique (fun z => pos p z j) ksi l); [apply J; auto; lia|].
    unfold partial. apply (dlim_ext (fun _ => v)); [|apply derivable_pt_lim_const].
    intros t. unfold pos. rewrite (sum_n_ext _ _ (fun m => nth m (calc_interp (p_kind p) (set_coord ksi l t)) 0 * v)).
    - rewrite sum_n_scal_r. 
      pose proof (interp_sum (p_kind p) (set_coord ksi l t)) as P.
      assert (Q : forall u, sum u = sum_n (List.length u) (fun m => nth m u 0)).
      { induction u as [|c u IH]; simpl; auto. rewrite sum_n_head. simpl. now rewrite IH. }
      rewrite Q, calc_interp_length in P. rewrite P. ring.
    - intros m Hm. now rewrite H. }
  destruct W as ([S|S] & _); rewrite S in *; simpl.
  - destruct j as [|[|j]]; [| |lia]; rewrite (Z 0%nat), (Z 1%nat) by lia; ring.
  - destruct j as [|[|[|j]]]; [| | |lia]; rewrite (Z 0%nat), (Z 1%nat), (Z 2%nat) by lia; ring.
Qed.

Lemma affine_step p a b x z z' : pad_wf p -> affine_pad p a b -> kind_ndim (p_kind p) = p_space p ->
  List.length z = p_space p -> newton_step p x z z' ->
  forall i, (i < p_space p)%nat -> pos p z' i = nth i x 0.
Proof.
  intros W A E L (c & J & D & L' & H) i Hi.
  rewrite (affine_pos p a b W A) by (auto; lia). specialize (H i Hi).
  rewrite (affine_pos p a b W A z) in H by (auto; lia).
  rewrite (sum_n_ext _ _ (fun j => a i j * nth j z' 0 + (-1) * (a i j * nth j z 0))) in H.
  - rewrite sum_n_plus, sum_n_scal in H. rewrite E in *. lra.
  - intros j Hj. rewrite (jacobian_unique p z c a i j J); auto; [ring| |lia].
    apply (affine_jacobian p a b); auto. lia.
Qed.

Lemma approximate_ksi_affine zdet p a b x nit tol : 0 <= zdet -> pad_wf p -> p_ok p = true ->
  kind_ndim (p_kind p) = p_space p -> affine_pad p a b -> zdet < Rabs (det (p_space p) a) ->
  List.length x = p_space p -> (2 <= nit)%nat -> 0 <= tol ->
  exists it ksi q, approximate_ksi zdet p (p_space p) x nit tol = Ok (it, ksi, q) /\ (it <= 1)%nat.
Proof.
  intros Hz W O E A D Lx Hn Ht. unfold approximate_ksi, p_geo.
  rewrite E, Lx, !Nat.eqb_refl. cbn [negb].
  destruct (guess_spec p x W Lx) as [(z0 & Ez & G)|(Ez & j & v & Hj & Hv)].
  - rewrite Ez. cbn [bind]. destruct nit as [|[|n]]; try lia. destruct G as (Lz & _).
    destruct (newton_iter zdet (S n) 0 p z0 x tol Hz W O E Lz Lx) as [(T & r & Sr & Er)|(T & [(k1 & r & St & Sr & Er)|(c & J & Dc & Er)])];
      rewrite Er.
    + eexists _, _, _. split; [reflexivity|lia].
    + pose proof (affine_step p a b x z0 k1 W A E Lz St) as P.
      destruct St as (_ & _ & _ & L1 & _). assert (Sr' := Sr). destruct Sr' as (K1 & K2 & K3 & K4).
      destruct (newton_iter zdet n 1 r k1 x tol Hz (same_wf _ _ Sr W) ltac:(congruence) ltac:(congruence) ltac:(congruence) ltac:(congruence))
        as [(T1 & r1 & Sr1 & Er1)|(T1 & _)].
      * rewrite Er1. eexists _, _, _. split; [reflexivity|lia].
      * exfalso. rewrite (same_residual p r) in T1 by auto. unfold residual in T1.
        rewrite sum_n_zero, sqrt_0 in T1; [lra|]. intros i Hi. rewrite P by auto. ring.
    + exfalso. rewrite (det_ext _ c a) in Dc; [lra|]. intros i l Hi Hl.
      apply (jacobian_unique p z0); auto; [|lia]. apply (affine_jacobian p a b); auto. lia.
  - exfalso. set (k0 := repeat 0 (kind_ndim (p_kind p))).
    assert (L0 : List.length k0 = kind_ndim (p_kind p)) by apply repeat_length.
    rewrite (const_coord_det p a j v W E Hj Hv k0 L0) in D; [rewrite Rabs_R0 in D; lra|].
    apply (affine_jacobian p a b); auto.
Qed.
