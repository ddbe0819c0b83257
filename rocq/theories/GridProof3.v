(* Constructing grids; instances of the searches. *)
From Coq Require Import String List Arith Bool Reals ZArith Lra Lia Permutation.
From Verif Require Import Base BaseFacts TopoModel TopoMaps GeomModel GeomSpec GeomProof GridModel GridSpec GridProof GridProof2.
Import ListNotations.
Open Scope R_scope.

(* ---- divisions ---- *)
Lemma longest_spec delta ndim : List.length delta = ndim -> (1 <= ndim)%nat ->
  exists L, longest delta ndim = Ok (L, nth L delta 0) /\ (L < ndim)%nat /\ forall i, (i < ndim)%nat -> nth i delta 0 <= nth L delta 0.
Proof.
  intros E N. unfold longest. rewrite (get_ok delta 0 0) by lia. cbn [bind].
  assert (K : forall n, (n < ndim)%nat -> exists L, foldM (fun (st : nat * R) i =>
    let! di := get delta i in
    if Rltb (snd st) di then Ok (i, di) else Ok st) (seq 1 n) (0%nat, nth 0 delta 0) = Ok (L, nth L delta 0) /\ (L <= n)%nat /\ forall i, (i <= n)%nat -> nth i delta 0 <= nth L delta 0).
  { induction n as [|n IH]; intros Hn.
    - exists 0%nat. split; [reflexivity|]. split; [lia|]. intros i Hi. replace i with 0%nat by lia. lra.
    - destruct IH as (L & EL & HL & M); [lia|]. rewrite seq_S, foldM_app, EL. cbn [bind foldM fst snd]. change (1 + n)%nat with (S n). rewrite (get_ok delta (S n) 0) by lia. cbn [bind].
      destruct (Rltb (nth L delta 0) (nth (S n) delta 0)) eqn:T; cbn [bind].
      + apply Rltb_iff in T. exists (S n). split; [reflexivity|]. split; [lia|]. intros i Hi. destruct (Nat.eq_dec i (S n)) as [->|D]; [lra|].
        specialize (M i ltac:(lia)). lra.
      + apply Rltb_false in T. exists L. split; [reflexivity|]. split; [lia|]. intros i Hi. destruct (Nat.eq_dec i (S n)) as [->|D]; [auto|]. apply M. lia. }
  destruct (K (ndim - 1)%nat) as (L & EL & HL & M); [lia|]. exists L. split; [exact EL|]. split; [lia|]. intros i Hi. apply M. lia.
Qed.
Lemma delta_nth xmin xmax i : List.length xmin = List.length xmax -> (i < List.length xmin)%nat ->
  nth i (map (fun ab : R * R => snd ab - fst ab) (combine xmin xmax)) 0 = nth i xmax 0 - nth i xmin 0.
Proof.
  intros E H. erewrite nth_indep by (rewrite map_length, combine_length, <- E, Nat.min_id; exact H).
  rewrite (map_nth (fun ab : R * R => snd ab - fst ab) _ (0, 0)). rewrite combine_nth by auto. reflexivity.
Qed.
Lemma fill_spec (f : nat -> nat) n : foldM (fun (l : list nat) i => set l i (f i)) (seq 0 n) (repeat 0%nat n) = Ok (map f (seq 0 n)).
Proof.
  assert (K : forall k, (k <= n)%nat -> foldM (fun (l : list nat) i => set l i (f i)) (seq 0 k) (repeat 0%nat n) = Ok (map f (seq 0 k) ++ repeat 0%nat (n - k))).
  { induction k as [|k IH]; intros Hk; [rewrite Nat.sub_0_r; reflexivity|].
    rewrite seq_S, foldM_app, IH by lia. cbn [bind foldM plus]. rewrite set_ok by (rewrite app_length, map_length, seq_length, repeat_length; lia). cbn [bind]. f_equal.
    replace (n - k)%nat with (S (n - S k)) by lia. cbn [repeat].
    assert (U : forall (a b : list nat) x y, upd (a ++ x :: b) (List.length a) y = a ++ y :: b) by (induction a as [|z a IHa]; intros; simpl; [auto|rewrite IHa; auto]).
    replace k with (List.length (map f (seq 0 k))) at 3 by (rewrite map_length, seq_length; auto). rewrite U, map_app, <- app_assoc. reflexivity. }
  rewrite K by lia. rewrite Nat.sub_diag, app_nil_r. reflexivity.
Qed.
Lemma foldM_ext {A S} (f g : S -> A -> res S) l : forall s, (forall a s', In a l -> f s' a = g s' a) -> foldM f l s = foldM g l s.
Proof. induction l as [|a l IH]; intros s H; [reflexivity|]. simpl. rewrite H by (left; auto). destruct (g s a); simpl; auto. apply IH. intros. apply H. right. auto. Qed.

Definition chosen (m l L : nat) (xmin xmax : list R) (i : nat) : nat :=
  if (i =? L)%nat then l else Nat.max m (as_usize ((nth i xmax 0 - nth i xmin 0) / (nth L xmax 0 - nth L xmin 0) * INR l)).
Lemma num_div_ok m l xmin xmax : (1 <= m)%nat -> (m < l)%nat -> List.length xmin = List.length xmax -> (2 <= List.length xmin)%nat ->
  (forall i, (i < List.length xmin)%nat -> nth i xmin 0 < nth i xmax 0) ->
  exists L, (L < List.length xmin)%nat /\ (forall i, (i < List.length xmin)%nat -> nth i xmax 0 - nth i xmin 0 <= nth L xmax 0 - nth L xmin 0) /\
    num_divisions m l xmin xmax = Ok (map (chosen m l L xmin xmax) (seq 0 (List.length xmin))).
Proof.
  intros Hm Hl E N P. set (n := List.length xmin) in *.
  set (delta := map (fun ab : R * R => snd ab - fst ab) (combine xmin xmax)).
  assert (LD : List.length delta = n) by (unfold delta; rewrite map_length, combine_length, <- E; apply Nat.min_id).
  destruct (longest_spec delta n LD ltac:(lia)) as (L & EL & HL & M). exists L. split; [auto|].
  assert (DN : forall i, (i < n)%nat -> nth i delta 0 = nth i xmax 0 - nth i xmin 0) by (intros; apply delta_nth; auto).
  split; [intros i Hi; rewrite <- !DN by auto; auto|].
  unfold num_divisions. fold n. fold delta. rewrite <- E. fold n. rewrite Nat.eqb_refl. cbn [negb].
  rewrite (proj2 (Nat.ltb_ge m 1)) by lia. rewrite (proj2 (Nat.leb_gt l m)) by lia. rewrite (proj2 (Nat.ltb_ge n 2)) by lia.
  rewrite EL. cbn [bind]. rewrite <- fill_spec. apply foldM_ext. intros i s Hi. apply in_seq in Hi. rewrite (get_ok delta i 0) by lia. cbn [bind].
  rewrite !DN by lia. destruct (Rleb (nth i xmax 0 - nth i xmin 0) 0) eqn:T.
  - apply Rleb_iff in T. specialize (P i ltac:(lia)). lra.
  - unfold chosen. destruct (i =? L)%nat; reflexivity.
Qed.
Lemma num_div_inv m l xmin xmax ndiv : num_divisions m l xmin xmax = Ok ndiv ->
  (1 <= m)%nat /\ (m < l)%nat /\ List.length xmin = List.length xmax /\ (2 <= List.length xmin)%nat /\
  (forall i, (i < List.length xmin)%nat -> nth i xmin 0 < nth i xmax 0).
Proof.
  unfold num_divisions. destruct (Nat.ltb_spec m 1); [discriminate|]. destruct (Nat.leb_spec l m); [discriminate|].
  destruct (List.length xmin =? List.length xmax)%nat eqn:E; [|discriminate]. apply Nat.eqb_eq in E. cbn [negb].
  destruct (Nat.ltb_spec (List.length xmin) 2); [discriminate|]. intros F. repeat split; try lia.
  intros i Hi. apply bind_ok in F as ((L, dl) & _ & F).
  destruct (Rle_dec (nth i xmax 0 - nth i xmin 0) 0) as [D|D]; [|lra]. exfalso.
  replace (List.length xmin) with (i + (1 + (List.length xmin - i - 1)))%nat in F at 1 by lia. rewrite seq_app, foldM_app in F. apply bind_ok in F as (s & _ & F).
  replace (0 + i)%nat with i in F by lia. cbn [plus seq foldM] in F.
  rewrite (get_ok _ i 0) in F by (rewrite map_length, combine_length, <- E, Nat.min_id; auto). cbn [bind] in F. rewrite delta_nth in F by auto.
  rewrite (proj2 (Rleb_iff _ _) D) in F. discriminate.
Qed.
Lemma num_div_no_panic m l xmin xmax : (exists ndiv, num_divisions m l xmin xmax = Ok ndiv) \/ exists msg, num_divisions m l xmin xmax = Err msg.
Proof.
  unfold num_divisions. destruct (m <? 1)%nat; [right; eexists; reflexivity|]. destruct (l <=? m)%nat; [right; eexists; reflexivity|].
  destruct (List.length xmin =? List.length xmax)%nat eqn:E; [|right; eexists; reflexivity]. apply Nat.eqb_eq in E. cbn [negb].
  destruct (Nat.ltb_spec (List.length xmin) 2); [right; eexists; reflexivity|].
  set (delta := map (fun ab : R * R => snd ab - fst ab) (combine xmin xmax)).
  assert (LD : List.length delta = List.length xmin) by (unfold delta; rewrite map_length, combine_length, <- E; apply Nat.min_id).
  destruct (longest_spec delta (List.length xmin) LD ltac:(lia)) as (L & EL & _). rewrite EL. cbn [bind].
  set (n := List.length xmin) in *.
  assert (K : forall is s, (forall i, In i is -> (i < n)%nat) -> List.length s = n ->
    (exists r, foldM (fun (ndiv : list nat) i =>
        let! di := get delta i in
        if Rleb di 0 then Err "xmax must be greater than xmin"%string
        else if (i =? L)%nat then set ndiv i l
        else set ndiv i (Nat.max m (as_usize (di / nth L delta 0 * INR l)))) is s = Ok r) \/
    exists msg, foldM (fun (ndiv : list nat) i =>
        let! di := get delta i in
        if Rleb di 0 then Err "xmax must be greater than xmin"%string
        else if (i =? L)%nat then set ndiv i l
        else set ndiv i (Nat.max m (as_usize (di / nth L delta 0 * INR l)))) is s = Err msg).
  { induction is as [|i is IH]; intros s Hi Hs; [left; eexists; reflexivity|]. cbn [foldM]. rewrite (get_ok delta i 0) by (rewrite LD; apply Hi; left; auto). cbn [bind].
    destruct (Rleb (nth i delta 0) 0); [right; eexists; reflexivity|]. assert (B : (i < n)%nat) by (apply Hi; left; auto).
    destruct (i =? L)%nat; rewrite set_ok by lia; cbn [bind]; (apply IH; [intros; apply Hi; right; auto|rewrite upd_length; auto]). }
  apply K; [intros i Hi; apply in_seq in Hi; lia|apply repeat_length].
Qed.

Lemma as_usize_ratio r : 0 <= r -> INR (as_usize r) <= r < INR (as_usize r) + 1.
Proof. intros H. exact (as_usize_spec r H). Qed.
Lemma chosen_bounds m l L xmin xmax i : (1 <= m)%nat -> (m < l)%nat -> 0 < nth i xmax 0 - nth i xmin 0 <= nth L xmax 0 - nth L xmin 0 ->
  (m <= chosen m l L xmin xmax i <= l)%nat.
Proof.
  intros Hm Hl (P & Q). unfold chosen. destruct (i =? L)%nat; [lia|]. split; [lia|]. apply Nat.max_lub; [lia|].
  set (q := (nth i xmax 0 - nth i xmin 0) / (nth L xmax 0 - nth L xmin 0)). assert (Q1 : q <= 1) by (unfold q; apply Rmult_le_reg_r with (nth L xmax 0 - nth L xmin 0); [lra|]; unfold Rdiv; rewrite Rmult_assoc, Rinv_l; lra).
  assert (Q0 : 0 <= q) by (unfold q; apply Rlt_le, Rdiv_lt_0_compat; lra). pose proof (pos_INR l).
  destruct (as_usize_ratio (q * INR l)) as (A & _); [nra|]. apply INR_le. nra.
Qed.
Lemma chosen_width m l L xmin xmax i : (1 <= m)%nat -> (m < l)%nat -> 0 < nth i xmax 0 - nth i xmin 0 <= nth L xmax 0 - nth L xmin 0 ->
  let w := (nth L xmax 0 - nth L xmin 0) / INR l in
  (nth i xmax 0 - nth i xmin 0) < (INR (chosen m l L xmin xmax i) + 1) * w /\
  (chosen m l L xmin xmax i = m \/ INR (chosen m l L xmin xmax i) * w <= nth i xmax 0 - nth i xmin 0).
Proof.
  intros Hm Hl (P & Q) w. set (dl := nth L xmax 0 - nth L xmin 0) in *. set (di := nth i xmax 0 - nth i xmin 0) in *.
  assert (Il : 0 < INR l) by (apply lt_0_INR; lia). assert (W0 : 0 < w) by (unfold w; apply Rdiv_lt_0_compat; lra).
  assert (EW : dl = INR l * w) by (unfold w; field; lra).
  unfold chosen. destruct (Nat.eqb_spec i L) as [->|D]; [fold dl in di; unfold di in *; split; [nra|right; lra]|]. fold di. fold dl.
  assert (QE : di / dl * INR l = di / w) by (rewrite EW; field; split; nra).
  rewrite QE. destruct (as_usize_ratio (di / w)) as (A & B); [apply Rlt_le, Rdiv_lt_0_compat; lra|].
  assert (A' : INR (as_usize (di / w)) * w <= di). { apply Rmult_le_compat_r with (r := w) in A; [|lra]. unfold Rdiv in A at 2. rewrite Rmult_assoc, Rinv_l in A by lra. lra. }
  assert (B' : di < (INR (as_usize (di / w)) + 1) * w). { apply Rmult_lt_compat_r with (r := w) in B; [|lra]. unfold Rdiv in B at 1. rewrite Rmult_assoc, Rinv_l in B by lra. lra. }
  destruct (Nat.max_spec m (as_usize (di / w))) as [(X & ->)|(X & ->)].
  - split; [auto|]. right. auto.
  - split; [|left; auto]. apply le_INR in X. nra.
Qed.

(* ---- side length ---- *)
Lemma side_of_spec xmin xmax ndiv n : List.length xmin = n -> List.length xmax = n -> List.length ndiv = n -> (2 <= n)%nat ->
  exists s, side_of xmin xmax ndiv n = Ok s /\ (forall i, (i < n)%nat -> (nth i xmax 0 - nth i xmin 0) / INR (nth i ndiv 0%nat) <= s) /\
    exists i, (i < n)%nat /\ s = (nth i xmax 0 - nth i xmin 0) / INR (nth i ndiv 0%nat).
Proof.
  intros A B C N. unfold side_of. rewrite (get_ok xmin 0 0), (get_ok xmax 0 0), (get_ok ndiv 0 0%nat) by lia. cbn [bind].
  set (w := fun i => (nth i xmax 0 - nth i xmin 0) / INR (nth i ndiv 0%nat)).
  assert (K : forall k, (k < n)%nat -> exists s, foldM (fun (s : R) i =>
    let! a := get xmin i in let! b := get xmax i in let! n := get ndiv i in
    Ok (Rmax s ((b - a) / INR n))) (seq 1 k) (w 0%nat) = Ok s /\ (forall i, (i <= k)%nat -> w i <= s) /\ exists i, (i <= k)%nat /\ s = w i).
  { induction k as [|k IH]; intros Hk.
    - exists (w 0%nat). split; [reflexivity|]. split; [|exists 0%nat; auto]. intros i Hi. replace i with 0%nat by lia. lra.
    - destruct IH as (s & E & M & i0 & Hi0 & E0); [lia|]. rewrite seq_S, foldM_app, E. cbn [bind foldM]. rewrite (get_ok xmin (1 + k) 0), (get_ok xmax (1 + k) 0), (get_ok ndiv (1 + k) 0%nat) by lia. cbn [bind].
      exists (Rmax s (w (S k))). split; [reflexivity|]. split.
      + intros i Hi. destruct (Nat.eq_dec i (S k)) as [->|D]; [apply Rmax_r|]. eapply Rle_trans; [apply M; lia|apply Rmax_l].
      + destruct (Rle_dec s (w (S k))); [rewrite Rmax_right by auto; exists (S k); auto|rewrite Rmax_left by lra; exists i0; split; [lia|auto]]. }
  destruct (K (n - 1)%nat) as (s & E & M & i0 & Hi0 & E0); [lia|]. exists s. split; [exact E|]. split; [intros i Hi; apply (M i); lia|]. exists i0. split; [lia|auto].
Qed.

(* ---- grid_new ---- *)
Definition the_tol (t : option R) : R := match t with Some v => v | None => GS_DEFAULT_TOLERANCE end.
Definition the_border (t : option R) : R := match t with Some v => v | None => GS_DEFAULT_BORDER_TOL end.
Definition the_ndiv (n : option nat) : nat := match n with Some v => v | None => GS_DEFAULT_NDIV end.

Lemma shift_min b xmin : 0 <= b -> (if Rltb 0 b then map (fun x => x - b) xmin else xmin) = map (fun x => x - b) xmin.
Proof.
  intros H. destruct (Rltb 0 b) eqn:E; auto. apply Rltb_false in E. replace b with 0 by lra. rewrite <- (map_id xmin) at 1. apply map_ext. intros. lra.
Qed.
Lemma shift_max b xmin : 0 <= b -> (if Rltb 0 b then map (fun x => x + b) xmin else xmin) = map (fun x => x + b) xmin.
Proof.
  intros H. destruct (Rltb 0 b) eqn:E; auto. apply Rltb_false in E. replace b with 0 by lra. rewrite <- (map_id xmin) at 1. apply map_ext. intros. lra.
Qed.
Lemma nth_map0 (f : R -> R) l i : (i < List.length l)%nat -> nth i (map f l) 0 = f (nth i l 0).
Proof. intros H. erewrite nth_indep by (rewrite map_length; exact H). apply map_nth. Qed.
Lemma xmax_nth' (s : R) xs (ns : list nat) i : List.length xs = List.length ns -> (i < List.length xs)%nat ->
  nth i (map (fun an : R * nat => fst an + s * INR (snd an)) (combine xs ns)) 0 = nth i xs 0 + s * INR (nth i ns 0%nat).
Proof.
  intros E H. erewrite nth_indep by (rewrite map_length, combine_length, <- E, Nat.min_id; exact H).
  rewrite (map_nth (fun an : R * nat => fst an + s * INR (snd an)) _ (0, 0%nat)). rewrite combine_nth by auto. reflexivity.
Qed.
Lemma sqrtI (n : nat) (a b : R) : n = 2%nat \/ n = 3%nat -> (if (n =? 2)%nat then sqrt 2 * a else sqrt 3 * a) = sqrt (INR n) * a.
Proof. intros [->| ->]; simpl; do 2 f_equal; lra. Qed.
Lemma sqrtI2 (n : nat) (a : R) : n = 2%nat \/ n = 3%nat -> (if (n =? 2)%nat then sqrt 2 * a / 2 else sqrt 3 * a / 2) = sqrt (INR n) * a / 2.
Proof. intros [->| ->]; simpl; do 3 f_equal; lra. Qed.

Lemma new_spec xmin xmax nd tol btol : let n := List.length xmin in
  (n = 2 \/ n = 3)%nat -> List.length xmax = n -> (2 <= the_ndiv nd)%nat -> (forall i, (i < n)%nat -> nth i xmin 0 < nth i xmax 0) ->
  0 < the_tol tol -> 0 <= the_border btol ->
  exists s ndiv, List.length ndiv = n /\ (forall i, (i < n)%nat -> (1 <= nth i ndiv 0 <= the_ndiv nd)%nat) /\
    (forall i, (i < n)%nat -> (nth i xmax 0 - nth i xmin 0 + 2 * the_border btol) <= s * INR (nth i ndiv 0%nat)) /\
    (s <= 2 * the_tol tol -> exists m, grid_new xmin xmax nd tol btol = Err m) /\
    (2 * the_tol tol < s -> exists g, grid_new xmin xmax nd tol btol = Ok g /\ wf g /\ g_containers g = [] /\ g_ndim g = n /\ g_tol g = the_tol tol /\
      g_xmin g = map (fun x => x - the_border btol) xmin /\ g_side g = s /\ g_ndiv g = ndiv).
Proof.
  intros n Hn Lx Hnd HP Ht Hb. destruct (num_div_ok 1 (the_ndiv nd) xmin xmax) as (L & HL & HM & E); auto; try (fold n; lia).
  set (ndiv := map (chosen 1 (the_ndiv nd) L xmin xmax) (seq 0 (List.length xmin))) in *.
  assert (LN : List.length ndiv = n) by (unfold ndiv; rewrite map_length, seq_length; auto).
  assert (NB : forall i, (i < n)%nat -> (1 <= nth i ndiv 0 <= the_ndiv nd)%nat).
  { intros i Hi. unfold ndiv. erewrite nth_indep by (rewrite map_length, seq_length; exact Hi). rewrite (map_nth _ _ 0%nat), seq_nth by auto. cbn [plus].
    apply chosen_bounds; [lia|lia|]. specialize (HP i Hi). specialize (HM i Hi). lra. }
  set (b := the_border btol) in *.
  destruct (side_of_spec (map (fun x => x - b) xmin) (map (fun x => x + b) xmax) ndiv n) as (s & Es & Ms & _); [rewrite map_length; auto|rewrite map_length; auto|auto|lia|].
  exists s, ndiv. split; [auto|]. split; [auto|]. split.
  { intros i Hi. specialize (Ms i Hi). rewrite !nth_map0 in Ms by (fold n; lia). destruct (NB i Hi) as (N1 & _). apply le_INR in N1. simpl in N1.
    apply Rmult_le_compat_r with (r := INR (nth i ndiv 0%nat)) in Ms; [|lra]. unfold Rdiv in Ms. rewrite Rmult_assoc, Rinv_l in Ms by lra. lra. }
  assert (G : grid_new xmin xmax nd tol btol = if Rleb s (2 * the_tol tol) then Err "(xmax-xmin)/ndiv must be > 2 tolerance; reduce the tolerance (or ndiv)"%string
     else Ok (mkGrid n ndiv (map (fun x => x - b) xmin) (map (fun an => fst an + s * INR (snd an)) (combine (map (fun x => x - b) xmin) ndiv))
        [1; nth 0 ndiv 0; nth 0 ndiv 0 * nth 1 ndiv 0]%nat s (the_tol tol) (sqrt (INR n) * the_tol tol) (sqrt (INR n) * s / 2) [])).
  { unfold grid_new. fold n. replace (((n <? 2) || (3 <? n))%nat) with false by (destruct Hn as [->| ->]; reflexivity).
    rewrite Lx, Nat.eqb_refl. cbn [negb]. fold (the_ndiv nd). rewrite (proj2 (Nat.ltb_ge (the_ndiv nd) 1)) by lia. rewrite E. cbn [bind].
    rewrite (get_ok ndiv 0 0%nat), (get_ok ndiv 1 0%nat) by lia. cbn [bind]. fold (the_tol tol).
    rewrite (proj2 (Rleb_false _ _)) by lra. fold (the_border btol). fold b. rewrite (proj2 (Rltb_false _ _)) by lra.
    rewrite shift_min, shift_max by auto. rewrite Es. cbn [bind]. rewrite (sqrtI n) by auto. rewrite (sqrtI2 n) by auto. reflexivity. }
  rewrite G. split.
  - intros H. apply (proj2 (Rleb_iff _ _)) in H. rewrite H. eauto.
  - intros H. pose proof H as H'. apply (proj2 (Rleb_false _ _)) in H. rewrite H. eexists. split; [reflexivity|]. split; [|repeat split].
    constructor; cbn; auto.
    + intros i Hi. apply NB. auto.
    + rewrite map_length. auto.
    + constructor.
    + intros k c [].
Qed.
Lemma new_inv xmin xmax nd tol btol g : let n := List.length xmin in grid_new xmin xmax nd tol btol = Ok g ->
  (n = 2 \/ n = 3)%nat /\ List.length xmax = n /\ (2 <= the_ndiv nd)%nat /\ (forall i, (i < n)%nat -> nth i xmin 0 < nth i xmax 0) /\
  0 < the_tol tol /\ 0 <= the_border btol.
Proof.
  intros n. unfold grid_new. fold n. destruct (((n <? 2) || (3 <? n))%nat) eqn:E; [discriminate|]. apply orb_false_iff in E as (E1 & E2).
  apply Nat.ltb_ge in E1. apply Nat.ltb_ge in E2. destruct (List.length xmax =? n)%nat eqn:E; [|discriminate]. apply Nat.eqb_eq in E. cbn [negb].
  fold (the_ndiv nd). destruct (the_ndiv nd <? 1)%nat; [discriminate|]. intros H. apply bind_ok in H as (ndiv & D & H).
  apply num_div_inv in D as (D1 & D2 & D3 & D4 & D5). apply bind_ok in H as (n0 & _ & H). apply bind_ok in H as (n1 & _ & H).
  fold (the_tol tol) in H. destruct (Rleb (the_tol tol) 0) eqn:T; [discriminate|]. apply Rleb_false in T.
  fold (the_border btol) in H. destruct (Rltb (the_border btol) 0) eqn:B; [discriminate|]. apply Rltb_false in B.
  split; [lia|]. split; [auto|]. split; [lia|]. split; [auto|]. split; lra.
Qed.
Lemma new_ok xmin xmax nd tol btol g : let n := List.length xmin in grid_new xmin xmax nd tol btol = Ok g ->
  wf g /\ g_containers g = [] /\ g_ndim g = n /\ g_tol g = the_tol tol /\
  (forall x, in_box (map (fun v => v - the_border btol) xmin) (map (fun v => v + the_border btol) xmax) x -> inside g x).
Proof.
  intros n H. destruct (new_inv _ _ _ _ _ _ H) as (A & B & C & D & E & F). fold n in A, B, D.
  destruct (new_spec xmin xmax nd tol btol A B C D E F) as (s & ndiv & L1 & L2 & L3 & L4 & L5).
  destruct (Rle_dec s (2 * the_tol tol)) as [Q|Q]; [destruct (L4 Q) as (m & M); congruence|].
  destruct (L5 ltac:(lra)) as (g' & G & W & K & N & T & X & S & V). rewrite H in G. injection G as <-.
  split; [auto|]. split; [auto|]. split; [auto|]. split; [auto|]. intros x (I0 & I). rewrite map_length in I0, I. split; [rewrite X, map_length; auto|].
  intros i Hi. rewrite X, map_length in Hi. specialize (I i Hi). rewrite X. split; [lra|].
  rewrite (wf_xmax g W), S, V, xmax_nth' by (rewrite X, map_length; fold n in Hi |- *; lia). rewrite X, nth_map0 by auto. rewrite !nth_map0 in I by (fold n in Hi |- *; lia).
  specialize (L3 i Hi). lra.
Qed.
Lemma new_total xmin xmax nd tol btol i : let n := List.length xmin in
  (n = 2 \/ n = 3)%nat -> List.length xmax = n -> (2 <= the_ndiv nd)%nat -> (forall i, (i < n)%nat -> nth i xmin 0 < nth i xmax 0) ->
  0 < the_tol tol -> 0 <= the_border btol -> (i < n)%nat -> 2 * the_tol tol * INR (the_ndiv nd) < nth i xmax 0 - nth i xmin 0 + 2 * the_border btol ->
  exists g, grid_new xmin xmax nd tol btol = Ok g.
Proof.
  intros n A B C D E F Hi G. destruct (new_spec xmin xmax nd tol btol A B C D E F) as (s & ndiv & L1 & L2 & L3 & L4 & L5).
  destruct L5 as (g & L5 & _); [|eauto]. specialize (L3 i Hi). destruct (L2 i Hi) as (N1 & N2). apply le_INR in N1, N2. simpl in N1.
  destruct (Rle_dec s (2 * the_tol tol)); [|lra]. exfalso.
  assert (s * INR (nth i ndiv 0%nat) <= 2 * the_tol tol * INR (the_ndiv nd)); [|lra].
  apply Rle_trans with (2 * the_tol tol * INR (nth i ndiv 0%nat)); [apply Rmult_le_compat_r; lra|apply Rmult_le_compat_l; lra].
Qed.
Lemma new_no_panic xmin xmax nd tol btol : (exists g, grid_new xmin xmax nd tol btol = Ok g) \/ exists m, grid_new xmin xmax nd tol btol = Err m.
Proof.
  set (n := List.length xmin).
  assert (K : ((n = 2 \/ n = 3)%nat /\ List.length xmax = n /\ (2 <= the_ndiv nd)%nat /\ (forall i, (i < n)%nat -> nth i xmin 0 < nth i xmax 0) /\
  0 < the_tol tol /\ 0 <= the_border btol) \/ exists m, grid_new xmin xmax nd tol btol = Err m).
  { unfold grid_new. fold n. destruct (((n <? 2) || (3 <? n))%nat) eqn:E; [right; eexists; reflexivity|]. apply orb_false_iff in E as (E1 & E2).
    apply Nat.ltb_ge in E1. apply Nat.ltb_ge in E2. destruct (List.length xmax =? n)%nat eqn:E; [|right; eexists; reflexivity]. apply Nat.eqb_eq in E. cbn [negb].
    fold (the_ndiv nd). destruct (the_ndiv nd <? 1)%nat; [right; eexists; reflexivity|].
    destruct (num_div_no_panic 1 (the_ndiv nd) xmin xmax) as [(ndiv & D)|(m & D)]; rewrite D; cbn [bind]; [|right; eexists; reflexivity].
    assert (LN : List.length ndiv = n). { apply num_div_inv in D as D'. destruct D' as (D1 & D2 & D3 & D4 & D5). destruct (num_div_ok 1 (the_ndiv nd) xmin xmax) as (L & _ & _ & Q); auto. rewrite D in Q. injection Q as ->. rewrite map_length, seq_length. auto. }
    apply num_div_inv in D as (D1 & D2 & D3 & D4 & D5). rewrite (get_ok ndiv 0 0%nat), (get_ok ndiv 1 0%nat) by lia. cbn [bind].
    fold (the_tol tol). destruct (Rleb (the_tol tol) 0) eqn:T; [right; eexists; reflexivity|]. apply Rleb_false in T.
    fold (the_border btol). destruct (Rltb (the_border btol) 0) eqn:B; [right; eexists; reflexivity|]. apply Rltb_false in B.
    left. split; [lia|]. split; [auto|]. split; [lia|]. split; [auto|]. split; lra. }
  destruct K as [(A & B & C & D & E & F)|K]; [|auto]. destruct (new_spec xmin xmax nd tol btol A B C D E F) as (s & ndiv & L1 & L2 & L3 & L4 & L5).
  destruct (Rle_dec s (2 * the_tol tol)) as [Q|Q]; [right; apply L4; auto|left]. destruct L5 as (g & L5 & _); [lra|eauto].
Qed.

(* ---- outside ---- *)
Lemma outside_spec g x : wf g -> List.length x = g_ndim g -> exists b, is_outside g x = Ok b /\ (b = true <-> ~ inside g x).
Proof.
  intros W L. unfold is_outside. rewrite L, Nat.eqb_refl.
  assert (LM : List.length (g_xmax g) = g_ndim g) by (rewrite (wf_xmax g W), map_length, combine_length, (wf_xmin g W), (wf_ndiv g W); apply Nat.min_id).
  assert (K : forall k, (k <= g_ndim g)%nat -> exists b, foldM (fun (out : bool) i =>
      if out then Ok true else
      let! xi := get x i in let! lo := get (g_xmin g) i in
      if Rltb xi lo then Ok true else
      let! hi := get (g_xmax g) i in
      Ok (Rltb hi xi)) (seq 0 k) false = Ok b /\ (b = false <-> forall i, (i < k)%nat -> nth i (g_xmin g) 0 <= nth i x 0 <= nth i (g_xmax g) 0)).
  { induction k as [|k IH]; intros Hk.
    - exists false. split; [reflexivity|]. split; [intros _ i Hi; lia|auto].
    - destruct IH as (b & E & Q); [lia|]. rewrite seq_S, foldM_app, E. cbn [bind foldM plus]. destruct b.
      + exists true. split; [reflexivity|]. split; [discriminate|]. intros H. apply Q. intros i Hi. apply H. lia.
      + rewrite (get_ok x k 0), (get_ok (g_xmin g) k 0), (get_ok (g_xmax g) k 0) by (try rewrite (wf_xmin g W); lia). cbn [bind].
        destruct (Rltb (nth k x 0) (nth k (g_xmin g) 0)) eqn:T.
        * apply Rltb_iff in T. exists true. split; [reflexivity|]. split; [discriminate|]. intros H. specialize (H k ltac:(lia)). lra.
        * apply Rltb_false in T. cbn [bind]. destruct (Rltb (nth k (g_xmax g) 0) (nth k x 0)) eqn:T2.
          -- apply Rltb_iff in T2. exists true. split; [reflexivity|]. split; [discriminate|]. intros H. specialize (H k ltac:(lia)). lra.
          -- apply Rltb_false in T2. exists false. split; [reflexivity|]. split; [|auto]. intros _ i Hi. destruct (Nat.eq_dec i k) as [->|D]; [lra|]. apply Q; auto. lia. }
  destruct (K (g_ndim g) (Nat.le_refl _)) as (b & E & Q). exists b. split; [exact E|]. unfold inside, in_box. rewrite (wf_xmin g W). rewrite <- Q. destruct b; split; intros H; try tauto; try discriminate.
  - intros (_ & F). discriminate.
Qed.

(* ---- instances ---- *)
Lemma within_dist (S : list R -> Prop) x d tol : distance_to S x d -> (d <= tol <-> within S tol x).
Proof.
  intros (A & p & P & E). split.
  - intros H. exists p. split; auto. lra.
  - intros (q & Q & F). apply A in Q. lra.
Qed.

Section Inst.
Variables (shk : list nat -> list nat) (sh : container -> container).
Hypothesis Hshk : forall l, Permutation (shk l) l.
Hypothesis Hsh : forall l, Permutation (sh l) l.

Lemma near_err g (dn : list R -> res R) : wf g -> (exists k c, In (k, c) (g_containers g)) -> (forall c, exists m, dn c = Err m) -> exists m, containers_near shk g dn = Err m.
Proof.
  intros W (k & c & H) D. unfold containers_near. assert (K : shk (map fst (g_containers g)) <> []).
  { intros Q. pose proof (Hshk (map fst (g_containers g))) as P. rewrite Q in P. apply Permutation_nil in P. apply (in_map fst) in H. rewrite P in H. destruct H. }
  destruct (shk (map fst (g_containers g))) as [|k0 ks]; [contradiction|]. cbn [foldM]. destruct (pivot_ok g k0 W) as (i & j & l & P). rewrite P. cbn [bind].
  destruct (center_ok g i j l W) as (cen & C & _). rewrite C. cbn [bind]. destruct (D cen) as (m & ->). cbn [bind]. eauto.
Qed.
Lemma nonempty_holds g0 h g : wf g0 -> holds g0 h g -> h <> [] -> exists k c, In (k, c) (g_containers g).
Proof.
  intros W [Wg S F B O N] H. destruct h as [|(id, x) h _] using rev_ind; [contradiction|].
  assert (L : last_insertion (h ++ [(id, x)]) id x) by (exists h, []; split; [reflexivity|intros []]).
  assert (I : inside g0 x) by (apply (B id); apply in_or_app; right; left; auto).
  destruct (proj1 (inside_iff g0 x W) I) as (cs & C). destruct (O id x cs L C) as (c & E & _). exists (keyof g0 cs), c. apply (mget_in Nat.eqb Nat.eqb_eq). exact E.
Qed.

Lemma generic g0 h g (S : list R -> Prop) (dn di : list R -> res R) (flt : list R -> bool) : wf g0 -> holds g0 h g ->
  (forall p, S p -> List.length p = g_ndim g0) ->
  (forall c, List.length c = g_ndim g0 -> exists e d, dn c = Ok e /\ di c = Ok d /\ e <= d /\ distance_to S c d) ->
  exists ids, (let! near := containers_near shk g dn in collect sh g di flt near) = Ok ids /\ selects h (fun x => within S (g_tol_dist g0) x /\ flt x = true) ids.
Proof.
  intros W H SL D. apply (selects_spec shk sh Hshk Hsh g0 h g dn di flt (within S (g_tol_dist g0))); auto.
  - intros c Lc. destruct (D c Lc) as (e & d & E & _). eauto.
  - intros x Lx. destruct (D x Lx) as (e & d & _ & E & _ & F). exists d. split; auto. apply within_dist. auto.
  - intros x cen d Lx Lc Hw Ed. destruct (D cen Lc) as (e & d2 & E & _ & Hle & F). rewrite Ed in E. injection E as <-.
    destruct (D x Lx) as (_ & dx & _ & _ & _ & Fx). apply (within_dist S x dx) in Hw; auto.
    pose proof (distance_lip S x cen dx d2) as Q. assert (Q' : d2 <= dx + euclid x cen); [|lra]. apply Q; auto; [|congruence]. intros p Hp. rewrite Lx. auto.
Qed.

Lemma on_line_spec g0 h g a b flt : wf g0 -> holds g0 h g -> List.length a = g_ndim g0 -> List.length b = g_ndim g0 -> EPSILON < sqdist b a ->
  exists ids, search_on_line shk sh g a b flt = Ok ids /\ selects h (fun x => within (on_line a b) (g_tol_dist g0) x /\ flt x = true) ids.
Proof.
  intros W H La Lb HE. unfold search_on_line. rewrite (ndim_same g0 g (h_same _ _ _ H)), La, Lb, Nat.eqb_refl. cbn [negb].
  apply generic; auto.
  - intros p Hp. rewrite (on_line_len a b p) by (auto; congruence). auto.
  - intros c Lc. destruct (line_distance a b c) as (d & E & F); try congruence. { rewrite La. apply (wf_ndim g0 W). }
    exists d, d. repeat split; try apply F; auto; try lra.
Qed.
Lemma on_line_err g0 h g a b flt : holds g0 h g -> ~ (List.length a = g_ndim g0 /\ List.length b = g_ndim g0) ->
  exists m, search_on_line shk sh g a b flt = Err m.
Proof.
  intros H N. unfold search_on_line. rewrite (ndim_same g0 g (h_same _ _ _ H)). destruct (List.length a =? g_ndim g0)%nat eqn:E; [|simpl; eauto].
  destruct (List.length b =? g_ndim g0)%nat eqn:F; [|simpl; eauto]. apply Nat.eqb_eq in E, F. tauto.
Qed.

Lemma on_circle_spec g0 h g cen radius flt : wf g0 -> holds g0 h g -> g_ndim g0 = 2%nat -> List.length cen = 2%nat -> 0 <= radius ->
  exists ids, search_on_circle shk sh g cen radius flt = Ok ids /\ selects h (fun x => within (on_circle cen radius) (g_tol_dist g0) x /\ flt x = true) ids.
Proof.
  intros W H N L HR. unfold search_on_circle. rewrite (ndim_same g0 g (h_same _ _ _ H)), N, L, Nat.eqb_refl. cbn [negb].
  apply generic; auto.
  - intros p (Lp & _). congruence.
  - intros c Lc. destruct (circle_distance cen radius c) as (d & E & F & _); try congruence. exists d, (Rabs d). rewrite E. repeat split; try apply F; auto. apply Rle_abs.
Qed.
Lemma on_cylinder_spec g0 h g a b radius flt : wf g0 -> holds g0 h g -> g_ndim g0 = 3%nat -> List.length a = 3%nat -> List.length b = 3%nat -> 0 <= radius -> EPSILON < sqdist b a ->
  exists ids, search_on_cylinder shk sh g a b radius flt = Ok ids /\ selects h (fun x => within (on_cylinder a b radius) (g_tol_dist g0) x /\ flt x = true) ids.
Proof.
  intros W H N L M HR HE. unfold search_on_cylinder. rewrite (ndim_same g0 g (h_same _ _ _ H)), N, L, M, Nat.eqb_refl. cbn [negb].
  apply generic; auto.
  - intros p (Lp & _). congruence.
  - intros c Lc. destruct (cylinder_distance a b radius c) as (d0 & d & E & _ & F & _); try congruence. exists d, (Rabs d). rewrite E. repeat split; try apply F; auto. apply Rle_abs.
Qed.
Lemma plane_dist dim coord c : (dim < 3)%nat -> List.length c = 3%nat -> exists d, plane_distance dim coord c = Ok d /\ distance_to (on_plane 3 dim coord) c d /\ 0 <= d.
Proof.
  intros Hd L. unfold plane_distance. rewrite (get_ok c dim 0) by lia. cbn [bind]. eexists. split; [reflexivity|]. split; [|apply Rabs_pos]. split.
  - intros p (Lp & Ep). apply coord_le_euclid with (i := dim); [|exact Ep]. apply nth_error_nth'. lia.
  - exists (upd c dim coord). split; [split; [rewrite upd_length; auto|]|].
    + rewrite (nth_error_nth' _ 0) by (rewrite upd_length; lia). rewrite nth_upd_same by lia. reflexivity.
    + apply nlen3 in L as (c0 & c1 & c2 & ->). unfold euclid. destruct dim as [|[|[|]]]; [| | |lia]; simpl;
        match goal with |- sqrt ?e = Rabs ?u => replace e with (Rsqr u) by (unfold Rsqr; ring); apply sqrt_Rsqr_abs end.
Qed.
Lemma on_plane_spec g0 h g dim coord flt : wf g0 -> holds g0 h g -> g_ndim g0 = 3%nat -> (dim < 3)%nat ->
  exists ids, search_on_plane shk sh g dim coord flt = Ok ids /\ selects h (fun x => within (on_plane 3 dim coord) (g_tol_dist g0) x /\ flt x = true) ids.
Proof.
  intros W H N Hd. unfold search_on_plane. apply generic; auto.
  - intros p (Lp & _). congruence.
  - intros c Lc. destruct (plane_dist dim coord c) as (d & E & F & P); [auto|congruence|]. exists d, d. rewrite E. repeat split; try apply F; auto; try lra.
    simpl. f_equal. apply Rabs_pos_eq. auto.
Qed.
End Inst.
