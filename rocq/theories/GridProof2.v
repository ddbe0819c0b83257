(* Searches on a grid. *)
From Coq Require Import String List Arith Bool Reals ZArith Lra Lia Permutation.
From Verif Require Import Base BaseFacts TopoModel TopoMaps GeomModel GeomSpec GeomProof GridModel GridSpec GridProof.
Import ListNotations.
Open Scope R_scope.

Lemma close_euclid x y e : 0 <= e -> close e x y -> euclid x y <= sqrt (INR (List.length x)) * e.
Proof.
  intros E (L & H). unfold euclid. rewrite <- (sqrt_square e) at 1 by auto. rewrite <- sqrt_mult_alt by apply pos_INR.
  apply sqrt_le_1; [apply sqdist_nonneg|apply Rmult_le_pos; [apply pos_INR|apply sq0]|].
  apply euclid_bound; auto. intros i u v Hu Hv. pose proof (nth_error_nth x i 0 Hu) as <-. pose proof (nth_error_nth y i 0 Hv) as <-.
  apply H. apply nth_error_Some. congruence.
Qed.

Lemma stored_len g0 h g k id x : wf g0 -> holds g0 h g -> stored_at g k id x -> List.length x = g_ndim g0 /\ inside g0 x.
Proof.
  intros W H S. apply (h_from g0 h g H) in S. apply (h_box g0 h g H) in S. split; auto. destruct S as (L & _). rewrite (wf_xmin g0 W) in L. auto.
Qed.
Lemma stored_in g k c it : wf g -> mget Nat.eqb (g_containers g) k = Some c -> In it c -> stored_at g k (fst it) (snd it).
Proof.
  intros W E H. exists c. split; auto. apply (in_mget Nat.eqb Nat.eqb_eq); [|destruct it; exact H].
  apply (wf_ids g W k). apply (mget_in Nat.eqb Nat.eqb_eq). exact E.
Qed.
Lemma ndim_same g0 g : same g0 g -> g_ndim g = g_ndim g0. Proof. intros (A & _). exact A. Qed.
Lemma told_same g0 g : same g0 g -> g_tol_dist g = g_tol_dist g0. Proof. intros (_ & _ & _ & _ & _ & _ & _ & A & _). exact A. Qed.

(* ---- search ---- *)
Lemma first_near_spec tol x c : (forall it, In it c -> (List.length (snd it) = 2 \/ List.length (snd it) = 3)%nat /\ List.length x = List.length (snd it)) ->
  exists r, first_near tol x c = Ok r /\
    (forall id, r = Some id -> exists y, In (id, y) c /\ euclid y x <= tol) /\
    (r = None -> forall it, In it c -> tol < euclid (snd it) x).
Proof.
  induction c as [|(id, y) c IH]; intros H.
  - exists None. split; [reflexivity|]. split; [discriminate|intros _ it []].
  - destruct (H (id, y) (or_introl eq_refl)) as (L & M). cbn [snd] in L, M. cbn [first_near]. rewrite (ppd_ok y x) by auto. cbn [bind].
    destruct (Rleb (euclid y x) tol) eqn:E.
    + apply Rleb_iff in E. exists (Some id). split; [reflexivity|]. split; [|discriminate]. intros id' Q. injection Q as <-. exists y. split; [left; auto|auto].
    + apply Rleb_false in E. destruct IH as (r & F & A & B); [intros; apply H; right; auto|]. exists r. split; [exact F|]. split.
      * intros id' Q. destruct (A id' Q) as (z & Hz & Ez). exists z. split; [right; auto|auto].
      * intros Q it [<-|Hi]; auto.
Qed.

Section Search.
Variables (shk : list nat -> list nat) (sh : container -> container).
Hypothesis Hshk : forall l, Permutation (shk l) l.
Hypothesis Hsh : forall l, Permutation (sh l) l.

Lemma search_spec g0 h g y : wf g0 -> holds g0 h g -> inside g0 y -> exists r, grid_search sh g y = Ok r /\
  (forall id, r = Some id -> exists x, In (id, x) h /\ euclid x y <= g_tol_dist g0) /\
  (forall id x, last_insertion h id x -> close (g_tol g0) x y -> r <> None).
Proof.
  intros W H I. destruct H as [Wg S F B O N]. pose proof (mkHolds _ _ _ Wg S F B O N) as H.
  assert (L : List.length y = g_ndim g0) by (destruct I as (L & _); rewrite (wf_xmin g0 W) in L; auto).
  unfold grid_search. rewrite (ndim_same g0 g S), L, Nat.eqb_refl. cbn [negb].
  destruct (proj1 (inside_iff g0 y W) I) as (cs & C). rewrite (same_key g0 g) by auto. rewrite (key_loc g0 y cs W C). cbn [bind].
  destruct (mget Nat.eqb (g_containers g) (keyof g0 cs)) as [c|] eqn:E.
  - assert (Q : forall it, In it (sh c) -> stored_at g (keyof g0 cs) (fst it) (snd it)).
    { intros it Hit. apply stored_in with (c := c); auto. eapply Permutation_in; [apply Hsh|exact Hit]. }
    destruct (first_near_spec (g_tol_dist g) y (sh c)) as (r & R & A1 & A2).
    { intros it Hit. destruct (stored_len g0 h g _ _ _ W H (Q it Hit)) as (Li & _). rewrite Li. destruct (wf_ndim g0 W) as [D|D]; rewrite D in *; auto. }
    exists r. split; [exact R|]. rewrite (told_same g0 g S) in *. split.
    + intros id Er. destruct (A1 id Er) as (x & Hx & Ex). exists x. split; auto. apply (F (keyof g0 cs)). exact (Q _ Hx).
    + intros id x Hl Hc ->. specialize (A2 eq_refl).
      destruct (N id x y cs Hl C Hc) as (c' & E' & M). rewrite E in E'. injection E' as <-.
      apply (mget_in Nat.eqb Nat.eqb_eq) in M. assert (M' : In (id, x) (sh c)) by (eapply Permutation_in; [apply Permutation_sym, Hsh|exact M]).
      specialize (A2 _ M'). cbn [snd] in A2. rewrite (wf_tol_dist g0 W) in A2.
      pose proof (close_euclid x y (g_tol g0) ltac:(pose proof (wf_tol g0 W); lra) Hc) as K. rewrite (proj1 Hc), L in K. lra.
  - exists None. split; [reflexivity|]. split; [discriminate|]. intros id x Hl Hc. exfalso. destruct (N id x y cs Hl C Hc) as (c' & E' & _). congruence.
Qed.
Lemma search_err g0 h g y : wf g0 -> holds g0 h g -> ~ inside g0 y -> exists m, grid_search sh g y = Err m.
Proof.
  intros W [Wg S _ _ _ _] N. unfold grid_search. destruct (List.length y =? g_ndim g)%nat eqn:E; [|simpl; eauto]. apply Nat.eqb_eq in E. cbn [negb].
  rewrite (key_out g y Wg E); [simpl; eauto|]. rewrite (same_inside g0 g y S). exact N.
Qed.

(* ---- centres ---- *)
Definition cell_centre (g : grid) (cs : list nat) : list R :=
  map (fun mc => fst mc + INR (snd mc) * g_side g + g_side g / 2) (combine (g_xmin g) cs).
Lemma pivot_ok g key : wf g -> exists i j k, pivot g key = Ok (i, j, k).
Proof.
  intros W. unfold pivot. rewrite (get_ok (g_ndiv g) 0 0%nat) by (rewrite (wf_ndiv g W); destruct (wf_ndim g W); lia). cbn [bind].
  rewrite (wf_coef g W). cbn. assert (A : (1 <= nth 0 (g_ndiv g) 0)%nat) by (apply (wf_ndiv1 g W); destruct (wf_ndim g W); lia).
  assert (B : (1 <= nth 1 (g_ndiv g) 0)%nat) by (apply (wf_ndiv1 g W); destruct (wf_ndim g W); lia).
  rewrite (proj2 (Nat.eqb_neq (nth 0 (g_ndiv g) 0%nat) 0)) by lia. rewrite (proj2 (Nat.eqb_neq (nth 0 (g_ndiv g) 0 * nth 1 (g_ndiv g) 0)%nat 0)) by nia. cbn. eauto.
Qed.
Lemma center_ok g i j k : wf g -> exists c, center g i j k = Ok c /\ List.length c = g_ndim g.
Proof.
  intros W. unfold center. rewrite (get_ok (g_xmin g) 0 0) by (rewrite (wf_xmin g W); destruct (wf_ndim g W); lia). cbn [bind].
  rewrite (get_ok (g_xmin g) 1 0) by (rewrite (wf_xmin g W); destruct (wf_ndim g W); lia). cbn [bind].
  destruct (wf_ndim g W) as [E|E]; rewrite E; cbn; [eauto|]. rewrite (get_ok (g_xmin g) 2 0) by (rewrite (wf_xmin g W); lia). cbn. eauto.
Qed.
Lemma pivot_center g x cs : wf g -> locates g x cs -> exists i j k, pivot g (keyof g cs) = Ok (i, j, k) /\ center g i j k = Ok (cell_centre g cs).
Proof.
  intros W (L & Lc & C).
  assert (A : (1 <= nth 0 (g_ndiv g) 0)%nat) by (apply (wf_ndiv1 g W); destruct (wf_ndim g W); lia).
  assert (B : (1 <= nth 1 (g_ndiv g) 0)%nat) by (apply (wf_ndiv1 g W); destruct (wf_ndim g W); lia).
  assert (C0 : (nth 0 cs 0 < nth 0 (g_ndiv g) 0)%nat) by (apply (C 0%nat); destruct (wf_ndim g W); lia).
  assert (C1 : (nth 1 cs 0 < nth 1 (g_ndiv g) 0)%nat) by (apply (C 1%nat); destruct (wf_ndim g W); lia).
  exists (nth 0 cs 0%nat), (nth 1 cs 0%nat), (nth 2 cs 0%nat). split.
  - unfold pivot. rewrite (get_ok (g_ndiv g) 0 0%nat) by (rewrite (wf_ndiv g W); destruct (wf_ndim g W); lia). cbn [bind].
    rewrite (wf_coef g W). cbn [get nth_error bind].
    rewrite (proj2 (Nat.eqb_neq (nth 0 (g_ndiv g) 0%nat) 0)) by lia. rewrite (proj2 (Nat.eqb_neq (nth 0 (g_ndiv g) 0 * nth 1 (g_ndiv g) 0)%nat 0)) by nia. cbn [orb].
    unfold keyof. set (n0 := nth 0 (g_ndiv g) 0%nat) in *. set (n1 := nth 1 (g_ndiv g) 0%nat) in *.
    set (c0 := nth 0 cs 0%nat) in *. set (c1 := nth 1 cs 0%nat) in *. set (c2 := nth 2 cs 0%nat) in *.
    assert (S : (c0 + c1 * n0 < n0 * n1)%nat) by nia.
    f_equal. f_equal; [f_equal|].
    + replace (c0 + c1 * n0 + c2 * (n0 * n1))%nat with (c0 + (c1 + c2 * n1) * n0)%nat by ring. rewrite Nat.mod_add by lia. apply Nat.mod_small. auto.
    + rewrite Nat.mod_add by nia. rewrite Nat.mod_small by auto. rewrite Nat.div_add by lia. rewrite Nat.div_small by auto. reflexivity.
    + rewrite Nat.div_add by nia. rewrite Nat.div_small by auto. reflexivity.
  - unfold center, cell_centre. pose proof (wf_xmin g W) as Lm. destruct (wf_ndim g W) as [E|E]; rewrite E in *.
    + apply nlen2 in Lm as (m0 & m1 & ->). apply nlen2 in Lc as (c0 & c1 & ->). reflexivity.
    + apply nlen3 in Lm as (m0 & m1 & m2 & ->). apply nlen3 in Lc as (c0 & c1 & c2 & ->). reflexivity.
Qed.
Lemma centre_near g x cs : wf g -> locates g x cs -> List.length (cell_centre g cs) = g_ndim g /\ euclid x (cell_centre g cs) <= g_radius g.
Proof.
  intros W (L & Lc & C). pose proof (side_pos g W) as S.
  assert (LL : List.length (cell_centre g cs) = g_ndim g) by (unfold cell_centre; rewrite map_length, combine_length, (wf_xmin g W), Lc; apply Nat.min_id).
  split; [exact LL|]. rewrite (wf_radius g W). unfold Rdiv. rewrite Rmult_assoc. rewrite <- L at 1. apply close_euclid; [lra|].
  split; [congruence|]. rewrite L. intros i Hi. unfold cell_centre.
  assert (Q : nth i (map (fun mc : R * nat => fst mc + INR (snd mc) * g_side g + g_side g / 2) (combine (g_xmin g) cs)) 0
     = nth i (g_xmin g) 0 + INR (nth i cs 0%nat) * g_side g + g_side g / 2).
  { erewrite nth_indep by (rewrite map_length, combine_length, (wf_xmin g W), Lc, Nat.min_id; exact Hi).
    rewrite (map_nth (fun mc : R * nat => fst mc + INR (snd mc) * g_side g + g_side g / 2) _ (0, 0%nat)). rewrite combine_nth by (rewrite (wf_xmin g W), Lc; auto). reflexivity. }
  rewrite Q.
  pose proof (is_cell_width _ _ _ _ _ S (C i Hi)). apply Rabs_le. lra.
Qed.

(* ---- the entity searches ---- *)
Lemma set_insert_in ids id x : In x (set_insert ids id) <-> x = id \/ In x ids.
Proof.
  unfold set_insert. destruct (existsb (Nat.eqb id) ids) eqn:E.
  - apply existsb_exists in E as (y & Hy & Q). apply Nat.eqb_eq in Q. subst y. split; [auto|intros [->|H]; auto].
  - rewrite in_app_iff. simpl. split; [intros [H|[H|[]]]; auto|intros [H|H]; auto].
Qed.
Lemma set_insert_nodup ids id : NoDup ids -> NoDup (set_insert ids id).
Proof.
  intros H. unfold set_insert. destruct (existsb (Nat.eqb id) ids) eqn:E; auto.
  apply nodup_app; auto; [constructor; [intros []|constructor]|]. intros x Hx [<-|[]].
  assert (X : existsb (Nat.eqb id) ids = true) by (apply existsb_exists; exists id; split; [auto|apply Nat.eqb_refl]). congruence.
Qed.

Lemma inner_spec (dist : list R -> res R) tol (flt : list R -> bool) : forall c ids, NoDup ids ->
  (forall it, In it c -> exists d, dist (snd it) = Ok d) ->
  exists ids', foldM (fun (ids : list nat) (it : item) => let! distance := dist (snd it) in
          if Rleb distance tol && flt (snd it) then Ok (set_insert ids (fst it)) else Ok ids) c ids = Ok ids' /\ NoDup ids' /\
    (forall id, In id ids' <-> In id ids \/ exists x d, In (id, x) c /\ dist x = Ok d /\ d <= tol /\ flt x = true).
Proof.
  induction c as [|(id0, x0) c IH]; intros ids ND H.
  - exists ids. split; [reflexivity|]. split; auto. intros id. split; [auto|]. intros [Q|(x & d & [] & _)]. exact Q.
  - destruct (H (id0, x0) (or_introl eq_refl)) as (d0 & E0). cbn [foldM fst snd] in *. rewrite E0. cbn [bind].
    assert (Hc : forall it, In it c -> exists d, dist (snd it) = Ok d) by (intros; apply H; right; auto).
    destruct (Rleb d0 tol && flt x0) eqn:T.
    + apply andb_true_iff in T as (T1 & T2). apply Rleb_iff in T1. cbn [bind].
      destruct (IH (set_insert ids id0) (set_insert_nodup _ _ ND) Hc) as (ids' & E & ND' & Q). exists ids'. split; [exact E|]. split; auto.
      intros id. rewrite Q, set_insert_in. split.
      * intros [[->|X]|(x & d & X & Y)]; [right; exists x0, d0; split; [left; auto|auto]|auto|right; exists x, d; split; [right; auto|auto]].
      * intros [X|(x & d & [X|X] & Y)]; [auto|injection X as -> ->; auto|right; eauto].
    + cbn [bind]. destruct (IH ids ND Hc) as (ids' & E & ND' & Q). exists ids'. split; [exact E|]. split; auto.
      intros id. rewrite Q. split.
      * intros [X|(x & d & X & Y)]; [auto|right; exists x, d; split; [right; auto|auto]].
      * intros [X|(x & d & [X|X] & Y)]; [auto| |right; eauto]. injection X as -> ->. exfalso. destruct Y as (Y1 & Y2 & Y3). rewrite E0 in Y1. injection Y1 as ->.
        apply andb_false_iff in T as [T|T]; [apply Rleb_false in T; lra|congruence].
Qed.

Lemma near_spec g (dn : list R -> res R) : wf g -> (forall c, List.length c = g_ndim g -> exists d, dn c = Ok d) ->
  exists near, containers_near shk g dn = Ok near /\ (forall k, In k near -> exists c, mget Nat.eqb (g_containers g) k = Some c) /\
    (forall k i j l cen d, mget Nat.eqb (g_containers g) k <> None -> pivot g k = Ok (i, j, l) -> center g i j l = Ok cen -> dn cen = Ok d ->
      d <= g_radius g + g_tol_dist g -> In k near).
Proof.
  intros W H. unfold containers_near.
  assert (K : forall ks acc, exists near, foldM (fun (near : list nat) key =>
    let! ijk := pivot g key in
    let '(i, j, k) := ijk in
    let! cen := center g i j k in
    let! distance := dn cen in
    if Rleb distance (g_radius g + g_tol_dist g) then Ok (near ++ [key]) else Ok near) ks acc = Ok near /\
    (forall k, In k near -> In k acc \/ In k ks) /\ (forall k, In k acc -> In k near) /\
    (forall k i j l cen d, In k ks -> pivot g k = Ok (i, j, l) -> center g i j l = Ok cen -> dn cen = Ok d -> d <= g_radius g + g_tol_dist g -> In k near)).
  { induction ks as [|k ks IH]; intros acc.
    - exists acc. split; [reflexivity|]. split; [auto|]. split; [auto|]. intros k i j l cen d [].
    - destruct (pivot_ok g k W) as (i & j & l & P). destruct (center_ok g i j l W) as (cen & C & Lc). destruct (H cen Lc) as (d & D).
      cbn [foldM]. rewrite P. cbn [bind]. rewrite C. cbn [bind]. rewrite D. cbn [bind].
      destruct (Rleb d (g_radius g + g_tol_dist g)) eqn:T; cbn [bind].
      + destruct (IH (acc ++ [k])) as (near & E & A & B & Cc). exists near. split; [exact E|]. split; [|split].
        * intros k' Hk. apply A in Hk as [Hk|Hk]; [|right; right; auto]. apply in_app_or in Hk as [Hk|[<-|[]]]; auto. right. left. auto.
        * intros k' Hk. apply B, in_or_app. auto.
        * intros k' i' j' l' cen' d' [<-|Hk]; [|eauto]. intros. apply B, in_or_app. right. left. auto.
      + destruct (IH acc) as (near & E & A & B & Cc). exists near. split; [exact E|]. split; [|split].
        * intros k' Hk. apply A in Hk as [Hk|Hk]; [auto|right; right; auto].
        * auto.
        * intros k' i' j' l' cen' d' [<-|Hk]; [|eauto]. intros P' C' D' T'. rewrite P in P'. injection P' as <- <- <-. rewrite C in C'. injection C' as <-. rewrite D in D'. injection D' as <-.
          apply Rleb_false in T. lra. }
  destruct (K (shk (map fst (g_containers g))) []) as (near & E & A & _ & C). exists near. split; [exact E|]. split.
  - intros k Hk. apply A in Hk as [[]|Hk]. assert (Hk' : In k (map fst (g_containers g))) by (eapply Permutation_in; [apply Hshk|exact Hk]).
    destruct (mget Nat.eqb (g_containers g) k) as [c|] eqn:Q; [eauto|]. apply (mget_none Nat.eqb Nat.eqb_eq) in Q. contradiction.
  - intros k i j l cen d Hk P Cc D T. eapply C; eauto. eapply Permutation_in; [apply Permutation_sym, Hshk|].
    destruct (in_dec Nat.eq_dec k (map fst (g_containers g))) as [I|I]; [auto|]. apply (mget_none Nat.eqb Nat.eqb_eq) in I. contradiction.
Qed.

Lemma collect_spec g (di : list R -> res R) (flt : list R -> bool) near : wf g ->
  (forall k id x, stored_at g k id x -> exists d, di x = Ok d) ->
  (forall k, In k near -> exists c, mget Nat.eqb (g_containers g) k = Some c) ->
  exists ids, collect sh g di flt near = Ok ids /\ NoDup ids /\
    (forall id, In id ids <-> exists k x d, In k near /\ stored_at g k id x /\ di x = Ok d /\ d <= g_tol_dist g /\ flt x = true).
Proof.
  intros W HD HK. unfold collect.
  assert (K : forall ks acc, NoDup acc -> (forall k, In k ks -> In k near) -> exists ids, foldM (fun (ids : list nat) index =>
    match mget Nat.eqb (g_containers g) index with
    | None => Panic
    | Some c =>
        foldM (fun (ids : list nat) (it : item) =>
          let! distance := di (snd it) in
          if Rleb distance (g_tol_dist g) && flt (snd it) then Ok (set_insert ids (fst it)) else Ok ids) (sh c) ids
    end) ks acc = Ok ids /\ NoDup ids /\
    (forall id, In id ids <-> In id acc \/ exists k x d, In k ks /\ stored_at g k id x /\ di x = Ok d /\ d <= g_tol_dist g /\ flt x = true)).
  { induction ks as [|k ks IH]; intros acc ND HN.
    - exists acc. split; [reflexivity|]. split; auto. intros id. split; [auto|]. intros [Q|(k & x & d & [] & _)]; auto.
    - cbn [foldM]. destruct (HK k (HN k (or_introl eq_refl))) as (c & Ec). rewrite Ec.
      assert (ST : forall it, In it (sh c) -> stored_at g k (fst it) (snd it)) by (intros it Hit; eapply stored_in; eauto; eapply Permutation_in; [apply Hsh|exact Hit]).
      destruct (inner_spec di (g_tol_dist g) flt (sh c) acc ND) as (acc' & E & ND' & Q); [intros it Hit; eapply HD; eauto|].
      rewrite E. cbn [bind]. destruct (IH acc' ND') as (ids & E' & ND'' & Q'); [intros; apply HN; right; auto|]. exists ids. split; [exact E'|]. split; auto.
      intros id. rewrite Q', Q. split.
      + intros [[X|(x & d & X & Y)]|(k' & x & d & X & Y)]; [auto| |].
        * right. exists k, x, d. split; [left; auto|]. split; [apply (ST _ X)|exact Y].
        * right. exists k', x, d. split; [right; auto|exact Y].
      + intros [X|(k' & x & d & [<-|X] & Y & Z)]; [auto| |].
        * left. right. exists x, d. split; [|exact Z]. destruct Y as (c' & Ec' & M). rewrite Ec in Ec'. injection Ec' as <-. apply (mget_in Nat.eqb Nat.eqb_eq) in M.
          eapply Permutation_in; [apply Permutation_sym, Hsh|exact M].
        * right. exists k', x, d. split; auto. }
  destruct (K near [] (NoDup_nil _) ltac:(auto)) as (ids & E & ND & Q). exists ids. split; [exact E|]. split; auto.
  intros id. rewrite Q. split; [intros [[]|X]; exact X|auto].
Qed.

Lemma selects_spec g0 h g (dn di : list R -> res R) (flt : list R -> bool) (ok : list R -> Prop) : wf g0 -> holds g0 h g ->
  (forall c, List.length c = g_ndim g0 -> exists d, dn c = Ok d) ->
  (forall x, List.length x = g_ndim g0 -> exists e, di x = Ok e /\ (e <= g_tol_dist g0 <-> ok x)) ->
  (forall x cen d, List.length x = g_ndim g0 -> List.length cen = g_ndim g0 -> ok x -> dn cen = Ok d -> d <= euclid x cen + g_tol_dist g0) ->
  exists ids, (let! near := containers_near shk g dn in collect sh g di flt near) = Ok ids /\ selects h (fun x => ok x /\ flt x = true) ids.
Proof.
  intros W H Hdn Hdi Hlip. destruct H as [Wg S F B O N]. pose proof (mkHolds _ _ _ Wg S F B O N) as H.
  destruct (near_spec g dn Wg) as (near & E & N1 & N2). { intros c Lc. apply Hdn. rewrite Lc. apply ndim_same; auto. }
  rewrite E. cbn [bind].
  destruct (collect_spec g di flt near Wg) as (ids & E2 & ND & Q); auto.
  { intros k id x Hs. destruct (stored_len g0 h g _ _ _ W H Hs) as (L & _). destruct (Hdi x L) as (e & De & _). eauto. }
  exists ids. split; [exact E2|]. split; [exact ND|]. rewrite (told_same g0 g S) in *. split.
  - intros id Hid. apply Q in Hid as (k & x & d & Hk & Hs & Hd & Ht & Hf). exists x. split; [eapply F; eauto|]. split; [|exact Hf].
    destruct (stored_len g0 h g _ _ _ W H Hs) as (L & _). destruct (Hdi x L) as (e & De & Ie). rewrite Hd in De. injection De as <-. apply Ie. exact Ht.
  - intros id x Hl (Hok & Hf). apply Q.
    assert (I : inside g0 x) by (destruct Hl as (h1 & h2 & Eh & _); apply (B id); rewrite Eh; apply in_or_app; right; left; auto).
    destruct (proj1 (inside_iff g0 x W) I) as (cs & C). pose proof (O id x cs Hl C) as Hs.
    assert (Lx : List.length x = g_ndim g0) by apply C.
    destruct (Hdi x Lx) as (e & De & Ie). exists (keyof g0 cs), x, e. split; [|split; [exact Hs|split; [exact De|split; [apply Ie; auto|exact Hf]]]].
    assert (C' : locates g x cs) by (apply (same_locates g0 g); auto).
    destruct (pivot_center g x cs Wg C') as (i & j & k & P & Ce). rewrite (same_keyof g0 g cs S) in P.
    destruct (centre_near g x cs Wg C') as (Lc & Nc). rewrite (ndim_same g0 g S) in Lc.
    destruct (Hdn _ Lc) as (d & Dd). eapply N2; [|exact P|exact Ce|exact Dd|].
    + destruct Hs as (c & Ec & _). congruence.
    + specialize (Hlip x (cell_centre g cs) d Lx Lc Hok Dd). lra.
Qed.
End Search.
