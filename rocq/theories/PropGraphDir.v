(* C11, C12: directed graphs, /repo/src/graph/graph_dir.rs *)
From Coq Require Import String List Arith Bool QArith Lia Lqa.
From Verif Require Import Base BaseFacts GraphDirModel GraphDirSpec GraphDirProof.
Import ListNotations.
Open Scope nat_scope.

(* the states reachable through the public API from new(es) *)
Inductive reachable (es : list (nat * nat)) : gdir -> Prop :=
| r_new : reachable es (gd_new es)
| r_weight g e w g' : reachable es g -> gd_set_weight g e w = Ok g' -> reachable es g'
| r_calc g g' : reachable es g -> gd_calc_dist_and_next g = Ok g' -> reachable es g'
| r_fw g g' : reachable es g -> gd_shortest_paths_fw g = Ok g' -> reachable es g'.

Lemma reachable_wf es g : reachable es g -> wf_gdir es g.
Proof.
  induction 1 as [|g e w g' R IH H|g g' R IH H|g g' R IH H].
  - apply gd_new_wf.
  - eapply gd_set_weight_wf; eauto.
  - destruct IH as (A & B & C & D). unfold gd_calc_dist_and_next in H.
    destruct (foldM _ _ _) as [[d nx]| | |]; try discriminate. cbn [bind] in H. injection H as <-.
    repeat split; auto.
  - destruct IH as (A & B & C & D). unfold gd_shortest_paths_fw, gd_calc_dist_and_next in H.
    destruct (foldM _ _ _) as [[d nx]| | |]; try discriminate. cbn [bind] in H.
    destruct (fold_left _ _ _) as [d' nx'] in H. injection H as <-.
    repeat split; auto.
Qed.

(* the distances are the least total weights; when there are parallel edges the last one counts *)
Lemma fw_distances es g : reachable es g -> contiguous es ->
  exists g', gd_shortest_paths_fw g = Ok g' /\
  forall i j, i <> j \/ ~ In (i, i) es ->
    match gd_dist g' i j with
    | Fin d => least_weight (last_edge es (gd_weights g)) i j d
    | Inf => no_walk (last_edge es (gd_weights g)) i j
    end.
Proof.
  intros R Cn. apply reachable_wf in R.
  destruct (fw_correct es g R Cn) as (g' & H & F). exists g'. split; auto.
  now apply fw_dist.
Qed.
Theorem C11_floyd_warshall_last_edge : forall es g, reachable es g -> contiguous es ->
  exists g', gd_shortest_paths_fw g = Ok g' /\
  forall i j, i <> j \/ ~ In (i, i) es ->
    match gd_dist g' i j with
    | Fin d => least_weight (last_edge es (gd_weights g)) i j d
    | Inf => no_walk (last_edge es (gd_weights g)) i j
    end.
Proof. exact fw_distances. Qed.
Print Assumptions C11_floyd_warshall_last_edge.

Lemma fw_simple es g : reachable es g -> contiguous es -> NoDup es -> (forall i, ~ In (i, i) es) ->
  exists g', gd_shortest_paths_fw g = Ok g' /\
  forall i j,
    match gd_dist g' i j with
    | Fin d => least_weight (some_edge es (gd_weights g)) i j d
    | Inf => no_walk (some_edge es (gd_weights g)) i j
    end.
Proof.
  intros R Cn ND NS. destruct (fw_distances es g R Cn) as (g' & H & F). exists g'. split; auto.
  intros i j. specialize (F i j (or_intror (NS i))). destruct (gd_dist g' i j) as [d|].
  - destruct F as [(p & c & W & Ec) L]. split.
    + exists p, c. split; auto. eapply dwalk_impl; [|exact W]. intros a b w. apply last_some; auto.
    + intros p' c' W'. apply (L p' c'). eapply dwalk_impl; [|exact W']. intros a b w. apply last_some; auto.
  - intros p c W. apply (F p c). eapply dwalk_impl; [|exact W]. intros a b w. apply last_some; auto.
Qed.
Theorem C11_floyd_warshall : forall es g,
  reachable es g -> contiguous es -> NoDup es -> (forall i, ~ In (i, i) es) ->
  exists g', gd_shortest_paths_fw g = Ok g' /\
  forall i j,
    match gd_dist g' i j with
    | Fin d => least_weight (some_edge es (gd_weights g)) i j d
    | Inf => no_walk (some_edge es (gd_weights g)) i j
    end.
Proof. exact fw_simple. Qed.
Print Assumptions C11_floyd_warshall.

(* the graph in the documentation of shortest_paths_fw, with a zero-weight cycle 1 -> 2 -> 1 added *)
Definition ex_es := [(0, 1); (0, 3); (1, 2); (2, 3); (2, 1)].
Definition set_weights (ops : list (nat * Q)) (g : gdir) : res gdir :=
  foldM (fun (g : gdir) (op : nat * Q) => gd_set_weight g (fst op) (snd op)) ops g.
Lemma reachable_weights es ops : forall g g', reachable es g -> set_weights ops g = Ok g' -> reachable es g'.
Proof.
  unfold set_weights. induction ops as [|[e w] ops IH]; intros g g' R H; simpl in H.
  - injection H as <-. auto.
  - destruct (gd_set_weight g e w) as [g1| | |] eqn:E; try discriminate. cbn [bind] in H.
    eapply IH; [|exact H]. eapply r_weight; eauto.
Qed.
Definition ex_ops : list (nat * Q) := [(0, 5%Q); (1, 10%Q); (2, 0%Q); (4, 0%Q)].
Definition ex_g : gdir :=
  match set_weights ex_ops (gd_new ex_es) with Ok g => g | _ => gd_new [] end.
Definition ex_fw := match gd_shortest_paths_fw ex_g with Ok g => g | _ => gd_new [] end.
Lemma ex_reachable : reachable ex_es ex_g.
Proof.
  apply (reachable_weights _ ex_ops (gd_new ex_es)); [apply r_new|reflexivity].
Qed.
Lemma ex_contiguous : contiguous ex_es.
Proof.
  intros i j H. vm_compute. simpl in H.
  repeat (destruct H as [H|H]; [injection H as <- <-; lia|]). destruct H.
Qed.
Example C11_ex : reachable ex_es ex_g /\ contiguous ex_es /\ NoDup ex_es /\ (forall i, ~ In (i, i) ex_es) /\
  gd_weights ex_g = [5; 10; 0; 1; 0]%Q /\
  map (fun i => map (gd_dist ex_fw i) [0; 1; 2; 3]) [0; 1; 2; 3]
  = [[Fin 0; Fin 5; Fin (5 + 0); Fin (5 + 0 + 1)];
     [Inf; Fin 0; Fin 0; Fin (0 + 1)];
     [Inf; Fin 0; Fin 0; Fin 1];
     [Inf; Inf; Inf; Fin 0]].
Proof.
  split; [apply ex_reachable|]. split; [apply ex_contiguous|]. split.
  { repeat constructor; simpl; intuition congruence. }
  split. { intros i H. simpl in H. intuition congruence. }
  split; vm_compute; reflexivity.
Qed.

(* parallel edges: an edge of weight 1 exists, yet the distance is 5 *)
Theorem C11_parallel_edges_refuted : exists es g g' d,
  reachable es g /\ contiguous es /\ gd_shortest_paths_fw g = Ok g' /\
  gd_dist g' 0 1 = Fin d /\ some_edge es (gd_weights g) 0 1 1 /\ (1 < d)%Q.
Proof.
  pose (g := match gd_set_weight (gd_new [(0, 1); (0, 1)]) 1 5%Q with Ok g => g | _ => gd_new [] end).
  destruct (gd_shortest_paths_fw g) as [g'| | |] eqn:E; try discriminate.
  exists [(0, 1); (0, 1)], g, g', 5%Q. split.
  { eapply r_weight with (g := gd_new [(0, 1); (0, 1)]) (e := 1) (w := 5%Q); [apply r_new|reflexivity]. }
  split. { intros i j H. vm_compute. simpl in H. repeat (destruct H as [H|H]; [injection H as <- <-; lia|]). destruct H. }
  split; auto. injection E as <-.
  split; [vm_compute; reflexivity|]. split; [now exists 0|]. lra.
Qed.
Print Assumptions C11_parallel_edges_refuted.

(* self-loops: the distance of a vertex from itself is not 0 *)
Theorem C11_self_loop_refuted : exists es g g' d,
  reachable es g /\ contiguous es /\ gd_shortest_paths_fw g = Ok g' /\
  gd_dist g' 0 0 = Fin d /\ (0 < d)%Q.
Proof.
  destruct (gd_shortest_paths_fw (gd_new [(0, 0)])) as [g'| | |] eqn:E; try discriminate.
  exists [(0, 0)], (gd_new [(0, 0)]), g', 1%Q. split; [apply r_new|].
  split. { intros i j H. vm_compute. simpl in H. repeat (destruct H as [H|H]; [injection H as <- <-; lia|]). destruct H. }
  split; auto. injection E as <-. split; [vm_compute; reflexivity|]. lra.
Qed.
Print Assumptions C11_self_loop_refuted.

(* path terminates with a walk of least weight, or reports that there is none *)
Definition is_least_walk (E : nat -> nat -> Q -> Prop) (i j : nat) (p : list nat) : Prop :=
  exists c, dwalk E i j p c /\ forall p' c', dwalk E i j p' c' -> (c <= c')%Q.

Lemma path_spec es g g' : reachable es g -> contiguous es -> gd_shortest_paths_fw g = Ok g' ->
  forall i j, i < gd_get_nnode g -> j < gd_get_nnode g ->
  exists f,
    (exists p, (forall fuel, f <= fuel -> gd_path fuel g' i j = Ok p) /\
               is_least_walk (last_edge es (gd_weights g)) i j p) \/
    ((forall fuel, f <= fuel -> gd_path fuel g' i j = Err "no path found") /\
     no_walk (last_edge es (gd_weights g)) i j).
Proof.
  intros R Cn H i j Li Lj. apply reachable_wf in R.
  destruct (fw_correct es g R Cn) as (g'' & H' & F). rewrite H in H'. injection H' as <-.
  destruct (path_correct es g g' R Cn F i j Li Lj) as (P1 & P2 & P3).
  destruct (Nat.eq_dec i j) as [<-|N].
  - exists 1. left. exists [i]. split; auto.
    exists 0%Q. split; [apply dwalk_nil|]. intros p' c' W.
    eapply dwalk_nonneg; eauto. intros a b w Hl. apply last_edge_in in Hl. destruct R as (_ & _ & _ & D). apply D. tauto.
  - pose proof (fw_dist es g g' R Cn F i j (or_introl N)) as D.
    destruct (gd_dist g' i j) as [d|] eqn:Ed.
    + destruct (P1 d eq_refl N) as (p & f & Hp & c & W & Ec). exists f. left. exists p. split; auto.
      exists c. split; auto. intros p' c' W'. destruct D as [_ L]. specialize (L p' c' W'). lra.
    + exists 2. right. split; auto.
Qed.
Theorem C12_path : forall es g g', reachable es g -> contiguous es -> gd_shortest_paths_fw g = Ok g' ->
  forall i j, i < gd_get_nnode g -> j < gd_get_nnode g ->
  exists f,
    (exists p, (forall fuel, f <= fuel -> gd_path fuel g' i j = Ok p) /\
               is_least_walk (last_edge es (gd_weights g)) i j p) \/
    ((forall fuel, f <= fuel -> gd_path fuel g' i j = Err "no path found") /\
     no_walk (last_edge es (gd_weights g)) i j).
Proof. exact path_spec. Qed.
Print Assumptions C12_path.
Example C12_ex : gd_get_nnode ex_g = 4 /\ gd_path 10 ex_fw 0 3 = Ok [0; 1; 2; 3] /\
  gd_path 10 ex_fw 3 0 = Err "no path found" /\ gd_path 10 ex_fw 2 1 = Ok [2; 1].
Proof. vm_compute. auto. Qed.

(* the distance matrix and path agree *)
Lemma path_dist es g g' : reachable es g -> contiguous es -> gd_shortest_paths_fw g = Ok g' ->
  forall i j fuel p, i <> j -> i < gd_get_nnode g -> j < gd_get_nnode g -> gd_path fuel g' i j = Ok p ->
  exists d c, gd_dist g' i j = Fin d /\ dwalk (last_edge es (gd_weights g)) i j p c /\ (c == d)%Q.
Proof.
  intros R Cn H i j fuel p N Li Lj Hp. apply reachable_wf in R.
  destruct (fw_correct es g R Cn) as (g'' & H' & F). rewrite H in H'. injection H' as <-.
  destruct (path_correct es g g' R Cn F i j Li Lj) as (P1 & P2 & _).
  assert (M : forall f c acc q, path_loop f g' j c acc = q -> q <> NoFuel -> forall f', f <= f' -> path_loop f' g' j c acc = q).
  { clear. induction f as [|f IH]; intros c acc q Hq Nq f' L; [simpl in Hq; congruence|].
    destruct f' as [|f']; [lia|]. cbn [path_loop] in *. destruct c as [c|]; auto.
    destruct (c =? j); auto. destruct (mget _ _ _ _); auto. cbn [bind] in *. apply IH; auto. lia. }
  assert (M' : forall f', fuel <= f' -> gd_path f' g' i j = Ok p).
  { unfold gd_path in *. destruct (gd_ready g'); [|discriminate]. intros f' L. eapply M; eauto. discriminate. }
  destruct (gd_dist g' i j) as [d|] eqn:Ed.
  - destruct (P1 d eq_refl N) as (p' & f & Hp' & c & W & Ec). exists d, c. split; auto.
    assert (p = p'); [|subst; auto].
    specialize (Hp' (fuel + f) ltac:(lia)). specialize (M' (fuel + f) ltac:(lia)). congruence.
  - specialize (P2 eq_refl N (fuel + 2) ltac:(lia)). specialize (M' (fuel + 2) ltac:(lia)). congruence.
Qed.
Theorem C12_path_weight : forall es g g', reachable es g -> contiguous es -> gd_shortest_paths_fw g = Ok g' ->
  forall i j fuel p, i <> j -> i < gd_get_nnode g -> j < gd_get_nnode g -> gd_path fuel g' i j = Ok p ->
  exists d c, gd_dist g' i j = Fin d /\ dwalk (last_edge es (gd_weights g)) i j p c /\ (c == d)%Q.
Proof. exact path_dist. Qed.
Print Assumptions C12_path_weight.

Lemma nth_error_upd_same {A} (l : list A) i x : i < List.length l -> nth_error (upd l i x) i = Some x.
Proof. revert i. induction l as [|a l IH]; intros [|i] L; simpl in *; try lia; auto. apply IH. lia. Qed.
Lemma nth_error_upd_other {A} (l : list A) i j x : j <> i -> nth_error (upd l i x) j = nth_error l j.
Proof.
  revert i j. induction l as [|a l IH]; intros [|i] [|j] N; simpl; auto; try congruence.
Qed.

(* changing a weight invalidates the paths *)
Lemma set_weight_resets g e w g' : gd_set_weight g e w = Ok g' -> forall fuel i j,
  gd_path fuel g' i j = Err "a path finding algorithm (e.g., shortest_paths_fw) must be called first" /\
  nth_error (gd_weights g') e = Some w /\
  (forall e', e' <> e -> nth_error (gd_weights g') e' = nth_error (gd_weights g) e').
Proof.
  intros H fuel i j. apply gd_set_weight_inv in H as (Hw & He & ->). repeat split; simpl.
  - now apply nth_error_upd_same.
  - intros e' N. now apply nth_error_upd_other.
Qed.
Theorem C12_set_weight_resets : forall g e w g', gd_set_weight g e w = Ok g' -> forall fuel i j,
  gd_path fuel g' i j = Err "a path finding algorithm (e.g., shortest_paths_fw) must be called first" /\
  nth_error (gd_weights g') e = Some w /\
  (forall e', e' <> e -> nth_error (gd_weights g') e' = nth_error (gd_weights g) e').
Proof. exact set_weight_resets. Qed.
Print Assumptions C12_set_weight_resets.
Example C12_reset_ex :
  match gd_set_weight ex_fw 1 2%Q with Ok g' => gd_weights g' = [5; 2; 0; 1; 0]%Q | _ => False end /\
  gd_ready ex_fw = true.
Proof. vm_compute. auto. Qed.

(* calc_dist_and_next after shortest_paths_fw leaves the ready flag set: path then denies an existing path *)
Theorem C12_stale_flag_refuted : exists es g g1 g2 p c,
  reachable es g /\ contiguous es /\ gd_shortest_paths_fw g = Ok g1 /\ gd_calc_dist_and_next g1 = Ok g2 /\
  dwalk (some_edge es (gd_weights g2)) 0 2 p c /\
  gd_path 10 g1 0 2 = Ok p /\
  forall fuel, 2 <= fuel -> gd_path fuel g2 0 2 = Err "no path found".
Proof.
  pose (g0 := gd_new [(0, 1); (1, 2)]).
  pose (g1 := the g0 (gd_shortest_paths_fw g0)). pose (g2 := the g0 (gd_calc_dist_and_next g1)).
  exists [(0, 1); (1, 2)], g0, g1, g2, [0; 1; 2], (1 + (1 + 0))%Q.
  split; [apply r_new|].
  split. { intros i j H. vm_compute. simpl in H. repeat (destruct H as [H|H]; [injection H as <- <-; lia|]). destruct H. }
  split. { apply the_ok. vm_compute. reflexivity. }
  split. { apply the_ok. vm_compute. reflexivity. }
  split; [|split].
  - apply dwalk_cons with (m := 1); [exists 0; vm_compute; auto|].
    apply dwalk_cons with (m := 2); [exists 1; vm_compute; auto|]. apply dwalk_nil.
  - vm_compute. reflexivity.
  - intros [|[|fuel]] L; try lia. vm_compute. reflexivity.
Qed.
Print Assumptions C12_stale_flag_refuted.
