(* The methods of GraphUnd in terms of the breadth-first search of GraphProof.v *)
From Coq Require Import String List Arith Bool Lia Sorted Permutation ListDec.
From Verif Require Import Base BaseFacts MeshModel GraphModel GraphSpec GraphVocab GraphProof.
Import ListNotations.


Lemma reachable_lt adj u v : in_bounds adj -> u < List.length adj -> reachable (adj_edge adj) u v -> v < List.length adj.
Proof.
  intros W Hu [k H]. induction H as [u|u v w k HE HW IH]; auto. apply IH.
  specialize (W u). rewrite Forall_forall in W. apply W. exact HE.
Qed.

(** connectivity *)
Lemma conn_search_bfs adj : in_bounds adj -> 0 < List.length adj ->
  conn_search adj = Ok (mx (bfs adj 0)).
Proof.
  intros W H0. unfold conn_search. rewrite set_ok by (rewrite repeat_length; exact H0). cbn [bind].
  destruct (bfs_sim adj W (fun s => (mx s, mq s))
     (fun a s b => let '(explored, queue) := s in
           let! e := get explored b in
           if e then Ok s else
           let! explored := set explored b true in
           Ok (explored, queue ++ [b]))
     (fun _ => True) snd (fun s q => (fst s, q)) (conn_body adj) 0) as [R _]; auto.
  - intros root pd A a s b HI _ _ _ Hb. split; auto. unfold mvisit.
    assert (L := i_lx _ _ _ _ _ HI). rewrite (get_ok _ b true) by lia. cbn [bind].
    destruct (nth b (mx s) true) eqn:Ex; [reflexivity|]. rewrite set_ok by lia. reflexivity.
  - cbn [minit mx mq] in R. rewrite R. reflexivity.
Qed.

Lemma forallb_nth_true (l : list bool) : forallb (fun e => e) l = true <-> forall i, i < List.length l -> nth i l true = true.
Proof.
  rewrite forallb_forall. split.
  - intros H i Hi. apply H. apply nth_In. exact Hi.
  - intros H x Hx. apply (In_nth _ _ true) in Hx. destruct Hx as (i & Hi & <-). auto.
Qed.

Lemma check_connected_iff adj : in_bounds adj -> 0 < List.length adj ->
  (check_connected adj = Ok tt <-> forall v, v < List.length adj -> reachable (adj_edge adj) 0 v) /\
  (check_connected adj <> Ok tt ->
     check_connected adj = Err "there are hanging vertices/edges in the mesh (graph is disconnected)").
Proof.
  intros W H0. unfold check_connected. rewrite conn_search_bfs by assumption. cbn [bind].
  pose proof (bfs_final adj W 0 H0) as F.
  assert (K : forallb (fun e => e) (mx (bfs adj 0)) = true <-> forall v, v < List.length adj -> reachable (adj_edge adj) 0 v).
  { rewrite forallb_nth_true, (f_lx _ _ _ F). split.
    - intros H v Hv. apply explored_iff; auto. apply (f_ex _ _ _ F); auto.
    - intros H v Hv. apply (f_ex _ _ _ F); auto. apply explored_iff; auto. }
  destruct (forallb (fun e => e) (mx (bfs adj 0))).
  - split; [tauto|congruence].
  - split; [|reflexivity]. split; [discriminate|]. intros H. apply K in H. discriminate.
Qed.

(** distances *)
Lemma fold_max (l : list nat) : forall m,
  m <= fold_left (fun m d => if m <? d then d else m) l m /\
  (forall d, In d l -> d <= fold_left (fun m d => if m <? d then d else m) l m) /\
  (fold_left (fun m d => if m <? d then d else m) l m = m \/ In (fold_left (fun m d => if m <? d then d else m) l m) l).
Proof.
  induction l as [|x l IH]; intros m; simpl.
  - repeat split; auto. intros d [].
  - destruct (Nat.ltb_spec m x).
    + destruct (IH x) as (A & B & C). repeat split; [lia| |].
      * intros d [->|Hd]; auto.
      * right. destruct C as [->|C]; auto.
    + destruct (IH m) as (A & B & C). repeat split; auto.
      * intros d [->|Hd]; auto. lia.
      * destruct C as [C|C]; auto.
Qed.

Definition maxd (l : list nat) : nat := fold_left (fun m d => if m <? d then d else m) l 0.

Lemma calc_distance_bfs g root : in_bounds (adjacency g) -> root < nv g ->
  calc_distance g root = Ok (maxd (md (bfs (adjacency g) root)), md (bfs (adjacency g) root)).
Proof.
  unfold nv. intros W Hr. unfold calc_distance. rewrite set_ok by (rewrite repeat_length; exact Hr). cbn [bind].
  destruct (bfs_sim (adjacency g) W (fun s => (mx s, mq s, md s))
     (fun a s b => let '(explored, queue, distance) := s in
           let! e := get explored b in
           if e then Ok s else
           let! explored := set explored b true in
           let! da := get distance a in
           let! distance := set distance b (da + 1) in
           Ok (explored, queue ++ [b], distance))
     (fun _ => True) (fun s => snd (fst s)) (fun s q => (fst (fst s), q, snd s)) (dist_body (adjacency g)) root) as [R _]; auto.
  - intros root' pd A a s b HI _ _ Ha Hb. split; auto. unfold mvisit.
    assert (L := i_lx _ _ _ _ _ HI). assert (L2 := i_ld _ _ _ _ _ HI).
    rewrite (get_ok _ b true) by lia. cbn [bind].
    destruct (nth b (mx s) true) eqn:Ex; [reflexivity|]. rewrite set_ok by lia. cbn [bind].
    rewrite (get_ok _ a 0) by lia. cbn [bind]. rewrite set_ok by lia. reflexivity.
  - cbn [minit mx mq md] in R. rewrite R. reflexivity.
Qed.

Lemma is_dist_fun (R : nat -> nat -> Prop) u v d d' : is_dist R u v d -> is_dist R u v d' -> d = d'.
Proof. intros [H1 H2] [H3 H4]. specialize (H2 _ H3). specialize (H4 _ H1). lia. Qed.

Lemma calc_distance_correct g root : in_bounds (adjacency g) -> root < nv g ->
  exists mdist dist, calc_distance g root = Ok (mdist, dist) /\ List.length dist = nv g /\
    (forall v, v < nv g -> reachable (edge g) root v -> is_dist (edge g) root v (nth v dist 0)) /\
    (forall v, v < nv g -> ~ reachable (edge g) root v -> nth v dist 0 = 0) /\
    is_ecc (edge g) (nv g) root mdist.
Proof.
  intros W Hr. unfold nv, edge in *. rewrite calc_distance_bfs by assumption.
  pose proof (bfs_final _ W root Hr) as F.
  eexists. eexists. split; [reflexivity|]. split; [apply (f_ld _ _ _ F)|].
  split; [intros; apply dist_correct; auto|]. split; [intros; apply dist_unreachable; auto|].
  destruct (fold_max (md (bfs (adjacency g) root)) 0) as (A & B & C). fold (maxd (md (bfs (adjacency g) root))) in *.
  split.
  - assert (Zero : is_dist (adj_edge (adjacency g)) root root 0) by (split; [constructor|intros; lia]).
    destruct C as [->|C].
    + exists root. auto.
    + apply (In_nth _ _ 0) in C. destruct C as (v & Hv & C). rewrite (f_ld _ _ _ F) in Hv.
      destruct (Nat.eq_dec (maxd (md (bfs (adjacency g) root))) 0) as [Ez|Nz].
      * exists root. rewrite Ez. auto.
      * exists v. split; auto. rewrite <- C. apply dist_correct; auto.
        apply explored_iff; auto. destruct (in_dec Nat.eq_dec v (mo (bfs (adjacency g) root))); auto.
        exfalso. apply (f_fresh _ _ _ F) in n. destruct n as [n _]. rewrite n in C. auto.
  - intros v d Hv Hd. pose proof (dist_correct _ W root v Hr ltac:(exists d; apply Hd)) as Hd'.
    rewrite (is_dist_fun _ _ _ _ _ Hd Hd'). apply B. apply nth_In. rewrite (f_ld _ _ _ F). exact Hv.
Qed.

(** Cuthill-McKee *)
Definition cm_list adj root : list nat :=
  let mo := mo (bfs adj root) in mo ++ repeat 0 (List.length adj - List.length mo).

Lemma upd_app_repeat (l : list nat) k b : 0 < k -> upd (l ++ repeat 0 k) (List.length l) b = (l ++ [b]) ++ repeat 0 (k - 1).
Proof.
  intros Hk. induction l as [|x l IH]; simpl.
  - destruct k as [|k]; [lia|]. simpl. rewrite Nat.sub_0_r. reflexivity.
  - f_equal. exact IH.
Qed.

Lemma cm_bfs adj root : in_bounds adj -> root < List.length adj ->
  while_queue (fun s => snd (fst (fst s)))
              (fun s q => (fst (fst (fst s)), q, snd (fst s), snd s))
              (cm_body adj) (S (List.length adj))
              (upd (repeat false (List.length adj)) root true, [root], upd (repeat 0 (List.length adj)) 0 root, 1)
  = Ok (mx (bfs adj root), mq (bfs adj root), cm_list adj root, List.length (mo (bfs adj root))).
Proof.
  intros W Hr.
  destruct (bfs_sim adj W
     (fun s => (mx s, mq s, mo s ++ repeat 0 (List.length adj - List.length (mo s)), List.length (mo s)))
     (fun a s b => let '(explored, queue, ordering, label) := s in
           let! e := get explored b in
           if e then Ok s else
           let! explored := set explored b true in
           let! ordering := set ordering label b in
           Ok (explored, queue ++ [b], ordering, label + 1))
     (fun _ => True) (fun s => snd (fst (fst s))) (fun s q => (fst (fst (fst s)), q, snd (fst s), snd s))
     (cm_body adj) root) as [R _]; auto.
  - intros root' pd A a s b HI _ _ Ha Hb. split; auto. unfold mvisit.
    assert (L := i_lx _ _ _ _ _ HI). rewrite (get_ok _ b true) by lia. cbn [bind].
    destruct (nth b (mx s) true) eqn:Ex; [reflexivity|]. rewrite set_ok by lia. cbn [bind mx mq mo].
    assert (Hlt : List.length (mo s) < List.length adj).
    { assert (ND : NoDup (b :: mo s)).
      { constructor; [|apply (i_nodup _ _ _ _ _ HI)]. intros H. apply (i_ex _ _ _ _ _ HI) in H; congruence. }
      apply (NoDup_bound _ (List.length adj)) in ND; [simpl in ND; lia|].
      constructor; [exact Hb|apply (i_lt _ _ _ _ _ HI)]. }
    rewrite set_ok by (rewrite app_length, repeat_length; lia). cbn [bind].
    rewrite upd_app_repeat by lia. rewrite app_length. simpl List.length.
    replace (List.length adj - (List.length (mo s) + 1)) with (List.length adj - List.length (mo s) - 1) by lia.
    reflexivity.
  - unfold cm_list. cbv zeta. etransitivity; [|exact R]. cbn [minit mx mq mo]. f_equal. f_equal. f_equal.
    destruct (List.length adj) as [|k]; [lia|]. simpl. rewrite Nat.sub_0_r. reflexivity.
Qed.

Lemma cuthill_mckee_bfs g root : in_bounds (adjacency g) -> root < nv g -> List.length (degree g) = nv g ->
  cuthill_mckee g (Some root) = Ok (rev (cm_list (adjacency g) root)).
Proof.
  unfold nv. intros W Hr Hd. unfold cuthill_mckee. rewrite Hd, Nat.eqb_refl. cbn [negb bind].
  rewrite !set_ok by (rewrite repeat_length; lia). cbn [bind].
  rewrite cm_bfs by assumption. reflexivity.
Qed.

Lemma connected_all adj root : in_bounds adj -> root < List.length adj ->
  (forall v, v < List.length adj -> reachable (adj_edge adj) root v) ->
  Permutation (mo (bfs adj root)) (seq 0 (List.length adj)).
Proof.
  intros W Hr HC. pose proof (bfs_final adj W root Hr) as F.
  apply NoDup_Permutation; [apply (f_nodup _ _ _ F)|apply seq_NoDup|].
  intros v. rewrite in_seq. split.
  - intros H. pose proof (f_lt _ _ _ F) as L. rewrite Forall_forall in L. specialize (L v H). lia.
  - intros H. apply explored_iff; auto. apply HC. lia.
Qed.

Lemma cm_list_connected adj root : in_bounds adj -> root < List.length adj ->
  (forall v, v < List.length adj -> reachable (adj_edge adj) root v) ->
  cm_list adj root = mo (bfs adj root).
Proof.
  intros W Hr HC. unfold cm_list. pose proof (connected_all adj root W Hr HC) as Pm.
  apply Permutation_length in Pm. rewrite seq_length in Pm. rewrite Pm, Nat.sub_diag. simpl.
  apply app_nil_r.
Qed.


Lemma cm_structure adj root : in_bounds adj -> root < List.length adj ->
  (forall v, v < List.length adj -> reachable (adj_edge adj) root v) ->
  let l := mo (bfs adj root) in
  Permutation l (seq 0 (List.length adj)) /\
  (exists t, l = root :: t) /\
  (forall x y dx dy, before l x y -> is_dist (adj_edge adj) root x dx -> is_dist (adj_edge adj) root y dy -> dx <= dy) /\
  (forall x, In x l -> x <> root -> exists p, before l p x /\ adj_edge adj p x) /\
  (forall x y, before l x y -> x <> root ->
     exists px py, first_neighbour (adj_edge adj) l px x /\ first_neighbour (adj_edge adj) l py y /\
       (before l px py \/ (px = py /\ before (nth px adj []) x y))).
Proof.
  intros W Hr HC l. pose proof (bfs_final adj W root Hr) as F.
  assert (Ex : forall x, In x l -> x < List.length adj /\ reachable (adj_edge adj) root x).
  { intros x Hx. split; [|apply explored_iff; auto].
    pose proof (f_lt _ _ _ F) as L. rewrite Forall_forall in L. auto. }
  split; [apply connected_all; auto|]. split; [apply (f_root _ _ _ F)|].
  assert (Hsort : forall x y, before l x y -> nth x (md (bfs adj root)) 0 <= nth y (md (bfs adj root)) 0).
  { intros x y B. apply (ss_before _ _ _ _ (f_sorted _ _ _ F) B). }
  split.
  { intros x y dx dy B Hx Hy. destruct (before_in _ _ _ B) as [Ix Iy].
    rewrite (is_dist_fun _ _ _ _ _ Hx (dist_correct adj W root x Hr (proj2 (Ex x Ix)))).
    rewrite (is_dist_fun _ _ _ _ _ Hy (dist_correct adj W root y Hr (proj2 (Ex y Iy)))).
    auto. }
  split.
  { intros x Hx Hn. destruct (f_par _ _ _ F x Hx Hn) as (p & H1 & H2 & H3 & H4 & l1 & l2 & H5 & H6).
    exists p. split; auto.
    destruct (in_app_or l1 (p :: l2) x) as [I|I].
    - rewrite <- H5. exact Hx.
    - exfalso. assert (B : before l x p).
      { apply in_split in I. destruct I as (m1 & m2 & ->). exists m1, m2, l2. unfold l. rewrite H5, <- app_assoc. reflexivity. }
      apply Hsort in B. lia.
    - destruct I as [->|I]; [lia|]. apply in_split in I. destruct I as (m1 & m2 & ->).
      exists l1, m1, m2. exact H5. }
  intros x y B Hn. destruct (f_root _ _ _ F) as [t Ht]. fold l in Ht.
  pose proof (f_cm _ _ _ F) as CM. pose proof (f_nodup _ _ _ F) as ND. fold l in CM, ND.
  assert (Bt : before t x y /\ y <> root).
  { destruct B as (l1 & l2 & l3 & B). rewrite Ht in B, ND. destruct l1 as [|z l1].
    - simpl in B. inversion B; subst. congruence.
    - inversion B; subst. split; [exists l1, l2, l3; reflexivity|].
      intros ->. inversion ND; subst. apply H1. rewrite !in_app_iff. simpl. rewrite in_app_iff. simpl. auto. }
  destruct Bt as [Bt Hy]. rewrite Ht in CM. simpl tl in CM.
  apply (ss_before _ _ _ _ CM) in Bt. destruct Bt as (px & py & H1 & H2 & H3).
  destruct (before_in _ _ _ B) as [Ix Iy].
  destruct (f_par _ _ _ F x Ix Hn) as (px' & G1 & _ & G3 & _ & a1 & a2 & G5 & G6).
  destruct (f_par _ _ _ F y Iy Hy) as (py' & K1 & _ & K3 & _ & b1 & b2 & K5 & K6).
  rewrite H1 in G1. inversion G1; subst px'. rewrite H2 in K1. inversion K1; subst py'.
  exists px, py. split; [exists a1, a2; auto|]. split; [exists b1, b2; auto|].
  rewrite Ht. exact H3.
Qed.

(** shortest path *)
Lemma sp_bfs adj root : in_bounds adj -> root < List.length adj ->
  while_queue (fun s => snd (fst (fst s)))
              (fun s q => (fst (fst (fst s)), q, snd (fst s), snd s))
              (sp_body adj) (S (List.length adj))
              (upd (repeat false (List.length adj)) root true, [root], repeat 0 (List.length adj), repeat None (List.length adj))
  = Ok (mx (bfs adj root), mq (bfs adj root), md (bfs adj root), mp (bfs adj root)).
Proof.
  intros W Hr.
  destruct (bfs_sim adj W (fun s => (mx s, mq s, md s, mp s))
     (fun a s b => let '(explored, queue, distance, parent) := s in
           let! e := get explored b in
           if e then Ok s else
           let! explored := set explored b true in
           let! da := get distance a in
           let! distance := set distance b (da + 1) in
           let! parent := set parent b (Some a) in
           Ok (explored, queue ++ [b], distance, parent))
     (fun _ => True) (fun s => snd (fst (fst s))) (fun s q => (fst (fst (fst s)), q, snd (fst s), snd s))
     (sp_body adj) root) as [R _]; auto.
  intros root' pd A a s b HI _ _ Ha Hb. split; auto. unfold mvisit.
  assert (L := i_lx _ _ _ _ _ HI). assert (L2 := i_ld _ _ _ _ _ HI). assert (L3 := i_lp _ _ _ _ _ HI).
  rewrite (get_ok _ b true) by lia. cbn [bind].
  destruct (nth b (mx s) true) eqn:Ex; [reflexivity|]. rewrite set_ok by lia. cbn [bind].
  rewrite (get_ok _ a 0) by lia. cbn [bind]. rewrite set_ok by lia. cbn [bind].
  rewrite set_ok by lia. reflexivity.
Qed.

Lemma dist_le_pos adj root : in_bounds adj -> root < List.length adj ->
  forall i l1 v l2, mo (bfs adj root) = l1 ++ v :: l2 -> List.length l1 = i -> nth v (md (bfs adj root)) 0 <= i.
Proof.
  intros W Hr. pose proof (bfs_final adj W root Hr) as F.
  induction i as [i IH] using lt_wf_ind. intros l1 v l2 Hm Hl.
  destruct (Nat.eq_dec v root) as [->|N]; [rewrite (f_droot _ _ _ F); lia|].
  assert (Hv : In v (mo (bfs adj root))) by (rewrite Hm, in_app_iff; simpl; auto).
  destruct (f_par _ _ _ F v Hv N) as (p & H1 & H2 & H3 & H4 & _).
  assert (Ip : In p l1).
  { rewrite Hm, in_app_iff in H2. destruct H2 as [H2|[->|H2]]; [exact H2|lia|].
    exfalso. apply in_split in H2. destruct H2 as (m1 & m2 & ->).
    assert (B : before (mo (bfs adj root)) v p) by (exists l1, m1, m2; exact Hm).
    pose proof (ss_before _ _ _ _ (f_sorted _ _ _ F) B). cbv beta in H. lia. }
  apply in_split in Ip. destruct Ip as (a1 & a2 & ->).
  rewrite app_length in Hl. simpl in Hl.
  assert (nth p (md (bfs adj root)) 0 <= List.length a1).
  { eapply (IH (List.length a1)); [lia| |reflexivity].
    rewrite Hm, <- app_assoc. reflexivity. }
  lia.
Qed.

Lemma dist_lt_n adj root v : in_bounds adj -> root < List.length adj -> In v (mo (bfs adj root)) ->
  nth v (md (bfs adj root)) 0 < List.length adj.
Proof.
  intros W Hr Hv. pose proof (bfs_final adj W root Hr) as F. apply in_split in Hv. destruct Hv as (l1 & l2 & Hm).
  pose proof (dist_le_pos adj root W Hr _ l1 v l2 Hm eq_refl).
  pose proof (NoDup_bound _ _ (f_nodup _ _ _ F) (f_lt _ _ _ F)) as B.
  rewrite Hm, app_length in B. simpl in B. lia.
Qed.

Lemma is_path_app R l a b : is_path R (l ++ [a]) -> R a b -> is_path R (l ++ [a; b]).
Proof.
  induction l as [|x l IH]; [simpl; auto|]. intros H1 H2.
  destruct l as [|y l]; [simpl in *; tauto|]. destruct H1 as [H1 H3]. split; [exact H1|].
  apply IH; assumption.
Qed.

Lemma walk_back_ok adj root : in_bounds adj -> root < List.length adj ->
  forall d v path fuel, In v (mo (bfs adj root)) -> nth v (md (bfs adj root)) 0 = d -> d <= fuel ->
  exists l, walk_back (mp (bfs adj root)) fuel v path = Ok (l ++ path) /\ List.length l = d /\
     is_path (adj_edge adj) (l ++ [v]) /\ hd v (l ++ [v]) = root.
Proof.
  intros W Hr. pose proof (bfs_final adj W root Hr) as F.
  induction d as [|d IH]; intros v path fuel Hv Hd Hf.
  - destruct (Nat.eq_dec v root) as [->|N].
    + exists []. split; [|simpl; auto]. destruct fuel; simpl; rewrite (get_ok _ root None), (f_proot _ _ _ F) by (rewrite (f_lp _ _ _ F); exact Hr); reflexivity.
    + destruct (f_par _ _ _ F v Hv N) as (p & _ & _ & _ & H & _). lia.
  - destruct (Nat.eq_dec v root) as [->|N]; [rewrite (f_droot _ _ _ F) in Hd; lia|].
    destruct (f_par _ _ _ F v Hv N) as (p & H1 & H2 & H3 & H4 & _).
    assert (Hvn : v < List.length adj).
    { pose proof (f_lt _ _ _ F) as L. rewrite Forall_forall in L. auto. }
    destruct fuel as [|fuel]; [lia|].
    destruct (IH p (p :: path) fuel H2 ltac:(lia) ltac:(lia)) as (l & L1 & L2 & L3 & L4).
    exists (l ++ [p]). split; [|split; [|split]].
    + simpl. rewrite (get_ok _ v None), H1 by (rewrite (f_lp _ _ _ F); exact Hvn). cbn [bind].
      rewrite L1, <- app_assoc. reflexivity.
    + rewrite app_length. simpl. lia.
    + rewrite <- app_assoc. apply is_path_app; auto.
    + destruct l as [|x l]; simpl in *; auto.
Qed.

Lemma dup_split (l : list nat) : ~ NoDup l -> exists x l1 l2 l3, l = l1 ++ x :: l2 ++ x :: l3.
Proof.
  induction l as [|a l IH]; intros H; [elim H; constructor|].
  destruct (in_dec Nat.eq_dec a l) as [I|N].
  - apply in_split in I. destruct I as (l2 & l3 & ->). exists a, [], l2, l3. reflexivity.
  - destruct IH as (x & l1 & l2 & l3 & ->); [intros ND; apply H; constructor; auto|].
    exists x, (a :: l1), l2, l3. reflexivity.
Qed.

Lemma shortest_path_correct g a b : in_bounds (adjacency g) -> a < nv g -> reachable (edge g) a b ->
  exists path, shortest_path_bfs g a b = Ok path /\ is_path (edge g) path /\
    hd_error path = Some a /\ (exists q, path = q ++ [b]) /\ NoDup path /\
    forall k, walk (edge g) a b k -> List.length path <= S k.
Proof.
  unfold nv, edge. intros W Ha HR. unfold shortest_path_bfs.
  rewrite set_ok by (rewrite repeat_length; exact Ha). cbn [bind]. rewrite sp_bfs by assumption. cbn [bind].
  assert (Hb : In b (mo (bfs (adjacency g) a))) by (apply explored_iff; auto).
  pose proof (dist_lt_n _ _ _ W Ha Hb).
  destruct (walk_back_ok _ a W Ha _ b [b] (List.length (adjacency g)) Hb eq_refl ltac:(lia)) as (l & L1 & L2 & L3 & L4).
  destruct (dist_correct _ W a b Ha HR) as [D1 D2].
  exists (l ++ [b]). split; [exact L1|]. split; [exact L3|].
  split; [destruct l; simpl in *; congruence|]. split; [eauto|]. split.
  - (* a shortest path has no repeated vertex *)
    assert (Hlen : forall k, walk (adj_edge (adjacency g)) a b k -> List.length l <= k) by (intros; rewrite L2; auto).
    assert (Hhd : exists t, l ++ [b] = a :: t) by (destruct l; simpl in *; [exists []; congruence|exists (l ++ [b]); congruence]).
    clear -L3 Hlen Hhd.
    assert (PW : forall m x y, is_path (adj_edge (adjacency g)) (x :: m ++ [y]) -> walk (adj_edge (adjacency g)) x y (S (List.length m))).
    { clear. induction m as [|z m IH]; intros x y HP.
      - simpl in *. apply walk_one. tauto.
      - simpl in HP. destruct HP as [H1 H2]. simpl. econstructor; [exact H1|]. apply IH. exact H2. }
    assert (Sub : forall l1 l2, is_path (adj_edge (adjacency g)) (l1 ++ l2) -> is_path (adj_edge (adjacency g)) l1 /\ is_path (adj_edge (adjacency g)) l2).
    { clear. induction l1 as [|x l1 IH]; intros l2 HP; [simpl; auto|].
      destruct l1 as [|y l1].
      - simpl in *. destruct l2; simpl in *; tauto.
      - simpl in HP. destruct HP as [H1 H2]. destruct (IH l2 H2) as [A B]. simpl. auto. }
    assert (PW2 : forall m x y, is_path (adj_edge (adjacency g)) (x :: m) -> (exists q, x :: m = q ++ [y]) ->
       walk (adj_edge (adjacency g)) x y (List.length m)).
    { intros m x y HP [q Hq]. destruct q as [|z q]; simpl in Hq; inversion Hq; subst.
      - constructor.
      - rewrite app_length. simpl. rewrite Nat.add_1_r. apply PW. exact HP. }
    destruct Hhd as [t Ht].
    set (w := l ++ [b]) in *.
    assert (Lw : List.length w = S (List.length l)) by (unfold w; rewrite app_length; simpl; lia).
    destruct (NoDup_dec Nat.eq_dec w) as [|ND]; auto. exfalso.
    apply dup_split in ND. destruct ND as (x & w1 & w2 & w3 & Hw).
    (* shortcut *)
    assert (HW1 : walk (adj_edge (adjacency g)) a x (List.length w1)).
    { destruct w1 as [|z w1].
      - rewrite Hw in Ht. simpl in Ht. inversion Ht; subst. constructor.
      - rewrite Hw in Ht. simpl in Ht. inversion Ht; subst. simpl. apply PW.
        rewrite Hw in L3. change ((a :: w1) ++ x :: w2 ++ x :: w3) with (a :: w1 ++ x :: w2 ++ x :: w3) in L3.
        replace (a :: w1 ++ x :: w2 ++ x :: w3) with ((a :: w1 ++ [x]) ++ (w2 ++ x :: w3)) in L3
          by (simpl; rewrite <- app_assoc; reflexivity).
        apply Sub in L3. tauto. }
    assert (HW2 : walk (adj_edge (adjacency g)) x b (List.length w3)).
    { apply PW2.
      - rewrite Hw in L3. replace (w1 ++ x :: w2 ++ x :: w3) with ((w1 ++ x :: w2) ++ (x :: w3)) in L3
          by (rewrite <- app_assoc; reflexivity). apply Sub in L3. tauto.
      - assert (Hlast : exists q, w3 = q ++ [b] \/ (w3 = [] /\ x = b)).
        { destruct w3 as [|z w3'] using rev_ind.
          - exists []. right. split; auto. unfold w in Hw.
            replace (w1 ++ x :: w2 ++ [x]) with ((w1 ++ x :: w2) ++ [x]) in Hw by (rewrite <- app_assoc; reflexivity).
            apply app_inj_tail in Hw. symmetry; tauto.
          - exists w3'. left. unfold w in Hw.
            replace (w1 ++ x :: w2 ++ x :: w3' ++ [z]) with ((w1 ++ x :: w2 ++ x :: w3') ++ [z]) in Hw
              by (rewrite <- !app_assoc; simpl; rewrite <- app_assoc; reflexivity).
            apply app_inj_tail in Hw. destruct Hw as [_ <-]. reflexivity. }
        destruct Hlast as (q & [->|[-> ->]]); [exists (x :: q)|exists []]; reflexivity. }
    pose proof (Hlen _ (walk_app _ _ _ _ _ _ HW1 HW2)) as C.
    assert (List.length w = List.length w1 + S (List.length w2 + S (List.length w3))).
    { rewrite Hw, app_length. simpl. rewrite app_length. reflexivity. }
    lia.
  - intros k Hk. rewrite app_length, L2. simpl. specialize (D2 k Hk). lia.
Qed.

Lemma shortest_path_unreachable g a b : in_bounds (adjacency g) -> a < nv g -> b < nv g ->
  ~ reachable (edge g) a b -> shortest_path_bfs g a b = Ok [b].
Proof.
  unfold nv, edge. intros W Ha Hb HR. unfold shortest_path_bfs.
  rewrite set_ok by (rewrite repeat_length; exact Ha). cbn [bind]. rewrite sp_bfs by assumption. cbn [bind snd].
  pose proof (bfs_final _ W a Ha) as F.
  destruct (f_fresh _ _ _ F b) as [_ Pb].
  { intros H. apply HR. apply explored_iff; auto. }
  assert (G : get (mp (bfs (adjacency g) a)) b = Ok None).
  { rewrite (get_ok _ b None), Pb by (rewrite (f_lp _ _ _ F); exact Hb). reflexivity. }
  destruct (List.length (adjacency g)); simpl; rewrite G; reflexivity.
Qed.
