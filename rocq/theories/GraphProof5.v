(* Summary lemmas used by PropGraph.v *)
From Coq Require Import String List Arith Bool Lia Sorted Permutation ZArith.
From Verif Require Import Base BaseFacts MeshModel GraphModel GraphSpec GraphVocab GraphProof GraphProof2 GraphProof3 GraphProof4.
Import ListNotations.
Open Scope nat_scope.

Lemma built_ready adj g n : Good n adj -> (forall u v, adj_edge adj u v -> adj_edge adj v u) ->
  Built adj true g -> ready g /\ nv g = n /\ forall u v, edge g u v <-> adj_edge adj u v.
Proof.
  intros (L & ND & W) Sym B.
  assert (Ed : forall a b, edge g a b <-> adj_edge adj a b).
  { intros a b. unfold edge, adj_edge. split; intros Hi; (eapply Permutation_in; [|exact Hi]);
      [|apply Permutation_sym]; apply (b_rows _ _ _ B). }
  split; [|split; [rewrite (b_len _ _ _ B); exact L|exact Ed]].
  constructor.
  - apply (b_bounds _ _ _ B).
  - intros u v. rewrite !Ed. auto.
  - apply (b_nodup _ _ _ B ND).
  - intros u x y Hb. pose proof (ss_before _ _ _ _ (b_sorted _ _ _ B u) Hb) as K. cbv beta iota in K.
    apply key_leb_iff in K. assert (x <> y); [|lia].
    intros ->. eapply nodup_before_irrefl; [apply (b_nodup _ _ _ B ND u)|exact Hb].
  - apply (b_degree _ _ _ B).
  - intros H0. destruct (b_pmin _ _ _ B eq_refl) as (P1 & P2 & P3).
    { intros ->. rewrite (b_len _ _ _ B) in H0. simpl in H0. lia. }
    split; auto. intros i Hi. specialize (P2 i Hi). destruct (le_dec (p_min_degree g) i); [lia|].
    specialize (P3 i ltac:(lia)). lia.
Qed.

Lemma from_edges_ready edges n calc chk g :
  (forall e, In e edges -> fst e < n /\ snd e < n) ->
  (forall u, u < n -> exists e, In e edges /\ (u = fst e \/ u = snd e)) ->
  from_edges edges calc chk = Ok g ->
  nv g = n /\ (forall a b, edge g a b <-> In (a, b) edges \/ In (b, a) edges) /\
  (calc = true -> ready g) /\ (chk = true -> connected (edge g) n) /\
  ((forall u, ~ In (u, u) edges) -> nedge g = List.length (get_edges g)).
Proof.
  intros H1 H2 HG. destruct (from_edges_adj edges n calc chk H1 H2) as (adj & (L & ND & W) & R & HE).
  rewrite HE in HG. destruct (built_any _ _ _ _ W HG) as [B C].
  assert (Ed : forall a b, edge g a b <-> adj_edge adj a b).
  { intros a b. unfold edge, adj_edge. split; intros Hi; (eapply Permutation_in; [|exact Hi]);
      [|apply Permutation_sym]; apply (b_rows _ _ _ B). }
  assert (Sym : forall u v, adj_edge adj u v -> adj_edge adj v u) by (intros u v; rewrite !R; tauto).
  split; [rewrite (b_len _ _ _ B); exact L|]. split; [intros a b; rewrite Ed; apply R|].
  split; [intros ->; eapply built_ready; [split; eauto|exact Sym|exact B]|]. split.
  - intros Hc. destruct (C Hc) as [_ C2]. rewrite L in C2. apply connected_from_zero.
    + intros x y. rewrite !Ed. apply Sym.
    + intros v Hv. destruct (C2 v Hv) as [k Hk]. exists k. eapply walk_iff; [|exact Hk]. intros; rewrite Ed; tauto.
  - intros NL. rewrite (b_nedge _ _ _ B), edge_count.
    + rewrite Nat.mul_comm. apply Nat.div_mul. lia.
    + apply (b_nodup _ _ _ B ND).
    + intros u v. rewrite !Ed. apply Sym.
    + intros u. rewrite Ed, R. specialize (NL u). tauto.
Qed.

Lemma from_edges_connectivity edges n calc : 0 < n ->
  (forall e, In e edges -> fst e < n /\ snd e < n) ->
  (forall u, u < n -> exists e, In e edges /\ (u = fst e \/ u = snd e)) ->
  ((exists g, from_edges edges calc true = Ok g) <-> connected (fun a b => In (a, b) edges \/ In (b, a) edges) n) /\
  ((exists g, from_edges edges calc true = Ok g) \/
   from_edges edges calc true = Err "there are hanging vertices/edges in the mesh (graph is disconnected)") /\
  (exists g, from_edges edges calc false = Ok g).
Proof.
  intros H0 H1 H2. destruct (from_edges_adj edges n calc true H1 H2) as (adj & (L & ND & W) & R & HE). rewrite HE.
  destruct (from_edges_adj edges n calc false H1 H2) as (adj' & (L' & ND' & W') & R' & HE').
  assert (RR : (forall v, v < List.length adj -> reachable (adj_edge adj) 0 v) <->
     connected (fun a b => In (a, b) edges \/ In (b, a) edges) n).
  { rewrite L. split.
    - intros K. apply connected_from_zero; [intros; tauto|].
      intros v Hv. destruct (K v Hv) as [k Hk]. exists k. eapply walk_iff; [|exact Hk]. exact R.
    - intros K v Hv. destruct (K 0 v H0 Hv) as [k Hk]. exists k. eapply walk_iff; [|exact Hk]. intros; rewrite R; tauto. }
  destruct (check_connected_iff adj W ltac:(lia)) as [C1 C2].
  destruct (built_unchecked adj calc W) as (g0 & U & _).
  rewrite <- RR, <- C1, from_adjacency_checked.
  split; [|split].
  - destruct (check_connected adj) as [[]|m1| |] eqn:Ec; cbn [bind]; (split; [intros [g Hg]; try discriminate; reflexivity|try discriminate]); intros _; eauto.
  - destruct (check_connected adj) as [[]|m1| |] eqn:Ec.
    + left. eauto.
    + right. specialize (C2 ltac:(discriminate)). rewrite C2. reflexivity.
    + specialize (C2 ltac:(discriminate)). discriminate.
    + specialize (C2 ltac:(discriminate)). discriminate.
  - rewrite HE'. destruct (built_unchecked adj' calc W') as (g1 & U1 & _). eauto.
Qed.

Lemma from_mesh_ready {T} (m : mesh T) calc chk g : cells_in_range m -> from_mesh m calc chk = Ok g ->
  nv g = List.length (points m) /\ (forall a b, edge g a b <-> mesh_edge m a b) /\
  (calc = true -> ready g) /\ (chk = true -> connected (edge g) (nv g)) /\
  nedge g = List.length (get_edges g).
Proof.
  intros H HG. destruct (from_mesh_spec m calc chk g H HG) as (A1 & A2 & _ & _ & _ & A6 & _ & _ & A9).
  split; [exact A1|]. split; [exact A2|]. split; [|split; [|exact A6]].
  - intros ->. destruct (from_mesh_adj m true chk H) as (adj & G & R & HE). rewrite HE in HG.
    destruct (built_any _ _ _ _ (proj2 (proj2 G)) HG) as [B _].
    eapply built_ready; [exact G| |exact B]. intros u v. rewrite !R. apply mesh_edge_sym.
  - intros Hc. rewrite A1. apply connected_from_zero.
    + intros x y. rewrite !A2. apply mesh_edge_sym.
    + intros v Hv. destruct (A9 Hc v Hv) as [k Hk]. exists k. eapply walk_iff; [|exact Hk]. intros; rewrite A2; tauto.
Qed.

Lemma ready_len g : ready g -> List.length (degree g) = nv g.
Proof. intros R. rewrite (r_degree _ R). apply map_length. Qed.

Lemma cm_permutation g root : ready g -> connected (edge g) (nv g) -> root < nv g ->
  exists ord, cuthill_mckee g (Some root) = Ok ord /\ Permutation ord (seq 0 (nv g)) /\ exists q, ord = q ++ [root].
Proof.
  intros R C Hr. destruct (cm_run g (r_bounds _ R) C (ready_len _ R) root Hr) as (l & E1 & P & (t & Ht) & _).
  exists (rev l). split; auto. split.
  - rewrite <- P. apply Permutation_sym, Permutation_rev.
  - exists (rev t). rewrite Ht. reflexivity.
Qed.

Lemma cm_none g : cuthill_mckee g None =
  if List.length (degree g) =? nv g then (let! r := pseudo_peripheral g None in cuthill_mckee g (Some r))
  else Err "Cuthill-McKee algorithm requires the degree of vertices (calc_degree must be set to true)".
Proof.
  unfold cuthill_mckee, nv. destruct (List.length (degree g) =? List.length (adjacency g)); cbn [negb]; [|reflexivity].
  destruct (pseudo_peripheral g None); reflexivity.
Qed.

Lemma cm_start g start ord : ready g -> 0 < nv g -> connected (edge g) (nv g) ->
  (forall r, start = Some r -> r < nv g) ->
  cuthill_mckee g start = Ok ord ->
  exists root, (start = Some root \/ (start = None /\ pseudo_peripheral g None = Ok root)) /\ root < nv g /\
    cuthill_mckee g (Some root) = Ok ord.
Proof.
  intros R H0 C Hs H. destruct start as [r|].
  - exists r. auto.
  - rewrite cm_none in H. rewrite (ready_len _ R), Nat.eqb_refl in H.
    apply bind_ok in H. destruct H as (r & H1 & H2). exists r. split; auto. split; auto.
    eapply pseudo_peripheral_spec in H1; [apply H1|apply (r_bounds _ R)|apply (r_sym _ R)|exact C|apply (ready_len _ R)|].
    apply (r_pmin _ R). exact H0.
Qed.

Lemma cm_rule g root ord : ready g -> connected (edge g) (nv g) -> root < nv g ->
  cuthill_mckee g (Some root) = Ok ord ->
  (forall x y dx dy, before ord x y -> is_dist (edge g) root x dx -> is_dist (edge g) root y dy -> dy <= dx) /\
  (forall x, In x ord -> x <> root -> exists p, before ord x p /\ edge g p x) /\
  (forall x y, before (rev ord) x y -> x <> root ->
     exists px py, first_neighbour (edge g) (rev ord) px x /\ first_neighbour (edge g) (rev ord) py y /\
       (before (rev ord) px py \/
        (px = py /\ (nth x (degree g) 0 < nth y (degree g) 0 \/ (nth x (degree g) 0 = nth y (degree g) 0 /\ x < y))))).
Proof.
  intros R C Hr H. destruct (cm_run g (r_bounds _ R) C (ready_len _ R) root Hr) as (l & E1 & P & (t & Ht) & S1 & S2 & S3).
  rewrite H in E1. inversion E1; subst ord. rewrite rev_involutive. split; [|split].
  - intros x y dx dy B. apply (proj2 (before_rev _ _ _)) in B. intros. eapply S1; eauto.
  - intros x Hx Hn. apply in_rev in Hx. destruct (S2 x Hx Hn) as (p & B & HE). exists p. split; auto.
    apply (proj1 (before_rev _ _ _)). exact B.
  - intros x y B Hn. destruct (S3 x y B Hn) as (px & py & F1 & F2 & F3). exists px, py. split; auto. split; auto.
    destruct F3 as [F3|[-> F3]]; auto. right. split; auto. apply (r_sorted _ R py). exact F3.
Qed.

(* renumber_mesh succeeds on a connected mesh as soon as the search for the start vertex does *)
Lemma renumber_mesh_total {T} (m : mesh T) chk g r : well_formed m -> points m <> [] ->
  connected (mesh_edge m) (List.length (points m)) ->
  from_mesh m true chk = Ok g -> pseudo_peripheral g None = Ok r ->
  exists m', renumber_mesh m chk = Ok m'.
Proof.
  intros Wf Hne C HG HP. destruct (from_mesh_ready m true chk g (proj1 Wf) HG) as (A1 & A2 & A3 & _).
  specialize (A3 eq_refl).
  assert (H0 : 0 < nv g) by (rewrite A1; destruct (points m); simpl; [congruence|lia]).
  assert (C' : connected (edge g) (nv g)).
  { rewrite A1. intros u v Hu Hv. destruct (C u v Hu Hv) as [k Hk]. exists k. eapply walk_iff; [|exact Hk]. intros; rewrite A2; tauto. }
  assert (Hr : r < nv g).
  { eapply pseudo_peripheral_spec in HP; [apply HP|apply (r_bounds _ A3)|apply (r_sym _ A3)|exact C'|apply (ready_len _ A3)|].
    apply (r_pmin _ A3). exact H0. }
  unfold renumber_mesh. rewrite HG. cbn [bind]. rewrite cm_none, (ready_len _ A3), Nat.eqb_refl, HP. cbn [bind].
  destruct (cm_permutation g r A3 C' Hr) as (ord & E1 & P1 & _). rewrite E1. cbn [bind].
  destruct (old_to_new_perm ord (nv g) P1) as (o2n & E2 & P2 & _). rewrite E2. cbn [bind].
  rewrite A1 in P2. destruct (proj1 (renumber_points_spec m o2n Wf) P2) as (m' & E3 & _). eauto.
Qed.

(* the renumbering used by renumber_mesh is the inverse of the Cuthill-McKee ordering *)
Lemma renumber_mesh_order {T} (m m' : mesh T) chk : well_formed m -> points m <> [] ->
  connected (mesh_edge m) (List.length (points m)) -> renumber_mesh m chk = Ok m' ->
  exists g ord o2n, from_mesh m true chk = Ok g /\ cuthill_mckee g None = Ok ord /\
    Permutation ord (seq 0 (List.length (points m))) /\ Permutation o2n (seq 0 (List.length (points m))) /\
    (forall new, new < List.length (points m) -> nth (nth new ord 0) o2n 0 = new) /\ renumbered m o2n m'.
Proof.
  intros Wf Hne C H. unfold renumber_mesh in H.
  apply bind_ok in H. destruct H as (g & HG & H). apply bind_ok in H. destruct H as (ord & HO & H).
  apply bind_ok in H. destruct H as (o2n & HM & H).
  destruct (from_mesh_ready m true chk g (proj1 Wf) HG) as (A1 & A2 & A3 & _).
  specialize (A3 eq_refl).
  assert (H0 : 0 < nv g) by (rewrite A1; destruct (points m); simpl; [congruence|lia]).
  assert (C' : connected (edge g) (nv g)).
  { rewrite A1. intros u v Hu Hv. destruct (C u v Hu Hv) as [k Hk]. exists k. eapply walk_iff; [|exact Hk]. intros; rewrite A2; tauto. }
  destruct (cm_start g None ord A3 H0 C' ltac:(discriminate) HO) as (r & _ & Hr & E1).
  destruct (cm_permutation g r A3 C' Hr) as (ord2 & E2 & P1 & _). rewrite E1 in E2. inversion E2; subst ord2.
  destruct (old_to_new_perm ord (nv g) P1) as (o2n2 & E3 & P2 & K). rewrite HM in E3. inversion E3; subst o2n2.
  rewrite A1 in *. exists g, ord, o2n. repeat (split; auto).
  all: destruct (renumber_points_spec m o2n Wf) as [R1 _]; destruct (R1 P2) as (m2 & E4 & R2 & _);
    rewrite H in E4; inversion E4; subst; apply R2.
Qed.

Lemma get_degree_spec g u : ready g -> u < nv g -> get_degree g u = Ok (List.length (nth u (adjacency g) [])).
Proof.
  intros R Hu. unfold get_degree. pose proof (ready_len _ R) as L. unfold nv in *. rewrite L, Nat.eqb_refl. cbn [negb].
  destruct (Nat.leb_spec (List.length (adjacency g)) u); [lia|].
  rewrite (get_ok _ u 0) by lia. rewrite (r_degree _ R). f_equal.
  change 0 with (@List.length nat []). apply map_nth.
Qed.

(** bandwidth after renumbering *)
Lemma renumbered_edge {T} (m m' : mesh T) o2n : well_formed m -> renumbered m o2n m' ->
  Permutation o2n (seq 0 (List.length (points m))) ->
  forall x y, mesh_edge m' x y <-> exists a b, mesh_edge m a b /\ x = nth a o2n 0 /\ y = nth b o2n 0.
Proof.
  intros Wf (R1 & R2 & R3 & R4) P x y.
  assert (ND : NoDup o2n) by (eapply Permutation_NoDup; [apply Permutation_sym; exact P|apply seq_NoDup]).
  pose proof (Permutation_length P) as L. rewrite seq_length in L. unfold mesh_edge. rewrite R4. split.
  - intros (Hn & c & Hc & Hx & Hy). apply in_map_iff in Hc. destruct Hc as (c0 & <- & Hc). simpl in Hx, Hy.
    apply in_map_iff in Hx. destruct Hx as (a & <- & Ha). apply in_map_iff in Hy. destruct Hy as (b & <- & Hb).
    exists a, b. split; auto. split; [congruence|]. eauto.
  - intros (a & b & (Hn & c & Hc & Ha & Hb) & -> & ->). split.
    + intros He. apply Hn. apply (proj1 (NoDup_nth o2n 0) ND); auto; rewrite L; eapply (proj1 Wf); eauto.
    + eexists. split; [apply in_map; exact Hc|]. simpl. split; apply (in_map (fun p => nth p o2n 0)); auto.
Qed.

Lemma renumbered_wf {T} (m m' : mesh T) o2n : well_formed m -> renumbered m o2n m' ->
  Permutation o2n (seq 0 (List.length (points m))) -> cells_in_range m'.
Proof.
  intros [Wf _] (R1 & R2 & R3 & R4) P c p Hc Hp. rewrite R4 in Hc. apply in_map_iff in Hc.
  destruct Hc as (c0 & <- & Hc). simpl in Hp. apply in_map_iff in Hp. destruct Hp as (a & <- & Ha).
  rewrite R2. pose proof (Permutation_length P) as L. rewrite seq_length in L.
  assert (In (nth a o2n 0) (seq 0 (List.length (points m)))) as H.
  { eapply Permutation_in; [exact P|]. apply nth_In. rewrite L. eapply Wf; eauto. }
  apply in_seq in H. lia.
Qed.

Lemma renumber_points_ok {T} (m m' : mesh T) o2n : well_formed m -> renumber_points m o2n = Ok m' ->
  Permutation o2n (seq 0 (List.length (points m))) /\ renumbered m o2n m' /\
  marked_edges m' = marked_edges m /\ marked_faces m' = marked_faces m.
Proof.
  intros Wf H. destruct (renumber_points_spec m o2n Wf) as [A B].
  destruct (perm_seq_dec o2n (List.length (points m))) as [P|N].
  - destruct (A P) as (m2 & E2 & R2). rewrite H in E2. inversion E2; subst. auto.
  - destruct (B N) as [msg Hm]. congruence.
Qed.

Lemma bandwidth_renumbered {T} (m m' : mesh T) o2n calc chk g' :
  well_formed m -> points m <> [] -> renumber_points m o2n = Ok m' -> from_mesh m' calc chk = Ok g' ->
  1 <= calc_bandwidth g' /\
  (forall a b, mesh_edge m a b -> nth a o2n 0 < nth b o2n 0 -> nth b o2n 0 - nth a o2n 0 + 1 <= calc_bandwidth g') /\
  (calc_bandwidth g' = 1 \/ exists a b, mesh_edge m a b /\ nth a o2n 0 < nth b o2n 0 /\
     calc_bandwidth g' = nth b o2n 0 - nth a o2n 0 + 1).
Proof.
  intros Wf Hne H HG. destruct (renumber_points_ok m m' o2n Wf H) as (P & R & _).
  destruct (from_mesh_ready m' calc chk g' (renumbered_wf m m' o2n Wf R P) HG) as (A1 & A2 & _).
  assert (H0 : 0 < nv g').
  { rewrite A1. rewrite (proj1 (proj2 R)). destruct (points m); simpl; [congruence|lia]. }
  destruct (calc_bandwidth_spec g' H0) as (B1 & B2 & B3). split; auto.
  pose proof (renumbered_edge m m' o2n Wf R P) as RE. split.
  - intros a b He Hl. apply B2; auto. apply A2, RE. eauto.
  - destruct B3 as [B3|(i & j & B4 & B5 & B6)]; auto. right. apply A2, RE in B4.
    destruct B4 as (a & b & He & -> & ->). eauto.
Qed.

Lemma marked_fixed {T} (m m' : mesh T) o2n : well_formed m -> renumber_points m o2n = Ok m' ->
  marked_edges m' = marked_edges m /\ marked_faces m' = marked_faces m /\
  forall mk a b, In (mk, a, b) (marked_edges m) -> a < List.length (points m) -> b < List.length (points m) ->
    nth a o2n 0 = a -> nth b o2n 0 = b ->
    option_map pt_coords (nth_error (points m') a) = option_map pt_coords (nth_error (points m) a) /\
    option_map pt_coords (nth_error (points m') b) = option_map pt_coords (nth_error (points m) b).
Proof.
  intros Wf H. destruct (renumber_points_ok m m' o2n Wf H) as (P & R & M1 & M2). split; auto. split; auto.
  assert (K : forall i, i < List.length (points m) -> nth i o2n 0 = i ->
     option_map pt_coords (nth_error (points m') i) = option_map pt_coords (nth_error (points m) i)).
  { intros i Hi He. destruct (nth_error (points m) i) as [p|] eqn:Ep.
    - pose proof (proj1 (proj2 (proj2 R)) i p Ep) as Q. rewrite He in Q. rewrite Q. reflexivity.
    - apply nth_error_None in Ep. lia. }
  intros mk a b _ Ha Hb Ea Eb. split; apply K; auto.
Qed.
