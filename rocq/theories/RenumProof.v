(* Renumbering the points of a mesh: what the features, the neighbours and the scratchpads become. *)
From Coq Require Import String Reals List Arith Bool Lia ZArith Permutation Sorted.
From Verif Require Import Base BaseFacts Kind MeshModel GraphModel GraphSpec GraphVocab MeshQuerySpec MeshQueryProof TopoModel TopoSpec TopoMaps TopoProof TopoFeat3 TopoFeat5 TopoFeat6 TopoFinal PadModel.
Import ListNotations.
Local Open Scope list_scope.
Local Open Scope nat_scope.

Section Renum.
Context {T : Type}.
Variables (m m' : mesh T) (o2n : list nat).
Hypothesis C : consistent m.
Hypothesis Pm : Permutation o2n (seq 0 (List.length (points m))).
Hypothesis Rn : renumbered m o2n m'.
Let n := List.length (points m).
Let pi (p : nat) : nat := nth p o2n 0.

Lemma pi_len : List.length o2n = n.
Proof. rewrite (Permutation_length Pm), seq_length. reflexivity. Qed.
Lemma pi_lt p : p < n -> pi p < n.
Proof. intros L. assert (I : In (pi p) o2n) by (apply nth_In; rewrite pi_len; exact L). apply (Permutation_in _ Pm), in_seq in I. unfold n. lia. Qed.
Lemma pi_inj p q : p < n -> q < n -> pi p = pi q -> p = q.
Proof.
  intros L L' E. assert (Nd : NoDup o2n) by (apply (Permutation_NoDup (Permutation_sym Pm)), seq_NoDup).
  rewrite (NoDup_nth o2n 0) in Nd. apply Nd; rewrite ?pi_len; auto.
Qed.
Lemma pi_surj p' : p' < n -> exists p, p < n /\ pi p = p'.
Proof.
  intros L. assert (I : In p' o2n) by (apply (Permutation_in _ (Permutation_sym Pm)), in_seq; unfold n in L; lia).
  apply (In_nth _ _ 0) in I as (p & Lp & E). exists p. rewrite pi_len in Lp. auto.
Qed.
Lemma map_pi_inj : forall l l', (forall p, In p l -> p < n) -> (forall p, In p l' -> p < n) -> map pi l = map pi l' -> l = l'.
Proof.
  induction l as [|a l IH]; intros [|b l'] A B E; try discriminate; [reflexivity|]. cbn [map] in E. injection E as E1 E2. f_equal.
  - apply pi_inj; auto; [apply A|apply B]; now left.
  - apply IH; auto; intros p I; [apply A|apply B]; now right.
Qed.
Lemma perm_pi l l' : (forall p, In p l -> p < n) -> (forall p, In p l' -> p < n) -> Permutation (map pi l) (map pi l') <-> Permutation l l'.
Proof.
  intros A B. split; [|apply Permutation_map]. intros H. apply Permutation_map_inv in H as (l3 & E & H). rewrite (map_pi_inj l l3 A) by (auto; intros p I; apply B; apply (Permutation_in _ (Permutation_sym H) I)).
  now apply Permutation_sym.
Qed.

Definition moved (c : MeshModel.cell) : MeshModel.cell := mkCell (c_id c) (c_marker c) (c_kind c) (map pi (c_points c)).
Lemma cells_moved : cells m' = map moved (cells m).
Proof. apply Rn. Qed.
Lemma ndim_same : ndim m' = ndim m.
Proof. apply Rn. Qed.
Lemma npoints_same : List.length (points m') = n.
Proof. apply Rn. Qed.
Lemma cell_range c p : In c (cells m) -> In p (c_points c) -> p < n.
Proof. intros I J. apply In_nth_error in I as (i & I). destruct C as (_ & X). destruct (X i c I) as (_ & _ & Y). apply Y. exact J. Qed.
Lemma consistent_moved : consistent m'.
Proof.
  destruct C as (X & Y). split.
  - intros i p E. assert (L : i < n) by (rewrite <- npoints_same; apply nth_error_Some; congruence). destruct (pi_surj i L) as (j & Lj & <-).
    destruct (nth_error (points m) j) as [q|] eqn:Eq; [|apply nth_error_None in Eq; unfold n in Lj; lia].
    destruct Rn as (_ & _ & Z & _). specialize (Z j q Eq). fold (pi j) in Z. rewrite Z in E. injection E as <-. reflexivity.
  - intros i c E. rewrite cells_moved, nth_error_map in E. destruct (nth_error (cells m) i) as [c0|] eqn:E0; [|discriminate]. injection E as <-.
    destruct (Y i c0 E0) as (A & B & D). cbn. split; [exact A|]. split; [now rewrite map_length|]. intros q I. apply in_map_iff in I as (p & <- & I). rewrite npoints_same. apply pi_lt, D, I.
Qed.
Lemma complete_moved : coords_complete m -> coords_complete m'.
Proof.
  intros K p I. apply In_nth_error in I as (i & E). assert (L : i < n) by (rewrite <- npoints_same; apply nth_error_Some; congruence). destruct (pi_surj i L) as (j & Lj & <-).
  destruct (nth_error (points m) j) as [q|] eqn:Eq; [|apply nth_error_None in Eq; unfold n in Lj; lia].
  destruct Rn as (D & _ & Z & _). specialize (Z j q Eq). fold (pi j) in Z. rewrite Z in E. injection E as <-. cbn. rewrite D. apply K. apply nth_error_In in Eq. exact Eq.
Qed.
Lemma tets_moved : no_quadratic_tets m -> no_quadratic_tets m'.
Proof. intros H c I. rewrite cells_moved in I. apply in_map_iff in I as (c0 & <- & I). exact (H c0 I). Qed.
Lemma fits_moved : fits m -> fits m'.
Proof. intros H c I. rewrite cells_moved in I. apply in_map_iff in I as (c0 & <- & I). rewrite ndim_same. exact (H c0 I). Qed.
Lemma nth_moved l i : nth_error (map pi l) i = option_map pi (nth_error l i).
Proof. apply nth_error_map. Qed.
Lemma some_moved l p' : option_map pi l = Some p' <-> exists p, l = Some p /\ p' = pi p.
Proof. destruct l as [p|]; cbn; split; [intros E; injection E as <-; eauto|intros (q & E & ->); congruence|discriminate|intros (q & E & _); discriminate]. Qed.

(* edges in 2D *)
Lemma edge_range c e p q : edge_of m c e p q -> p < n /\ q < n.
Proof. intros (cl & I & _ & _ & _ & A & B). split; [apply (cell_range cl p I)|apply (cell_range cl q I)]; eapply nth_error_In; eauto. Qed.
Lemma edge_moved c e p' q' : edge_of m' c e p' q' <-> exists p q, p' = pi p /\ q' = pi q /\ edge_of m c e p q.
Proof.
  split.
  - intros (cl & I & E & D & L & A & B). rewrite cells_moved in I. apply in_map_iff in I as (c0 & <- & I). cbn [moved c_id c_kind c_points] in *.
    rewrite nth_moved in A, B. apply some_moved in A as (p & A & ->). apply some_moved in B as (q & B & ->). exists p, q. split; [reflexivity|]. split; [reflexivity|]. exists c0. repeat split; auto.
  - intros (p & q & -> & -> & cl & I & E & D & L & A & B). exists (moved cl). rewrite cells_moved. split; [now apply in_map|]. cbn [moved c_id c_kind c_points].
    rewrite !nth_moved, A, B. repeat split; auto.
Qed.
Lemma pair_moved a b p q : a < n -> b < n -> p < n -> q < n -> same_pair (pi a) (pi b) (pi p) (pi q) <-> same_pair a b p q.
Proof.
  intros A B P Q. unfold same_pair. split; [|intros [(-> & ->)|(-> & ->)]; auto]. intros [(E1 & E2)|(E1 & E2)]; apply pi_inj in E1, E2; auto.
Qed.
Lemma has_edge_moved a b ce : a < n -> b < n -> TopoSpec.has_edge m' (pi a) (pi b) ce <-> TopoSpec.has_edge m a b ce.
Proof.
  intros A B. split.
  - intros (p' & q' & E & S). apply edge_moved in E as (p & q & -> & -> & E). destruct (edge_range _ _ _ _ E) as (Lp & Lq). exists p, q. split; [exact E|]. exact (proj1 (pair_moved _ _ _ _ A B Lp Lq) S).
  - intros (p & q & E & S). destruct (edge_range _ _ _ _ E) as (Lp & Lq). exists (pi p), (pi q). split; [apply edge_moved; eauto|]. exact (proj2 (pair_moved _ _ _ _ A B Lp Lq) S).
Qed.
Lemma has_edge_sorted (k : mesh T) a b ce : TopoSpec.has_edge k (Nat.min a b) (Nat.max a b) ce <-> TopoSpec.has_edge k a b ce.
Proof.
  unfold TopoSpec.has_edge, same_pair. destruct (Nat.le_ge_cases a b) as [L|L]; [rewrite Nat.min_l, Nat.max_r by exact L; reflexivity|rewrite Nat.min_r, Nat.max_l by exact L].
  split; intros (p & q & E & S); exists p, q; tauto.
Qed.
Lemma key_moved a b ce : a < n -> b < n -> TopoSpec.has_edge m' (Nat.min (pi a) (pi b)) (Nat.max (pi a) (pi b)) ce <-> TopoSpec.has_edge m (Nat.min a b) (Nat.max a b) ce.
Proof. intros A B. rewrite !has_edge_sorted. now apply has_edge_moved. Qed.
Lemma first_same (P Q : nat * nat -> Prop) x y : (forall z, P z <-> Q z) -> first_with P x -> first_with Q y -> y = x.
Proof.
  intros E (A & B) (A' & B'). apply E in A'. destruct (B y A') as [->|L]; [reflexivity|]. apply E in A. destruct (B' x A) as [->|L']; [reflexivity|].
  destruct x, y; unfold lex in *; cbn in *; lia.
Qed.
Lemma cell_unique (k : mesh T) c d : consistent k -> In c (cells k) -> In d (cells k) -> c_id c = c_id d -> c = d.
Proof.
  intros (_ & X) I J E. apply In_nth_error in I as (i & I). apply In_nth_error in J as (j & J). destruct (X i c I) as (A & _). destruct (X j d J) as (B & _). congruence.
Qed.
Lemma list_moved (cl : MeshModel.cell) (f : nat -> nat) l ps ps' : map (fun i => nth_error (c_points cl) (f i)) l = map Some ps ->
  map (fun i => nth_error (map pi (c_points cl)) (f i)) l = map Some ps' -> ps' = map pi ps.
Proof.
  revert ps ps'. induction l as [|i l IH]; intros [|p ps] [|p' ps'] E E'; try discriminate; [reflexivity|]. cbn [map] in *. injection E as E1 E2. injection E' as E1' E2'.
  rewrite nth_moved, E1 in E1'. injection E1' as <-. f_equal. now apply IH.
Qed.
Lemma edge_nodes_moved c e kd ps kd' ps' : edge_nodes m c e kd ps -> edge_nodes m' c e kd' ps' -> kd' = kd /\ ps' = map pi ps.
Proof.
  intros (cl & I & E & _ & _ & K & M) (cl' & I' & E' & _ & _ & K' & M'). rewrite cells_moved in I'. apply in_map_iff in I' as (c0 & <- & I'). cbn [moved c_id c_kind c_points] in *.
  assert (cl = c0) by (apply (cell_unique m); auto; congruence). subst c0. split; [congruence|]. exact (list_moved cl _ _ ps ps' M M').
Qed.
Lemma face_nodes_moved c e kd ps kd' ps' : face_nodes m c e kd ps -> face_nodes m' c e kd' ps' -> kd' = kd /\ ps' = map pi ps.
Proof.
  intros (cl & I & E & _ & _ & K & M) (cl' & I' & E' & _ & _ & K' & M'). rewrite cells_moved in I'. apply in_map_iff in I' as (c0 & <- & I'). cbn [moved c_id c_kind c_points] in *.
  assert (cl = c0) by (apply (cell_unique m); auto; congruence). subst c0. split; [congruence|]. exact (list_moved cl _ _ ps ps' M M').
Qed.

(* faces in 3D *)
Lemma face_range c f ps p : face_of m c f ps -> In p ps -> p < n.
Proof.
  intros (cl & I & _ & _ & _ & M) J. assert (X : In (Some p) (map Some ps)) by (now apply in_map). rewrite <- M in X. apply in_map_iff in X as (i & X & _).
  apply (cell_range cl p I). eapply nth_error_In; eauto.
Qed.
Lemma face_moved c f ps' : face_of m' c f ps' <-> exists ps, ps' = map pi ps /\ face_of m c f ps.
Proof.
  split.
  - intros (cl & I & E & D & L & M). rewrite cells_moved in I. apply in_map_iff in I as (c0 & <- & I). cbn [moved c_id c_kind c_points] in *.
    assert (X : exists ps, map (fun i => nth_error (c_points c0) (face_node_id (c_kind c0) f i)) (seq 0 (face_ncorner (c_kind c0))) = map Some ps).
    { revert ps' M. induction (seq 0 (face_ncorner (c_kind c0))) as [|i l IH]; intros [|p ps'] M; try discriminate; [exists []; reflexivity|]. cbn [map] in *. injection M as M1 M2.
      rewrite nth_moved in M1. apply some_moved in M1 as (p0 & M1 & _). destruct (IH ps' M2) as (ps & Ep). exists (p0 :: ps). cbn [map]. now rewrite M1, Ep. }
    destruct X as (ps & X). exists ps. split; [exact (list_moved c0 _ _ ps ps' X M)|]. exists c0. repeat split; auto.
  - intros (ps & -> & cl & I & E & D & L & M). exists (moved cl). rewrite cells_moved. split; [now apply in_map|]. cbn [moved c_id c_kind c_points]. split; [exact E|]. split; [exact D|]. split; [exact L|].
    clear - M. revert ps M. induction (seq 0 (face_ncorner (c_kind cl))) as [|i l IH]; intros [|p ps] M; try discriminate; [reflexivity|]. cbn [map] in *. injection M as M1 M2.
    rewrite nth_moved, M1. cbn [option_map]. f_equal. now apply IH.
Qed.
Lemma has_face_moved ps cf : (forall p, In p ps -> p < n) -> has_face m' (map pi ps) cf <-> has_face m ps cf.
Proof.
  intros A. split.
  - intros (qs' & E & S). apply face_moved in E as (qs & -> & E). exists qs. split; [exact E|]. apply (proj1 (perm_pi ps qs A (fun p => face_range _ _ _ p E)) S).
  - intros (qs & E & S). exists (map pi qs). split; [apply face_moved; eauto|]. now apply Permutation_map.
Qed.
Lemma has_face_sorted (k : mesh T) ps cf : has_face k (sort4 ps) cf <-> has_face k ps cf.
Proof. destruct cf as (c, f). split; intros H; eapply face_orientation; try exact H; [|apply Permutation_sym]; apply isort_perm. Qed.
Lemma fkey_moved ps cf : (forall p, In p ps -> p < n) -> has_face m' (sort4 (map pi ps)) cf <-> has_face m ps cf.
Proof. intros A. rewrite has_face_sorted. now apply has_face_moved. Qed.

Variable leb : T -> T -> bool.
Variables shuffle shuffle' : emap -> emap.
Hypothesis Sh : forall l, Permutation (shuffle l) l.
Hypothesis Sh' : forall l, Permutation (shuffle' l) l.
Variables (ea : bool) (ft ft' : @features T).
Hypothesis F : features_new leb shuffle m ea = Ok ft.
Hypothesis F' : features_new leb shuffle' m' ea = Ok ft'.

Lemma edges_moved a b ed : ndim m = 2 -> a < n -> b < n -> get_edge ft (Nat.min a b) (Nat.max a b) = Ok ed ->
  exists ed', get_edge ft' (Nat.min (pi a) (pi b)) (Nat.max (pi a) (pi b)) = Ok ed' /\ e_kind ed' = e_kind ed /\ e_points ed' = map pi (e_points ed).
Proof.
  intros D A B G. pose proof consistent_moved as C'. assert (D' : ndim m' = 2) by (rewrite ndim_same; exact D).
  assert (X : exists ed', get_edge ft' (Nat.min (pi a) (pi b)) (Nat.max (pi a) (pi b)) = Ok ed').
  { apply (listed_edges_2d leb shuffle' Sh' m' ea ft' C' D' F'). split; [lia|].
    apply (wanted_ext ea _ _ (fun ce => key_moved a b ce A B)). apply (listed_edges_2d leb shuffle Sh m ea ft C D F). eauto. }
  destruct X as (ed' & G'). exists ed'. split; [exact G'|].
  destruct (TopoFeat3.edges_2d leb shuffle Sh m ea ft C D F) as (_ & _ & _ & X). destruct (X _ _ _ G) as (_ & ce & Fi & En).
  destruct (TopoFeat3.edges_2d leb shuffle' Sh' m' ea ft' C' D' F') as (_ & _ & _ & X'). destruct (X' _ _ _ G') as (_ & ce' & Fi' & En').
  assert (ce' = ce) by (apply (first_same _ _ _ _ (fun z => iff_sym (key_moved a b z A B)) Fi Fi')). subst ce'. exact (edge_nodes_moved _ _ _ _ _ _ En En').
Qed.
Lemma edges_back a' b' ed' : ndim m = 2 -> get_edge ft' a' b' = Ok ed' ->
  exists a b ed, a < n /\ b < n /\ a' = Nat.min (pi a) (pi b) /\ b' = Nat.max (pi a) (pi b) /\ get_edge ft (Nat.min a b) (Nat.max a b) = Ok ed.
Proof.
  intros D G. pose proof consistent_moved as C'. assert (D' : ndim m' = 2) by (rewrite ndim_same; exact D).
  destruct (proj1 (listed_edges_2d leb shuffle' Sh' m' ea ft' C' D' F' a' b') (ex_intro _ ed' G)) as (L & W).
  assert (H : exists ce, TopoSpec.has_edge m' a' b' ce) by (unfold wanted in W; destruct ea; [exact W|destruct W as (x & W & _); eauto]).
  destruct H as (ce & p' & q' & E & S). apply edge_moved in E as (p & q & -> & -> & E). destruct (edge_range _ _ _ _ E) as (Lp & Lq).
  assert (K : a' = Nat.min (pi p) (pi q) /\ b' = Nat.max (pi p) (pi q)) by (destruct S as [(S1 & S2)|(S1 & S2)]; lia). destruct K as (-> & ->).
  assert (X : exists ed, get_edge ft (Nat.min p q) (Nat.max p q) = Ok ed).
  { apply (listed_edges_2d leb shuffle Sh m ea ft C D F). split; [lia|]. apply (wanted_ext ea _ _ (fun ce => key_moved p q ce Lp Lq)). exact W. }
  destruct X as (ed & X). exists p, q, ed. auto.
Qed.

Lemma faces_moved k fc : ndim m = 3 -> no_quadratic_tets m -> get_face ft k = Ok fc ->
  exists fc', get_face ft' (sort4 (map pi k)) = Ok fc' /\ f_kind fc' = f_kind fc /\ f_points fc' = map pi (f_points fc).
Proof.
  intros D Qt G. pose proof consistent_moved as C'. assert (D' : ndim m' = 3) by (rewrite ndim_same; exact D). pose proof (tets_moved Qt) as Qt'.
  destruct (proj1 (listed_faces_3d leb shuffle m ea ft C D Qt F k) (ex_intro _ fc G)) as (L & W).
  assert (A : forall p, In p k -> p < n).
  { assert (H : exists ce, has_face m k ce) by (unfold wanted in W; destruct ea; [exact W|destruct W as (x & W & _); eauto]). destruct H as (cf & qs & E & S).
    intros p I. apply (face_range _ _ _ p E). apply (Permutation_in _ S I). }
  assert (X : exists fc', get_face ft' (sort4 (map pi k)) = Ok fc').
  { apply (listed_faces_3d leb shuffle' m' ea ft' C' D' Qt' F'). split; [apply isort_sorted_le|]. apply (wanted_ext ea _ _ (fun cf => fkey_moved k cf A)). exact W. }
  destruct X as (fc' & G'). exists fc'. split; [exact G'|].
  destruct (face_data_3d leb shuffle m ea ft C D Qt F k fc G) as (_ & cf & Fi & En). destruct (face_data_3d leb shuffle' m' ea ft' C' D' Qt' F' _ fc' G') as (_ & cf' & Fi' & En').
  assert (cf' = cf) by (apply (first_same _ _ _ _ (fun z => iff_sym (fkey_moved k z A)) Fi Fi')). subst cf'. exact (face_nodes_moved _ _ _ _ _ _ En En').
Qed.
Lemma faces_back k' fc' : ndim m = 3 -> no_quadratic_tets m -> get_face ft' k' = Ok fc' ->
  exists k fc, k' = sort4 (map pi k) /\ get_face ft k = Ok fc.
Proof.
  intros D Qt G. pose proof consistent_moved as C'. assert (D' : ndim m' = 3) by (rewrite ndim_same; exact D). pose proof (tets_moved Qt) as Qt'.
  destruct (proj1 (listed_faces_3d leb shuffle' m' ea ft' C' D' Qt' F' k') (ex_intro _ fc' G)) as (L & W).
  assert (H : exists cf, has_face m' k' cf) by (unfold wanted in W; destruct ea; [exact W|destruct W as (x & W & _); eauto]).
  destruct H as (cf & qs' & E & S). apply face_moved in E as (qs & -> & E).
  assert (A : forall p, In p (sort4 qs) -> p < n). { intros p I. apply (face_range _ _ _ p E). apply (Permutation_in _ (isort_perm Nat.leb qs) I). }
  assert (K : k' = sort4 (map pi (sort4 qs))).
  { apply sorted_perm_eq; [exact L|apply isort_sorted_le|]. apply (Permutation_trans S). apply Permutation_sym. apply (Permutation_trans (isort_perm Nat.leb _)). apply Permutation_map, isort_perm. }
  subst k'. assert (X : exists fc, get_face ft (sort4 qs) = Ok fc).
  { apply (listed_faces_3d leb shuffle m ea ft C D Qt F). split; [apply isort_sorted_le|]. apply (wanted_ext ea _ _ (fun cf => fkey_moved _ cf A)). exact W. }
  destruct X as (fc & X). exists (sort4 qs), fc. auto.
Qed.
Lemma neighbors_moved c r : ndim m = 2 -> fits m -> get_neighbors_2d m ft c = Ok r -> exists r', get_neighbors_2d m' ft' c = Ok r' /\ Permutation r' r.
Proof.
  intros D Fi G. pose proof consistent_moved as C'. assert (D' : ndim m' = 2) by (rewrite ndim_same; exact D). pose proof (fits_moved Fi) as Fi'.
  assert (L : c < List.length (cells m)).
  { unfold get_neighbors_2d in G. destruct (negb (ndim m =? 2)); [discriminate|]. apply bind_ok in G as (cl & E & _). unfold get in E. destruct (nth_error (cells m) c) eqn:N; [|discriminate]. apply nth_error_Some. congruence. }
  destruct (neighbors_total leb shuffle' m' ea ft' c C' Fi' D' F') as (r' & G'); [rewrite cells_moved, map_length; exact L|].
  exists r'. split; [exact G'|]. destruct (neighbors_iff leb shuffle m ea ft c r C Fi D F G) as (N & X). destruct (neighbors_iff leb shuffle' m' ea ft' c r' C' Fi' D' F' G') as (N' & X').
  apply NoDup_Permutation; auto. intros [[e k] ne]. rewrite X, X'. split; intros (Ne & a & b & H1 & H2); (split; [exact Ne|]).
  - destruct H1 as (p' & q' & E & S). apply edge_moved in E as (p & q & -> & -> & E). destruct (edge_range _ _ _ _ E) as (Lp & Lq). exists p, q.
    split; [exists p, q; split; [exact E|left; auto]|]. apply (has_edge_moved p q _ Lp Lq). destruct H2 as (p2 & q2 & E2 & S2). exists p2, q2. split; [exact E2|].
    unfold same_pair in *. lia.
  - destruct H1 as (p & q & E & S). destruct (edge_range _ _ _ _ E) as (Lp & Lq). exists (pi p), (pi q). rewrite !(has_edge_moved p q _ Lp Lq).
    split; [exists p, q; split; [exact E|left; auto]|]. destruct H2 as (p2 & q2 & E2 & S2). exists p2, q2. split; [exact E2|]. unfold same_pair in *. lia.
Qed.

(* points and limits *)
Definition used (k : mesh T) (f : @features T) (p : nat) : Prop :=
  (exists a b ed, get_edge f a b = Ok ed /\ In p (e_points ed)) \/ (exists x fc, get_face f x = Ok fc /\ In p (f_points fc)) \/
  (exists cl, cable_or_shell k cl /\ In p (c_points cl)).
Lemma somes_in (cl : MeshModel.cell) (f : nat -> nat) l ps p : map (fun i => nth_error (c_points cl) (f i)) l = map Some ps -> In p ps -> In p (c_points cl).
Proof.
  intros M J. assert (X : In (Some p) (map Some ps)) by (now apply in_map). rewrite <- M in X. apply in_map_iff in X as (i & X & _). eapply nth_error_In; eauto.
Qed.
Lemma edge_ends a b ed : ndim m = 2 -> get_edge ft a b = Ok ed -> a <= b /\ a < n /\ b < n /\ forall p, In p (e_points ed) -> p < n.
Proof.
  intros D G. destruct (proj1 (listed_edges_2d leb shuffle Sh m ea ft C D F a b) (ex_intro _ ed G)) as (L & W).
  destruct (TopoFeat3.edges_2d leb shuffle Sh m ea ft C D F) as (_ & _ & _ & X). destruct (X _ _ _ G) as (_ & ce & (H & _) & cl & I & _ & _ & _ & _ & M).
  destruct H as (p & q & E & S). destruct (edge_range _ _ _ _ E). split; [exact L|].
  assert (a < n /\ b < n) by (destruct S as [(<- & <-)|(<- & <-)]; auto). split; [tauto|]. split; [tauto|]. intros x J. apply (cell_range cl x I). exact (somes_in cl _ _ _ x M J).
Qed.
Lemma face_points_range k fc p : ndim m = 3 -> no_quadratic_tets m -> get_face ft k = Ok fc -> In p (f_points fc) -> p < n.
Proof.
  intros D Qt G J. destruct (face_data_3d leb shuffle m ea ft C D Qt F k fc G) as (_ & cf & _ & cl & I & _ & _ & _ & _ & M). apply (cell_range cl p I). exact (somes_in cl _ _ _ p M J).
Qed.
Lemma shell_moved cl' p' : cable_or_shell m' cl' -> In p' (c_points cl') -> exists cl p, cable_or_shell m cl /\ In p (c_points cl) /\ p' = pi p /\ p < n.
Proof.
  intros (I & K) J. rewrite cells_moved in I. apply in_map_iff in I as (c0 & <- & I). cbn [moved c_kind c_points] in *. apply in_map_iff in J as (p & <- & J).
  exists c0, p. rewrite ndim_same in K. repeat split; auto. exact (cell_range c0 p I J).
Qed.
Lemma side_points_in (k : mesh T) (f : @features T) sh a b ed : consistent k -> ndim k = 3 -> features_new leb sh k ea = Ok f -> get_edge f a b = Ok ed ->
  exists x fc, get_face f x = Ok fc /\ forall p, In p (e_points ed) -> In p (f_points fc).
Proof.
  intros Ck Dk Fk G. destruct (listed_edges_3d leb sh k ea f Ck Dk Fk) as (_ & X). destruct (X a b ed G) as (_ & x & fc & e & p & q & Gf & _ & _ & _ & M). exists x, fc. split; [exact Gf|].
  intros y J. assert (Z : In (Some y) (map Some (e_points ed))) by (now apply in_map). rewrite <- M in Z. apply in_map_iff in Z as (i & Z & _). eapply nth_error_In; eauto.
Qed.
Lemma no_faces_2d (k : mesh T) (f : @features T) sh x fc : (forall l, Permutation (sh l) l) -> consistent k -> ndim k = 2 -> features_new leb sh k ea = Ok f -> get_face f x = Ok fc -> False.
Proof. intros P Ck Dk Fk G. destruct (TopoFeat3.edges_2d leb sh P k ea f Ck Dk Fk) as (_ & A & _). unfold get_face in G. rewrite A in G. discriminate. Qed.
Lemma used_fwd p : ndim m = 2 \/ ndim m = 3 -> no_quadratic_tets m -> used m ft p -> used m' ft' (pi p) /\ p < n.
Proof.
  intros D Qt [(a & b & ed & G & J)|[(x & fc & G & J)|(cl & S & J)]].
  - destruct D as [D|D].
    + destruct (edge_ends a b ed D G) as (L & A & B & R).
      assert (G1 : get_edge ft (Nat.min a b) (Nat.max a b) = Ok ed) by (rewrite (Nat.min_l a b L), (Nat.max_r a b L); exact G).
      destruct (edges_moved a b ed D A B G1) as (ed' & G' & _ & E). split; [|apply R, J]. left. do 3 eexists. split; [exact G'|]. rewrite E. now apply in_map.
    + destruct (side_points_in m ft shuffle a b ed C D F G) as (x & fc & Gf & S). destruct (faces_moved x fc D Qt Gf) as (fc' & G' & _ & E). split; [|exact (face_points_range x fc p D Qt Gf (S p J))].
      right; left. do 2 eexists. split; [exact G'|]. rewrite E. apply in_map, S, J.
  - destruct D as [D|D]; [exfalso; exact (no_faces_2d m ft shuffle x fc Sh C D F G)|]. destruct (faces_moved x fc D Qt G) as (fc' & G' & _ & E). split; [|exact (face_points_range x fc p D Qt G J)].
    right; left. do 2 eexists. split; [exact G'|]. rewrite E. now apply in_map.
  - split; [|exact (cell_range cl p (proj1 S) J)]. right; right. exists (moved cl). split; [|cbn; now apply in_map]. destruct S as (I & K). split; [rewrite cells_moved; now apply in_map|]. cbn. rewrite ndim_same. exact K.
Qed.
Lemma used_bwd p' : ndim m = 2 \/ ndim m = 3 -> no_quadratic_tets m -> used m' ft' p' -> exists p, p' = pi p /\ used m ft p.
Proof.
  intros D Qt [(a & b & ed' & G & J)|[(x & fc' & G & J)|(cl & S & J)]].
  - destruct D as [D|D].
    + destruct (edges_back a b ed' D G) as (a0 & b0 & ed & A & B & -> & -> & G0). destruct (edges_moved a0 b0 ed D A B G0) as (ed2 & G2 & _ & E). assert (ed2 = ed') by congruence. subst ed2.
      rewrite E in J. apply in_map_iff in J as (p & <- & J). exists p. split; [reflexivity|]. left. eauto.
    + assert (D' : ndim m' = 3) by (rewrite ndim_same; exact D). destruct (side_points_in m' ft' shuffle' a b ed' consistent_moved D' F' G) as (x & fc' & Gf & S). destruct (faces_back x fc' D Qt Gf) as (k & fc & -> & G0).
      destruct (faces_moved k fc D Qt G0) as (fc2 & G2 & _ & E). assert (fc2 = fc') by congruence. subst fc2. apply S in J. rewrite E in J. apply in_map_iff in J as (p & <- & J). exists p. split; [reflexivity|]. right; left. eauto.
  - destruct D as [D|D]; [exfalso; apply (no_faces_2d m' ft' shuffle' x fc' Sh' consistent_moved); auto; rewrite ndim_same; exact D|]. destruct (faces_back x fc' D Qt G) as (k & fc & -> & G0).
    destruct (faces_moved k fc D Qt G0) as (fc2 & G2 & _ & E). assert (fc2 = fc') by congruence. subst fc2. rewrite E in J. apply in_map_iff in J as (p & <- & J). exists p. split; [reflexivity|]. right; left. eauto.
  - destruct (shell_moved cl p' S J) as (c0 & p & S0 & J0 & -> & _). exists p. split; [reflexivity|]. right; right. eauto.
Qed.
Lemma coord_moved p j x : p < n -> coord_is m' (pi p) j x <-> coord_is m p j x.
Proof.
  intros L. destruct (nth_error (points m) p) as [q|] eqn:E; [|apply nth_error_None in E; unfold n in L; lia]. destruct Rn as (_ & _ & Z & _). specialize (Z p q E). fold (pi p) in Z.
  unfold coord_is. rewrite E, Z. split; intros (pt & Ep & X); injection Ep as <-; eexists; (split; [reflexivity|exact X]).
Qed.
Lemma points_moved : total_order leb -> ndim m = 2 \/ ndim m = 3 -> no_quadratic_tets m ->
  Permutation (ft_points ft') (map pi (ft_points ft)) /\
  ((forall x y, leb x y = true -> leb y x = true -> x = y) -> ft_limits ft' = ft_limits ft).
Proof.
  intros Or D Qt. assert (D' : ndim m' = 2 \/ ndim m' = 3) by (rewrite ndim_same; exact D).
  destruct (points_and_limits leb shuffle Sh m ea ft Or C D F) as (N & U & L1 & L2 & Lim). destruct (points_and_limits leb shuffle' Sh' m' ea ft' Or consistent_moved D' F') as (N' & U' & L1' & L2' & Lim').
  split.
  - apply NoDup_Permutation; [exact N'| |].
    + assert (R : forall p, In p (ft_points ft) -> p < n) by (intros p I; apply U in I; exact (proj2 (used_fwd p D Qt I))). clear - N R Pm C Rn. revert R. induction N as [|p l Np N IH]; intros R; cbn [map]; constructor.
      * intros I. apply in_map_iff in I as (q & E & I). apply Np. assert (q = p) by (apply pi_inj; auto; apply R; [now right|now left]). now subst q.
      * apply IH. intros q I. apply R. now right.
    + intros p'. rewrite U', in_map_iff. split.
      * intros H. destruct (used_bwd p' D Qt H) as (p & -> & Hp). exists p. split; [reflexivity|]. apply U. exact Hp.
      * intros (p & <- & I). apply U in I. exact (proj1 (used_fwd p D Qt I)).
  - intros An. assert (X : forall j x, (exists p, used m' ft' p /\ coord_is m' p j x) <-> (exists p, used m ft p /\ coord_is m p j x)).
    { intros j x. split.
      - intros (p' & H & K). destruct (used_bwd p' D Qt H) as (p & -> & Hp). exists p. split; [exact Hp|]. apply coord_moved; [exact (proj2 (used_fwd p D Qt Hp))|exact K].
      - intros (p & H & K). destruct (used_fwd p D Qt H) as (H' & L). exists (pi p). split; [exact H'|]. now apply coord_moved. }
    assert (Y : forall j, j < ndim m -> nth j (fst (ft_limits ft')) None = nth j (fst (ft_limits ft)) None /\ nth j (snd (ft_limits ft')) None = nth j (snd (ft_limits ft)) None).
    { intros j Hj. specialize (Lim j Hj). specialize (Lim' j). rewrite ndim_same in Lim'. specialize (Lim' Hj). cbv zeta in Lim, Lim'. destruct Lim as (A & B), Lim' as (A' & B'). split.
      - destruct (nth j (fst (ft_limits ft')) None) as [z'|], (nth j (fst (ft_limits ft)) None) as [z|]; try reflexivity.
        + destruct A as (A1 & A2), A' as (A1' & A2'). f_equal. apply An; [apply A2', X, A1|apply A2, X, A1'].
        + destruct A' as (A1' & _). exfalso. apply (A z'), X, A1'.
        + destruct A as (A1 & _). exfalso. apply (A' z), X, A1.
      - destruct (nth j (snd (ft_limits ft')) None) as [z'|], (nth j (snd (ft_limits ft)) None) as [z|]; try reflexivity.
        + destruct B as (A1 & A2), B' as (A1' & A2'). f_equal. apply An; [apply A2, X, A1'|apply A2', X, A1].
        + destruct B' as (A1' & _). exfalso. apply (B z'), X, A1'.
        + destruct B as (A1 & _). exfalso. apply (B' z), X, A1. }
    destruct (ft_limits ft) as [lo hi], (ft_limits ft') as [lo' hi']. cbn [fst snd] in *. rewrite ndim_same in L1', L2'.
    f_equal; apply nth_ext with (d := None) (d' := None); try congruence; intros j Hj; apply Y; congruence.
Qed.

(* edges in 3D *)
Lemma edges_3d_moved a b : ndim m = 3 -> no_quadratic_tets m -> a < n -> b < n ->
  (exists ed', get_edge ft' (Nat.min (pi a) (pi b)) (Nat.max (pi a) (pi b)) = Ok ed') <-> (exists ed, get_edge ft (Nat.min a b) (Nat.max a b) = Ok ed).
Proof.
  intros D Qt A B. assert (D' : ndim m' = 3) by (rewrite ndim_same; exact D).
  destruct (listed_edges_3d leb shuffle m ea ft C D F) as (X & _). destruct (listed_edges_3d leb shuffle' m' ea ft' consistent_moved D' F') as (X' & _). rewrite X, X'. split.
  - intros (_ & k' & fc' & e & p' & q' & G & (He & E1 & E2) & S). split; [lia|]. destruct (faces_back k' fc' D Qt G) as (k & fc & -> & G0).
    destruct (faces_moved k fc D Qt G0) as (fc2 & G2 & Ek & E). assert (fc2 = fc') by congruence. subst fc2. rewrite Ek, E in *. rewrite nth_moved in E1, E2. apply some_moved in E1 as (p & E1 & ->). apply some_moved in E2 as (q & E2 & ->).
    exists k, fc, e, p, q. split; [exact G0|]. split; [repeat split; auto|].
    assert (Lp : p < n) by (apply (face_points_range k fc p D Qt G0); eapply nth_error_In; eauto). assert (Lq : q < n) by (apply (face_points_range k fc q D Qt G0); eapply nth_error_In; eauto).
    assert (S' : same_pair (pi a) (pi b) (pi p) (pi q)) by (unfold same_pair in *; lia). apply (proj1 (pair_moved a b p q A B Lp Lq)) in S'. unfold same_pair in *. lia.
  - intros (_ & k & fc & e & p & q & G & (He & E1 & E2) & S). split; [lia|]. destruct (faces_moved k fc D Qt G) as (fc' & G' & Ek & E).
    exists (sort4 (map pi k)), fc', e, (pi p), (pi q). split; [exact G'|]. split; [unfold side_of; rewrite Ek, E, !nth_moved, E1, E2; auto|].
    unfold same_pair in *. destruct (Nat.le_ge_cases a b) as [L|L]; [rewrite Nat.min_l, Nat.max_r in S by exact L|rewrite Nat.min_r, Nat.max_l in S by exact L]; destruct S as [(-> & ->)|(-> & ->)]; lia.
Qed.
Lemma mesh_edge_moved a b : a < n -> b < n -> mesh_edge m' (pi a) (pi b) <-> mesh_edge m a b.
Proof.
  intros A B. split.
  - intros (Ne & c & I & Ia & Ib). split; [congruence|]. rewrite cells_moved in I. apply in_map_iff in I as (c0 & <- & I). cbn [moved c_points] in *.
    apply in_map_iff in Ia as (a0 & Ea & Ia). apply in_map_iff in Ib as (b0 & Eb & Ib). apply pi_inj in Ea; [|exact (cell_range c0 a0 I Ia)|exact A]. apply pi_inj in Eb; [|exact (cell_range c0 b0 I Ib)|exact B]. subst. eauto.
  - intros (Ne & c & I & Ia & Ib). split; [intros E; apply Ne, pi_inj; auto|]. exists (moved c). rewrite cells_moved. split; [now apply in_map|]. cbn. split; now apply in_map.
Qed.
End Renum.

(* scratchpads *)
Lemma foldM_same {A B S} (f : S -> A -> res S) (g : S -> B -> res S) (h : A -> B) : forall l s, (forall s a, In a l -> f s a = g s (h a)) -> foldM f l s = foldM g (map h l) s.
Proof. induction l as [|a t IH]; intros s E; [reflexivity|]. cbn [foldM map]. rewrite E by (now left). destruct (g s (h a)); cbn [bind]; try reflexivity. apply IH. intros s' x I. apply E. now right. Qed.
Section Pads.
Variables (m m' : mesh R) (o2n : list nat).
Hypothesis C : consistent m.
Hypothesis Rn : renumbered m o2n m'.
Lemma set_pad_moved p pts : (forall q, In q pts -> q < List.length (points m)) -> mesh_set_pad m' p (map (fun q => nth q o2n 0) pts) = mesh_set_pad m p pts.
Proof.
  intros A. unfold mesh_set_pad. rewrite map_length. destruct (negb (kind_nnode (p_kind p) =? List.length pts)); [reflexivity|].
  destruct Rn as (D & _ & Z & _). rewrite D. rewrite <- (map_id (seq 0 (kind_nnode (p_kind p)))) at 2. apply foldM_same. intros s a _.
  rewrite <- (map_id (seq 0 (ndim m))) at 2. apply foldM_same. intros s' j _. unfold get. rewrite nth_error_map.
  destruct (nth_error pts a) as [q|] eqn:E; cbn [option_map]; [|reflexivity]. cbn [bind].
  destruct (nth_error (points m) q) as [pt|] eqn:Eq; [|apply nth_error_None in Eq; apply nth_error_In, A in E; lia]. rewrite (Z q pt Eq). reflexivity.
Qed.
Lemma get_pad_moved c : get_pad m' c = get_pad m c.
Proof.
  unfold get_pad. destruct Rn as (D & _ & _ & Ec). rewrite Ec, D. unfold get. rewrite nth_error_map. destruct (nth_error (cells m) c) as [cl|] eqn:E; [|reflexivity]. cbn [option_map bind c_kind c_points].
  destruct (pad_new (ndim m) (c_kind cl)); try reflexivity. apply set_pad_moved. destruct C as (_ & X). exact (proj2 (proj2 (X c cl E))).
Qed.
Lemma check_jacobian_moved zdet : check_jacobian zdet m' = check_jacobian zdet m.
Proof.
  unfold check_jacobian. destruct Rn as (D & _ & _ & Ec). rewrite Ec, D. symmetry. apply foldM_same. intros s c I. cbn [c_kind c_points].
  destruct (pad_new (ndim m) (c_kind c)); cbn [bind]; try reflexivity. rewrite set_pad_moved; [reflexivity|]. intros q J. apply In_nth_error in I as (i & I). destruct C as (_ & X). exact (proj2 (proj2 (X i c I)) q J).
Qed.
End Pads.
