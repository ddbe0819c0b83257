(* Proofs: edge and face maps, extraction of features *)
From Coq Require Import String List Arith Bool ZArith Lia Permutation Sorted.
From Verif Require Import Base BaseFacts Kind ShapesProof ShapesTables MeshModel MeshQuerySpec TopoModel TopoSpec TopoMaps.
Import ListNotations.
Open Scope nat_scope.

Lemma sort2_cases a b : (sort2 (a, b) = (a, b) /\ a <= b) \/ (sort2 (a, b) = (b, a) /\ b < a).
Proof. unfold sort2; cbn [fst snd]. destruct (Nat.ltb_spec b a); [right|left]; split; auto. Qed.
Lemma sort2_iff a b p q : a <= b -> (sort2 (p, q) = (a, b) <-> same_pair a b p q).
Proof.
  intros L. unfold same_pair. destruct (sort2_cases p q) as [[E H]|[E H]]; rewrite E.
  - split; [intros X; injection X as <- <-; auto|intros [[-> ->]|[-> ->]]; [reflexivity|]].
    assert (b = a) by lia. subst. reflexivity.
  - split; [intros X; injection X as <- <-; auto|intros [[-> ->]|[-> ->]]; [|reflexivity]].
    assert (b = a) by lia. subst. reflexivity.
Qed.
Lemma sort2_le p q a b : sort2 (p, q) = (a, b) -> a <= b.
Proof. destruct (sort2_cases p q) as [[E H]|[E H]]; rewrite E; intros X; injection X as <- <-; lia. Qed.

Lemma get_iff {A} (l : list A) i a : get l i = Ok a <-> nth_error l i = Some a.
Proof. unfold get. destruct (nth_error l i); split; intros H; try discriminate; injection H as ->; reflexivity. Qed.

Lemma local_edge_key_iff cl e a b : a <= b ->
  (local_edge_key cl e = Ok (a, b) <->
   exists p q, nth_error (c_points cl) (edge_node_id (c_kind cl) e 0) = Some p /\
               nth_error (c_points cl) (edge_node_id (c_kind cl) e 1) = Some q /\ same_pair a b p q).
Proof.
  intros L. unfold local_edge_key. split.
  - intros H. apply bind_ok in H. destruct H as (p & E1 & H). apply bind_ok in H. destruct H as (q & E2 & H).
    apply get_iff in E1, E2. injection H as H. exists p, q. repeat split; auto. apply sort2_iff; auto.
  - intros (p & q & E1 & E2 & S). apply get_iff in E1, E2. rewrite E1. cbn. rewrite E2. cbn. f_equal. apply sort2_iff; auto.
Qed.

Section Edges.
Context {T : Type}.
Implicit Types (m : mesh T).

Definition ehits m (k : ekey) : list (nat * nat) :=
  flat_map (cell_hits ekey_eqb (fun c => kind_ndim (c_kind c) =? 2) (fun c => kind_nedge (c_kind c)) local_edge_key k) (cells m).

Lemma edges_eq m em : extract_all_2d_edges m = Ok em ->
  ndim m = 2 /\ NoDup (map fst em) /\
  (forall c e, In c (cells m) -> kind_ndim (c_kind c) = 2 -> e < kind_nedge (c_kind c) -> exists k, local_edge_key c e = Ok k) /\
  (forall k, mget ekey_eqb em k = as_entry (ehits m k)).
Proof.
  unfold extract_all_2d_edges. destruct (Nat.eqb_spec (ndim m) 2) as [D|]; cbn [negb]; [|discriminate].
  intros H. split; [exact D|].
  destruct (gen_all0 ekey_eqb ekey_eqb_eq (fun c => kind_ndim (c_kind c) =? 2) (fun c => kind_nedge (c_kind c)) local_edge_key _ _ H)
    as (A & B & C).
  split; [exact A|]. split; [|exact C]. intros c e Hc K He. apply B; auto. apply Nat.eqb_eq. exact K.
Qed.
Lemma in_ehits m a b ce : a <= b -> (In ce (ehits m (a, b)) <-> has_edge m a b ce).
Proof.
  intros L. destruct ce as [c e]. unfold ehits. rewrite (in_hits _ ekey_eqb_eq). unfold has_edge, edge_of. cbn [fst snd]. split.
  - intros (cl & H1 & H2 & H3 & H4 & H5). apply Nat.eqb_eq in H2. apply local_edge_key_iff in H5; [|exact L].
    destruct H5 as (p & q & E1 & E2 & S). exists p, q. split; [|exact S]. exists cl. repeat split; auto.
  - intros (p & q & (cl & H1 & H3 & H2 & H4 & E1 & E2) & S). exists cl.
    repeat split; auto; [apply Nat.eqb_eq; exact H2|]. apply local_edge_key_iff; [exact L|]. exists p, q. auto.
Qed.
Lemma ehits_le m a b ce : In ce (ehits m (a, b)) -> a <= b.
Proof.
  destruct ce as [c e]. unfold ehits. rewrite (in_hits _ ekey_eqb_eq). intros (cl & _ & _ & _ & _ & H).
  unfold local_edge_key in H. apply bind_ok in H. destruct H as (p & _ & H). apply bind_ok in H. destruct H as (q & _ & H).
  injection H as H. eapply sort2_le. exact H.
Qed.

(* entries are in the order of the cells *)
Lemma sorted_app {A} (R : A -> A -> Prop) l1 l2 : StronglySorted R l1 -> StronglySorted R l2 ->
  (forall x y, In x l1 -> In y l2 -> R x y) -> StronglySorted R (l1 ++ l2).
Proof.
  induction 1 as [|a l H IH F]; intros S2 X; cbn; [exact S2|]. constructor.
  - apply IH; [exact S2|]. intros x y Hx. apply X. right. exact Hx.
  - apply Forall_app. split; [exact F|]. apply Forall_forall. intros y Hy. apply X; [left; reflexivity|exact Hy].
Qed.
Lemma seq_sorted n : forall s, StronglySorted lt (seq s n).
Proof.
  induction n as [|n IH]; intros s; cbn; constructor; [apply IH|]. apply Forall_forall. intros x Hx. apply in_seq in Hx. lia.
Qed.
Lemma filter_sorted {A} (R : A -> A -> Prop) f l : StronglySorted R l -> StronglySorted R (filter f l).
Proof.
  induction 1 as [|a l H IH F]; cbn; [constructor|]. destruct (f a); [|exact IH]. constructor; [exact IH|].
  apply Forall_forall. intros x Hx. apply filter_In in Hx. rewrite Forall_forall in F. apply F. tauto.
Qed.
Lemma hits_sorted {K} (eqb : K -> K -> bool) (eqb_eq : forall a b, eqb a b = true <-> a = b) sel nl lk k cs :
  StronglySorted lt (map c_id cs) -> StronglySorted lex (flat_map (cell_hits eqb sel nl lk k) cs).
Proof.
  induction cs as [|c t IH]; cbn; [constructor|]. intros S. inversion S as [|? ? S1 F]; subst.
  apply sorted_app; [|auto|].
  - unfold cell_hits. destruct (sel c); [|constructor].
    assert (X : StronglySorted lt (filter (hits eqb lk k c) (seq 0 (nl c)))) by apply filter_sorted, seq_sorted.
    induction X as [|e es X IHX FX]; cbn; constructor; [exact IHX|].
    apply Forall_forall. intros y Hy. apply in_map_iff in Hy. destruct Hy as (e' & <- & He'). right. cbn. split; [reflexivity|].
    rewrite Forall_forall in FX. apply FX. exact He'.
  - intros [c1 e1] [c2 e2] H1 H2. left. cbn.
    unfold cell_hits in H1. destruct (sel c); [|destruct H1]. apply in_map_iff in H1. destruct H1 as (e' & E & _). injection E as <- _.
    apply (in_hits _ eqb_eq) in H2. destruct H2 as (cl & Hc & _ & <- & _). rewrite Forall_forall in F. apply F. apply in_map. exact Hc.
Qed.
Lemma consistent_ids m : consistent m -> map c_id (cells m) = seq 0 (List.length (cells m)).
Proof.
  intros (_ & H). revert H. generalize (cells m). intros l H.
  assert (X : forall s l, (forall i c, nth_error l i = Some c -> c_id c = s + i) -> map c_id l = seq s (List.length l)).
  { clear. intros s l. revert s. induction l as [|c t IH]; intros s H; cbn; [reflexivity|]. f_equal.
    - rewrite (H 0 c eq_refl). lia.
    - apply IH. intros i c' E. rewrite (H (S i) c' E). lia. }
  apply X. intros i c E. rewrite (proj1 (H i c E)). lia.
Qed.
Lemma sorted_ids m : consistent m -> StronglySorted lt (map c_id (cells m)).
Proof. intros H. rewrite consistent_ids; [apply seq_sorted|exact H]. Qed.
Lemma nodup_ids m : consistent m -> NoDup (map c_id (cells m)).
Proof. intros H. rewrite consistent_ids; [apply seq_NoDup|exact H]. Qed.
Lemma cell_by_id m cl : consistent m -> In cl (cells m) -> nth_error (cells m) (c_id cl) = Some cl.
Proof. intros (_ & H) Hc. apply In_nth_error in Hc. destruct Hc as (i & E). rewrite (proj1 (H i cl E)). exact E. Qed.

Lemma edge_map_spec m em : extract_all_2d_edges m = Ok em -> NoDup (map c_id (cells m)) ->
  NoDup (map fst em) /\
  (forall a b, a <= b ->
     match mget ekey_eqb em (a, b) with
     | Some l => l <> [] /\ NoDup l /\ forall ce, In ce l <-> has_edge m a b ce
     | None => forall ce, ~ has_edge m a b ce
     end) /\
  (forall a b, b < a -> mget ekey_eqb em (a, b) = None).
Proof.
  intros H ND. destruct (edges_eq m em H) as (_ & A & _ & C). split; [exact A|]. split.
  - intros a b L. rewrite C. destruct (ehits m (a, b)) as [|h t] eqn:E; cbn [as_entry].
    + intros ce X. apply (in_ehits m a b ce L) in X. rewrite E in X. destruct X.
    + split; [discriminate|]. rewrite <- E. split; [apply hits_nodup; [apply ekey_eqb_eq|exact ND]|].
      intros ce. apply in_ehits. exact L.
  - intros a b L. rewrite C. destruct (ehits m (a, b)) as [|h t] eqn:E; cbn; [reflexivity|].
    assert (X : In h (ehits m (a, b))) by (rewrite E; left; reflexivity). apply ehits_le in X. lia.
Qed.

Lemma edge_map_total m : ndim m = 2 ->
  (forall c, In c (cells m) -> List.length (c_points c) = kind_nnode (c_kind c)) ->
  exists em, extract_all_2d_edges m = Ok em.
Proof.
  intros D H. unfold extract_all_2d_edges. rewrite D. cbn [negb Nat.eqb].
  apply (gen_total ekey_eqb (fun c => kind_ndim (c_kind c) =? 2) (fun c => kind_nedge (c_kind c)) local_edge_key).
  intros c e Hc K He. apply Nat.eqb_eq in K. unfold local_edge_key.
  assert (N : 1 < kind_edge_nnode (c_kind c)) by (revert He; clear; destruct (c_kind c); vm_compute; lia).
  pose proof (edge_node_lt (c_kind c) e 0 He ltac:(lia)) as L0.
  pose proof (edge_node_lt (c_kind c) e 1 He N) as L1.
  rewrite (get_ok _ _ 0) by (rewrite H; auto). cbn. rewrite (get_ok _ _ 0) by (rewrite H; auto). eexists. reflexivity.
Qed.
End Edges.

(* sorted lists with the same elements are equal *)
Lemma sorted_perm_eq (l1 l2 : list nat) : StronglySorted le l1 -> StronglySorted le l2 -> Permutation l1 l2 -> l1 = l2.
Proof.
  intros S1. revert l2. induction S1 as [|a l S1 IH F]; intros l2 S2 P.
  - apply Permutation_nil in P. auto.
  - destruct l2 as [|b t]; [apply Permutation_sym, Permutation_nil in P; discriminate|].
    inversion S2 as [|? ? S2' F2]; subst. rewrite Forall_forall in F, F2.
    assert (a = b).
    { assert (A : In a (b :: t)) by (eapply Permutation_in; [exact P|left; reflexivity]).
      assert (B : In b (a :: l)) by (eapply Permutation_in; [apply Permutation_sym; exact P|left; reflexivity]).
      destruct A as [A|A]; [auto|]. destruct B as [B|B]; [auto|]. specialize (F _ B). specialize (F2 _ A). lia. }
    subst b. f_equal. apply IH; [exact S2'|]. eapply Permutation_cons_inv. exact P.
Qed.
Lemma isort_sorted_le (l : list nat) : StronglySorted le (isort Nat.leb l).
Proof.
  assert (X := isort_sorted Nat.leb l).
  assert (Y : StronglySorted (fun x y => Nat.leb x y = true) (isort Nat.leb l)).
  { apply X.
    - intros x y. destruct (Nat.leb_spec x y); [auto|]. right. apply Nat.leb_le. lia.
    - intros x y z. rewrite !Nat.leb_le. lia. }
  clear X. induction Y as [|a t Y IH F]; constructor; [exact IH|].
  eapply Forall_impl; [|exact F]. intros x Hx. apply Nat.leb_le. exact Hx.
Qed.
Lemma sort4_perm ps qs : sort4 ps = sort4 qs <-> Permutation ps qs.
Proof.
  unfold sort4. split.
  - intros E. eapply Permutation_trans; [apply Permutation_sym, (isort_perm Nat.leb)|]. rewrite E. apply isort_perm.
  - intros P. apply sorted_perm_eq; try apply isort_sorted_le.
    eapply Permutation_trans; [apply isort_perm|]. eapply Permutation_trans; [exact P|]. apply Permutation_sym, isort_perm.
Qed.
Lemma sort4_sorted ps : StronglySorted le ps -> sort4 ps = ps.
Proof. intros S. apply sorted_perm_eq; [apply isort_sorted_le|exact S|apply isort_perm]. Qed.

Lemma mapM_get_iff {A} (l : list A) is ps :
  mapM (get l) is = Ok ps <-> map (nth_error l) is = map Some ps.
Proof.
  revert ps. induction is as [|i t IH]; intros ps; cbn.
  - destruct ps; split; intros H; try discriminate; reflexivity.
  - unfold get at 1. destruct (nth_error l i) as [a|]; cbn.
    + split.
      * intros H. apply bind_ok in H. destruct H as (r & E & H). injection H as <-. apply IH in E. cbn. congruence.
      * destruct ps as [|p ps]; cbn; [discriminate|]. intros H. injection H as -> H. apply IH in H. rewrite H. reflexivity.
    + split; [discriminate|]. destruct ps; cbn; discriminate.
Qed.
Lemma mapM_map {A B C} (f : B -> res C) (g : A -> B) l : mapM (fun x => f (g x)) l = mapM f (map g l).
Proof. induction l as [|a t IH]; cbn; [reflexivity|]. rewrite IH. reflexivity. Qed.

Lemma key_nodes k : kind_ndim k = 3 -> (if 3 <? kind_face_nnode k then 4 else 3) = first_four k.
Proof. destruct k; intros H; vm_compute in H |- *; congruence. Qed.
Lemma key_nodes_corners k : kind_ndim k = 3 -> k <> Tet10 -> k <> Tet20 -> first_four k = face_ncorner k.
Proof. destruct k; intros H N1 N2; vm_compute in H |- *; congruence. Qed.

Lemma local_face_key_iff cl f key : kind_ndim (c_kind cl) = 3 ->
  (local_face_key cl f = Ok key <->
   exists ps, map (fun i => nth_error (c_points cl) (face_node_id (c_kind cl) f i)) (seq 0 (first_four (c_kind cl))) = map Some ps /\
              key = sort4 ps).
Proof.
  intros D. unfold local_face_key. rewrite (key_nodes _ D), (mapM_map (get (c_points cl)) (face_node_id (c_kind cl) f)).
  rewrite <- (map_map (face_node_id (c_kind cl) f) (nth_error (c_points cl))).
  split.
  - intros H. apply bind_ok in H. destruct H as (ps & E & H). injection H as <-. exists ps. split; [|reflexivity].
    apply mapM_get_iff. exact E.
  - intros (ps & E & ->). apply mapM_get_iff in E. rewrite E. reflexivity.
Qed.

Section Faces.
Context {T : Type}.
Implicit Types (m : mesh T).

Definition fhits m (k : fkey) : list (nat * nat) :=
  flat_map (cell_hits fkey_eqb (fun c => kind_ndim (c_kind c) =? 3) (fun c => kind_nface (c_kind c)) local_face_key k) (cells m).

Lemma faces_eq m fm : extract_all_faces m = Ok fm ->
  ndim m = 3 /\ NoDup (map fst fm) /\
  (forall c e, In c (cells m) -> kind_ndim (c_kind c) = 3 -> e < kind_nface (c_kind c) -> exists k, local_face_key c e = Ok k) /\
  (forall k, mget fkey_eqb fm k = as_entry (fhits m k)).
Proof.
  unfold extract_all_faces. destruct (Nat.eqb_spec (ndim m) 3) as [D|]; cbn [negb]; [|discriminate].
  intros H. split; [exact D|].
  destruct (gen_all0 fkey_eqb fkey_eqb_eq (fun c => kind_ndim (c_kind c) =? 3) (fun c => kind_nface (c_kind c)) local_face_key _ _ H)
    as (A & B & C).
  split; [exact A|]. split; [|exact C]. intros c e Hc K He. apply B; auto. apply Nat.eqb_eq. exact K.
Qed.
Lemma in_fhits m ps cf : (In cf (fhits m (sort4 ps)) <-> has_face4 m ps cf).
Proof.
  destruct cf as [c f]. unfold fhits. rewrite (in_hits _ fkey_eqb_eq). unfold has_face4, face_starts. cbn [fst snd]. split.
  - intros (cl & H1 & H2 & H3 & H4 & H5). apply Nat.eqb_eq in H2. apply local_face_key_iff in H5; [|exact H2].
    destruct H5 as (qs & E & S). exists qs. split; [|apply sort4_perm; exact S]. exists cl. repeat split; auto.
  - intros (qs & (cl & H1 & H3 & H2 & H4 & E) & P). exists cl.
    repeat split; auto; [apply Nat.eqb_eq; exact H2|]. apply local_face_key_iff; [exact H2|]. exists qs. split; [exact E|].
    apply sort4_perm. exact P.
Qed.
Lemma fhits_sorted_key m k cf : In cf (fhits m k) -> StronglySorted le k.
Proof.
  destruct cf as [c f]. unfold fhits. rewrite (in_hits _ fkey_eqb_eq). intros (cl & _ & D & _ & _ & H).
  apply Nat.eqb_eq in D. apply local_face_key_iff in H; [|exact D]. destruct H as (ps & _ & ->). apply isort_sorted_le.
Qed.

Lemma face_map_spec4 m fm : extract_all_faces m = Ok fm -> NoDup (map c_id (cells m)) ->
  NoDup (map fst fm) /\
  (forall ps, match mget fkey_eqb fm (sort4 ps) with
     | Some l => l <> [] /\ NoDup l /\ forall cf, In cf l <-> has_face4 m ps cf
     | None => forall cf, ~ has_face4 m ps cf
     end) /\
  (forall k l, mget fkey_eqb fm k = Some l -> StronglySorted le k).
Proof.
  intros H ND. destruct (faces_eq m fm H) as (_ & A & _ & C). split; [exact A|]. split.
  - intros ps. rewrite C. destruct (fhits m (sort4 ps)) as [|h t] eqn:E; cbn [as_entry].
    + intros cf X. apply (in_fhits m ps cf) in X. rewrite E in X. destruct X.
    + split; [discriminate|]. rewrite <- E. split; [apply hits_nodup; [apply fkey_eqb_eq|exact ND]|].
      intros cf. apply in_fhits.
  - intros k l. rewrite C. destruct (fhits m k) as [|h t] eqn:E; cbn [as_entry]; [discriminate|]. intros _.
    assert (X : In h (fhits m k)) by (rewrite E; left; reflexivity). eapply fhits_sorted_key. exact X.
Qed.
Lemma has_face_4 m ps cf : no_quadratic_tets m -> (has_face m ps cf <-> has_face4 m ps cf).
Proof.
  intros N. unfold has_face, has_face4, face_of, face_starts. split; intros (qs & (cl & H1 & H2 & H3 & H4 & E) & P);
    exists qs; (split; [|exact P]); exists cl; destruct (N cl H1) as [N1 N2];
    pose proof (key_nodes_corners (c_kind cl) H3 N1 N2) as K; [rewrite K|rewrite <- K]; auto.
Qed.
Lemma face_map_total m : ndim m = 3 ->
  (forall c, In c (cells m) -> List.length (c_points c) = kind_nnode (c_kind c)) ->
  exists fm, extract_all_faces m = Ok fm.
Proof.
  intros D H. unfold extract_all_faces. rewrite D. cbn [negb Nat.eqb].
  apply (gen_total fkey_eqb (fun c => kind_ndim (c_kind c) =? 3) (fun c => kind_nface (c_kind c)) local_face_key).
  intros c f Hc K Hf. apply Nat.eqb_eq in K. unfold local_face_key. rewrite (key_nodes _ K).
  rewrite (mapM_total _ (fun i => nth (face_node_id (c_kind c) f i) (c_points c) 0)); [eexists; reflexivity|].
  intros i Hi. apply in_seq in Hi. apply get_ok. rewrite H by exact Hc. apply face_node_lt; [exact Hf|].
  unfold first_four in Hi. lia.
Qed.
End Faces.
