(* Construction of graphs: from_adjacency_set, from_edges, from_mesh *)
From Coq Require Import String List Arith Bool Lia Sorted Permutation.
From Verif Require Import Base BaseFacts MeshModel GraphModel GraphSpec GraphVocab GraphProof GraphProof2.
Import ListNotations.

(** adjacency sets *)
Definition Good (n : nat) (adj : list (list nat)) : Prop :=
  List.length adj = n /\ (forall u, NoDup (nth u adj [])) /\ in_bounds adj.
Definition Adds (n : nat) (R : nat -> nat -> Prop) (adj adj' : list (list nat)) : Prop :=
  Good n adj' /\ forall u v, In v (nth u adj' []) <-> In v (nth u adj []) \/ R u v.

Lemma hs_insert_in x s y : In y (hs_insert x s) <-> In y s \/ y = x.
Proof.
  unfold hs_insert. destruct (existsb (Nat.eqb x) s) eqn:Ex; simpl.
  - apply existsb_exists in Ex. destruct Ex as (z & Hz & Hx). apply Nat.eqb_eq in Hx. subst z.
    split; auto. intros [H| ->]; auto.
  - split; intros [H|H]; auto.
Qed.
Lemma hs_insert_nodup x s : NoDup s -> NoDup (hs_insert x s).
Proof.
  intros H. unfold hs_insert. destruct (existsb (Nat.eqb x) s) eqn:Ex; auto. constructor; auto.
  intros I. assert (existsb (Nat.eqb x) s = true) by (apply existsb_exists; exists x; split; auto; apply Nat.eqb_refl).
  congruence.
Qed.

Lemma adj_insert_adds n adj a b : Good n adj -> a < n -> b < n ->
  exists adj', adj_insert adj a b = Ok adj' /\ Adds n (fun u v => u = a /\ v = b) adj adj'.
Proof.
  intros (L & ND & W) Ha Hb. unfold adj_insert. rewrite (get_ok _ a []) by lia. cbn [bind].
  rewrite set_ok by lia. eexists. split; [reflexivity|].
  split; [split; [|split]|].
  - rewrite upd_length. exact L.
  - intros u. rewrite nth_upd by lia. destruct (Nat.eqb_spec a u); [apply hs_insert_nodup|]; auto.
  - intros u. rewrite upd_length, nth_upd by lia. destruct (Nat.eqb_spec a u); [|apply W].
    apply Forall_forall. intros x Hx. apply hs_insert_in in Hx. destruct Hx as [Hx| ->]; [|lia].
    specialize (W a). rewrite Forall_forall in W. auto.
  - intros u v. rewrite nth_upd by lia. destruct (Nat.eqb_spec a u) as [->|N].
    + rewrite hs_insert_in. intuition.
    + intuition. congruence.
Qed.

Lemma adds_trans n R S a b c : Adds n R a b -> Adds n S b c -> Adds n (fun u v => R u v \/ S u v) a c.
Proof. intros [_ H2] [H3 H4]. split; auto. intros u v. rewrite H4, H2. tauto. Qed.

Lemma adds_iff n R S a b : (forall u v, R u v <-> S u v) -> Adds n R a b -> Adds n S a b.
Proof. intros H [H1 H2]. split; auto. intros u v. rewrite H2, H. tauto. Qed.

Lemma fold_adds {A} n (f : list (list nat) -> A -> res (list (list nat))) (Rel : A -> nat -> nat -> Prop) l :
  (forall x adj, In x l -> Good n adj -> exists adj', f adj x = Ok adj' /\ Adds n (Rel x) adj adj') ->
  forall adj, Good n adj ->
  exists adj', foldM f l adj = Ok adj' /\ Adds n (fun u v => exists x, In x l /\ Rel x u v) adj adj'.
Proof.
  induction l as [|x l IH]; intros H adj G; simpl.
  - exists adj. split; auto. split; auto. intros u v. split; [auto|]. intros [?|(x & [] & _)]; auto.
  - destruct (H x adj (or_introl eq_refl) G) as (a1 & H1 & A1). rewrite H1. cbn [bind].
    destruct (IH (fun y a Hy => H y a (or_intror Hy)) a1 (proj1 A1)) as (a2 & H2 & A2).
    exists a2. split; auto. eapply adds_iff; [|exact (adds_trans _ _ _ _ _ _ A1 A2)].
    intros u v. split.
    + intros [HR|(y & Hy & HR)]; [exists x|exists y]; simpl; auto.
    + intros (y & [->|Hy] & HR); [left|right; exists y]; auto.
Qed.

Lemma good_repeat n : Good n (repeat [] n).
Proof.
  assert (Z : forall u, nth u (repeat (@nil nat) n) [] = []).
  { intros u. destruct (lt_dec u n).
    - apply nth_repeat.
    - apply nth_overflow. rewrite repeat_length. lia. }
  split; [apply repeat_length|]. split; intros u; rewrite Z; constructor.
Qed.
Lemma nth_repeat_nil u n : nth u (repeat (@nil nat) n) [] = [].
Proof. destruct (lt_dec u n); [apply nth_repeat|apply nth_overflow; rewrite repeat_length; lia]. Qed.

(* a and b are different points of one cell *)
Definition share_cell (cs : list (list nat)) (a b : nat) : Prop :=
  a <> b /\ exists c, In c cs /\ In a c /\ In b c.

Lemma mesh_adjacency_ok n cs : (forall c p, In c cs -> In p c -> p < n) ->
  exists adj, mesh_adjacency n cs = Ok adj /\ Good n adj /\
    forall u v, In v (nth u adj []) <-> share_cell cs u v.
Proof.
  intros H. unfold mesh_adjacency.
  edestruct (fold_adds n
    (fun adj pts => foldM (fun adj a => foldM (fun adj b => if b =? a then Ok adj else
        let! adj := adj_insert adj a b in adj_insert adj b a) pts adj) pts adj)
    (fun pts u v => exists a, In a pts /\ exists b, In b pts /\ (a <> b /\ (u = a /\ v = b \/ u = b /\ v = a))) cs)
    as (adj & A & B); [|apply good_repeat|].
  - intros pts adj Hp G. apply fold_adds; auto. intros a adj1 Ha G1. apply fold_adds; auto.
    intros b adj2 Hb G2. destruct (Nat.eqb_spec b a) as [->|N].
    + exists adj2. split; auto. split; auto. intros u v. intuition congruence.
    + destruct (adj_insert_adds n adj2 a b G2) as (a3 & E3 & A3); eauto. rewrite E3. cbn [bind].
      destruct (adj_insert_adds n a3 b a (proj1 A3)) as (a4 & E4 & A4); eauto.
      exists a4. split; auto. eapply adds_iff; [|exact (adds_trans _ _ _ _ _ _ A3 A4)].
      intros u v. cbv beta. intuition.
  - exists adj. split; [exact A|]. split; [apply B|]. intros u v.
    destruct B as [_ B]. rewrite B, nth_repeat_nil. unfold share_cell. simpl. split.
    + intros [[]|(c & Hc & a & Ha & b & Hb & Hn & [[-> ->]|[-> ->]])]; split; eauto.
    + intros (Hn & c & Hc & Hu & Hv). right. exists c. split; auto. exists u. split; auto. exists v. auto.
Qed.

(** sorting rows *)
Lemma key_leb_total deg a b : key_leb deg a b = true \/ key_leb deg b a = true.
Proof.
  unfold key_leb. destruct (Nat.ltb_spec (nth a deg 0) (nth b deg 0)), (Nat.ltb_spec (nth b deg 0) (nth a deg 0)); simpl; auto.
  destruct (Nat.eqb_spec (nth a deg 0) (nth b deg 0)); [|lia].
  destruct (Nat.eqb_spec (nth b deg 0) (nth a deg 0)); [|lia]. simpl.
  destruct (Nat.leb_spec a b), (Nat.leb_spec b a); auto. lia.
Qed.
Lemma key_leb_iff deg a b : key_leb deg a b = true <->
  nth a deg 0 < nth b deg 0 \/ (nth a deg 0 = nth b deg 0 /\ a <= b).
Proof. unfold key_leb. rewrite orb_true_iff, andb_true_iff, Nat.ltb_lt, Nat.eqb_eq, Nat.leb_le. tauto. Qed.
Lemma key_leb_trans deg a b c : key_leb deg a b = true -> key_leb deg b c = true -> key_leb deg a c = true.
Proof. rewrite !key_leb_iff. lia. Qed.

Lemma rows_fold n (leb : nat -> nat -> bool) rows : forall acc, Forall (Forall (fun v => v < n)) rows ->
  foldM (fun acc row => let! _ := in_range n row in Ok (acc ++ [isort leb row])) rows acc
  = Ok (acc ++ map (isort leb) rows).
Proof.
  induction rows as [|r rows IH]; intros acc H; simpl.
  - rewrite app_nil_r. reflexivity.
  - inversion H; subst. unfold in_range.
    replace (forallb (fun p => p <? n) r) with true.
    + cbn [bind]. rewrite IH by assumption. rewrite <- app_assoc. reflexivity.
    + symmetry. apply forallb_forall. rewrite Forall_forall in H2. intros x Hx. apply Nat.ltb_lt. auto.
Qed.

Lemma in_bounds_rows adj : in_bounds adj <-> Forall (Forall (fun v => v < List.length adj)) adj.
Proof.
  split.
  - intros W. apply Forall_forall. intros r Hr. apply (In_nth _ _ []) in Hr. destruct Hr as (i & Hi & <-). apply W.
  - intros W u. destruct (lt_dec u (List.length adj)).
    + rewrite Forall_forall in W. apply W, nth_In. auto.
    + rewrite nth_overflow by lia. constructor.
Qed.

Lemma from_adjacency_unchecked adj calc : in_bounds adj ->
  from_adjacency_set adj calc false =
   let deg := map (@List.length nat) adj in
   let rows := map (isort (if calc then key_leb deg else Nat.leb)) adj in
   Ok (mkGraph rows (list_sum deg / 2) (if calc then deg else []) (if calc then fst (min_degree_loop 0 deg (0, None)) else 0)).
Proof.
  intros W. unfold from_adjacency_set. cbn [bind]. destruct calc.
  - rewrite rows_fold by (apply in_bounds_rows; exact W). cbn [bind app]. cbv zeta.
    rewrite map_map. do 2 f_equal. f_equal. f_equal. apply map_ext. intros. apply isort_length.
  - cbv zeta. rewrite map_map. do 2 f_equal. f_equal. f_equal. apply map_ext. intros. apply isort_length.
Qed.

Lemma from_adjacency_checked adj calc :
  from_adjacency_set adj calc true = (let! _ := check_connected adj in from_adjacency_set adj calc false).
Proof. reflexivity. Qed.

Lemma min_degree_loop_spec deg : forall p best,
  match snd best with None => True | Some m => True end ->
  let r := min_degree_loop p deg best in
  match snd r with
  | None => deg = [] /\ r = best
  | Some m =>
      (forall i, i < List.length deg -> m <= nth i deg 0) /\
      (match snd best with None => True | Some m0 => m <= m0 end) /\
      ((r = best /\ match snd best with None => False | Some m0 => m = m0 end) \/
       (exists i, i < List.length deg /\ fst r = p + i /\ nth i deg 0 = m /\
          (forall j, j < i -> m < nth j deg 0) /\ match snd best with None => True | Some m0 => m < m0 end))
  end.
Proof.
  induction deg as [|d deg IH]; intros p best _; simpl.
  - destruct best as [b [m|]]; simpl; auto. repeat split; auto. intros; lia.
  - set (lt := match snd best with None => true | Some m => d <? m end).
    specialize (IH (S p) (if lt then (p, Some d) else best)).
    simpl in IH. destruct (min_degree_loop (S p) deg (if lt then (p, Some d) else best)) as [r [m|]] eqn:Er; simpl in *.
    + specialize (IH ltac:(destruct lt; simpl; auto; destruct (snd best); auto)).
      destruct IH as (I1 & I2 & I3). destruct lt eqn:Elt; simpl in *.
      * assert (Hlt : match snd best with None => True | Some m0 => d < m0 end).
        { unfold lt in Elt. destruct (snd best); auto. apply Nat.ltb_lt. auto. }
        repeat split.
        -- intros [|i] Hi; simpl; [exact I2|apply I1; lia].
        -- destruct (snd best); auto. lia.
        -- right. destruct I3 as [[I3 I4]|(i & J1 & J2 & J3 & J4 & J5)].
           ++ inversion I3; subst. exists 0. repeat split; auto; try lia.
           ++ exists (S i). repeat split; auto; try lia.
              intros [|j] Hj; auto. apply J4. lia. destruct (snd best); auto. lia.
      * assert (Hge : match snd best with None => False | Some m0 => m0 <= d end).
        { unfold lt in Elt. destruct (snd best); [|discriminate]. apply Nat.ltb_ge. auto. }
        repeat split.
        -- intros [|i] Hi; simpl; [destruct (snd best); [lia|tauto]|apply I1; lia].
        -- exact I2.
        -- destruct I3 as [[I3 I4]|(i & J1 & J2 & J3 & J4 & J5)]; [left; auto|].
           right. exists (S i). repeat split; auto; try lia.
           intros [|j] Hj; [|apply J4; lia]. destruct (snd best); [lia|tauto].
    + specialize (IH ltac:(destruct lt; simpl; auto; destruct (snd best); auto)).
      destruct IH as [_ IH]. destruct lt eqn:Elt; simpl in *; [discriminate|].
      unfold lt in Elt. rewrite <- IH in Elt. simpl in Elt. discriminate.
Qed.

(* the least index with the least value *)
Lemma min_degree_first deg : deg <> [] ->
  let r := fst (min_degree_loop 0 deg (0, None)) in
  r < List.length deg /\ (forall i, i < List.length deg -> nth r deg 0 <= nth i deg 0) /\
  (forall i, i < r -> nth r deg 0 < nth i deg 0).
Proof.
  intros Hne. pose proof (min_degree_loop_spec deg 0 (0, None) I) as S. cbv zeta in *.
  destruct (min_degree_loop 0 deg (0, None)) as [r [m|]]; simpl in *; [|tauto].
  destruct S as (S1 & _ & [[_ []]|(i & J1 & J2 & J3 & J4 & _)]). subst i.
  rewrite J3. auto.
Qed.

(** what is guaranteed of a graph built from adjacency sets *)
Record Built (adj : list (list nat)) (calc : bool) (g : graph) : Prop := {
  b_len : nv g = List.length adj;
  b_rows : forall u, Permutation (nth u (adjacency g) []) (nth u adj []);
  b_nodup : (forall u, NoDup (nth u adj [])) -> forall u, NoDup (nth u (adjacency g) []);
  b_bounds : in_bounds (adjacency g);
  b_sorted : forall u, StronglySorted (fun x y => key_leb (if calc then degree g else []) x y = true) (nth u (adjacency g) []);
  b_degree : degree g = if calc then map (@List.length nat) (adjacency g) else [];
  b_nedge : nedge g = list_sum (map (@List.length nat) (adjacency g)) / 2;
  b_pmin : calc = true -> adj <> [] -> p_min_degree g < nv g /\
     (forall i, i < nv g -> nth (p_min_degree g) (degree g) 0 <= nth i (degree g) 0) /\
     (forall i, i < p_min_degree g -> nth (p_min_degree g) (degree g) 0 < nth i (degree g) 0) }.

Lemma key_leb_nil x y : key_leb [] x y = Nat.leb x y.
Proof. unfold key_leb. destruct x, y; simpl; reflexivity. Qed.

Lemma nth_map_isort (leb : nat -> nat -> bool) adj u : nth u (map (isort leb) adj) [] = isort leb (nth u adj []).
Proof. change (@nil nat) with (isort leb []) at 1. apply map_nth. Qed.

Lemma built_unchecked adj calc : in_bounds adj ->
  exists g, from_adjacency_set adj calc false = Ok g /\ Built adj calc g.
Proof.
  intros W. rewrite from_adjacency_unchecked by exact W. cbv zeta. eexists. split; [reflexivity|].
  set (leb := if calc then key_leb (map (@List.length nat) adj) else Nat.leb).
  assert (Lens : map (@List.length nat) (map (isort leb) adj) = map (@List.length nat) adj).
  { rewrite map_map. apply map_ext. intros. apply isort_length. }
  constructor; unfold nv; cbn [adjacency degree nedge p_min_degree].
  - apply map_length.
  - intros u. rewrite nth_map_isort. apply isort_perm.
  - intros ND u. rewrite nth_map_isort. eapply Permutation_NoDup; [apply Permutation_sym, isort_perm|apply ND].
  - intros u. rewrite map_length, nth_map_isort. eapply Permutation_Forall; [apply Permutation_sym, isort_perm|apply W].
  - intros u. rewrite nth_map_isort. subst leb. destruct calc.
    + apply isort_sorted; [apply key_leb_total|apply key_leb_trans].
    + eapply ss_impl; [|apply isort_sorted].
      * intros x y _ _ H. rewrite key_leb_nil. exact H.
      * intros a b. rewrite !Nat.leb_le. lia.
      * intros a b c. rewrite !Nat.leb_le. lia.
  - rewrite Lens. reflexivity.
  - rewrite Lens. reflexivity.
  - intros -> Hne. rewrite map_length. rewrite <- (map_length (@List.length nat) adj).
    apply min_degree_first. destruct adj; simpl; congruence.
Qed.

Lemma built_any adj calc chk g : in_bounds adj -> from_adjacency_set adj calc chk = Ok g ->
  Built adj calc g /\ (chk = true -> 0 < List.length adj /\ forall v, v < List.length adj -> reachable (adj_edge adj) 0 v).
Proof.
  intros W H. destruct (built_unchecked adj calc W) as (g' & H' & B).
  destruct chk; [|rewrite H' in H; inversion H; subst; split; auto; discriminate].
  rewrite from_adjacency_checked in H. apply bind_ok in H. destruct H as ([] & H1 & H2).
  rewrite H' in H2. inversion H2; subst. split; auto. intros _.
  assert (H0 : 0 < List.length adj).
  { unfold check_connected, conn_search in H1. destruct adj; simpl in *; [discriminate|lia]. }
  split; auto. apply check_connected_iff; auto.
Qed.

Lemma built_total adj calc chk : in_bounds adj -> 0 < List.length adj ->
  (chk = true -> forall v, v < List.length adj -> reachable (adj_edge adj) 0 v) ->
  exists g, from_adjacency_set adj calc chk = Ok g.
Proof.
  intros W H0 HC. destruct (built_unchecked adj calc W) as (g & H & _).
  destruct chk; [|eauto]. rewrite from_adjacency_checked.
  destruct (check_connected_iff adj W H0) as [[_ K] _]. rewrite K by auto. cbn [bind]. eauto.
Qed.

(** the result does not depend on the iteration order of the hash sets *)
Lemma sorted_unique (leb : nat -> nat -> bool) : (forall a b, leb a b = true -> leb b a = true -> a = b) ->
  forall l1 l2, StronglySorted (fun a b => leb a b = true) l1 -> StronglySorted (fun a b => leb a b = true) l2 ->
  Permutation l1 l2 -> l1 = l2.
Proof.
  intros AS. induction l1 as [|x l1 IH]; intros l2 S1 S2 P.
  - apply Permutation_nil in P. auto.
  - destruct l2 as [|y l2]; [apply Permutation_sym, Permutation_nil in P; discriminate|].
    inversion S1 as [|? ? S1' F1]; inversion S2 as [|? ? S2' F2]; subst.
    rewrite Forall_forall in F1, F2.
    assert (x = y).
    { assert (Ix : In x (y :: l2)) by (eapply Permutation_in; [exact P|left; auto]).
      assert (Iy : In y (x :: l1)) by (eapply Permutation_in; [apply Permutation_sym; exact P|left; auto]).
      destruct Ix as [->|Ix]; auto. destruct Iy as [->|Iy]; auto. }
    subst y. f_equal. apply IH; auto. eapply Permutation_cons_inv; eauto.
Qed.

Lemma key_leb_antisym deg a b : key_leb deg a b = true -> key_leb deg b a = true -> a = b.
Proof. rewrite !key_leb_iff. lia. Qed.

Lemma isort_perm_eq (leb : nat -> nat -> bool) l1 l2 :
  (forall a b, leb a b = true \/ leb b a = true) ->
  (forall a b c, leb a b = true -> leb b c = true -> leb a c = true) ->
  (forall a b, leb a b = true -> leb b a = true -> a = b) ->
  Permutation l1 l2 -> isort leb l1 = isort leb l2.
Proof.
  intros T Tr AS P. apply (sorted_unique leb); auto using isort_sorted.
  rewrite !isort_perm. exact P.
Qed.

Lemma walk_iff R S u v k : (forall x y, R x y <-> S x y) -> walk R u v k -> walk S u v k.
Proof. intros H W. induction W; econstructor; eauto. apply H. auto. Qed.

Lemma order_irrelevant adj1 adj2 calc chk : in_bounds adj1 ->
  Forall2 (@Permutation nat) adj1 adj2 ->
  from_adjacency_set adj1 calc chk = from_adjacency_set adj2 calc chk.
Proof.
  intros W P.
  assert (L : List.length adj1 = List.length adj2) by (clear -P; induction P; simpl; auto).
  assert (Lens : map (@List.length nat) adj1 = map (@List.length nat) adj2).
  { clear -P. induction P; simpl; auto. f_equal; auto. apply Permutation_length. auto. }
  assert (Hn : forall u, Permutation (nth u adj1 []) (nth u adj2 [])).
  { clear -P. induction P; intros [|u]; simpl; auto. }
  assert (W2 : in_bounds adj2).
  { intros u. rewrite <- L. eapply Permutation_Forall; [apply Hn|apply W]. }
  assert (Srt : forall leb, (forall a b, leb a b = true \/ leb b a = true) ->
     (forall a b c, leb a b = true -> leb b c = true -> leb a c = true) ->
     (forall a b, leb a b = true -> leb b a = true -> a = b) -> map (isort leb) adj1 = map (isort leb) adj2).
  { intros leb T Tr AS. clear -P T Tr AS. induction P; simpl; auto. f_equal; auto. apply isort_perm_eq; auto. }
  assert (U : from_adjacency_set adj1 calc false = from_adjacency_set adj2 calc false).
  { rewrite !from_adjacency_unchecked by assumption. cbv zeta. rewrite Lens.
    replace (map (isort (if calc then key_leb (map (@List.length nat) adj2) else Nat.leb)) adj1)
       with (map (isort (if calc then key_leb (map (@List.length nat) adj2) else Nat.leb)) adj2); auto.
    symmetry. destruct calc; apply Srt.
    - apply key_leb_total. - apply key_leb_trans. - apply key_leb_antisym.
    - intros a b. rewrite !Nat.leb_le. lia.
    - intros a b c. rewrite !Nat.leb_le. lia.
    - intros a b. rewrite !Nat.leb_le. lia. }
  destruct chk; auto. rewrite !from_adjacency_checked, U.
  destruct adj1 as [|r1 t1]; [inversion P; subst; reflexivity|].
  destruct (check_connected_iff (r1 :: t1) W ltac:(simpl; lia)) as [K1 N1].
  destruct (check_connected_iff adj2 W2 ltac:(simpl in *; lia)) as [K2 N2].
  assert (EE : forall x y, adj_edge (r1 :: t1) x y <-> adj_edge adj2 x y).
  { intros x y. unfold adj_edge. split; intros H; (eapply Permutation_in; [|exact H]); [|apply Permutation_sym]; apply Hn. }
  assert (K : check_connected (r1 :: t1) = Ok tt <-> check_connected adj2 = Ok tt).
  { rewrite K1, K2, L. split; intros H v Hv; destruct (H v Hv) as [k Hk]; exists k; (eapply walk_iff; [|exact Hk]); intros; rewrite EE; tauto. }
  destruct (check_connected (r1 :: t1)) as [[]|m1| |] eqn:E1.
  - rewrite (proj1 K eq_refl). reflexivity.
  - rewrite N1 by congruence. rewrite N2; [reflexivity|]. intros H. apply K in H. discriminate.
  - specialize (N1 ltac:(discriminate)). discriminate.
  - specialize (N1 ltac:(discriminate)). discriminate.
Qed.

(** counting edges *)
Definition row_pairs (lo : nat) (rows : list (list nat)) : list (nat * nat) :=
  concat (map (fun ar => map (fun b => (fst ar, b)) (snd ar)) (combine (seq lo (List.length rows)) rows)).

Lemma row_pairs_cons lo r rows : row_pairs lo (r :: rows) = map (fun b => (lo, b)) r ++ row_pairs (S lo) rows.
Proof. reflexivity. Qed.

Lemma row_pairs_length rows : forall lo, List.length (row_pairs lo rows) = list_sum (map (@List.length nat) rows).
Proof.
  induction rows as [|r rows IH]; intros lo; [reflexivity|].
  rewrite row_pairs_cons, app_length, map_length, IH. reflexivity.
Qed.

Lemma row_pairs_in rows : forall lo a b, In (a, b) (row_pairs lo rows) <-> lo <= a /\ In b (nth (a - lo) rows []).
Proof.
  induction rows as [|r rows IH]; intros lo a b.
  - simpl. destruct (a - lo); tauto.
  - rewrite row_pairs_cons, in_app_iff, IH, in_map_iff. split.
    + intros [(x & Hx & Hi)|[H1 H2]].
      * inversion Hx; subst. rewrite Nat.sub_diag. simpl. auto.
      * split; [lia|]. replace (a - lo) with (S (a - S lo)) by lia. exact H2.
    + intros [H1 H2]. destruct (Nat.eq_dec a lo) as [->|N].
      * rewrite Nat.sub_diag in H2. left. exists b. auto.
      * right. split; [lia|]. replace (a - lo) with (S (a - S lo)) in H2 by lia. exact H2.
Qed.

Lemma row_pairs_nodup rows : (forall u, NoDup (nth u rows [])) -> forall lo, NoDup (row_pairs lo rows).
Proof.
  induction rows as [|r rows IH]; intros H lo; [constructor|]. rewrite row_pairs_cons.
  assert (N : NoDup (map (fun b => (lo, b)) r)).
  { apply FinFun.Injective_map_NoDup; [|exact (H 0)]. intros x y Hxy. congruence. }
  assert (N2 : NoDup (row_pairs (S lo) rows)) by (apply IH; intros u; exact (H (S u))).
  apply nodup_app; auto. intros [a b] H1 H2. apply in_map_iff in H1. destruct H1 as (x & H1 & _).
  inversion H1; subst. apply row_pairs_in in H2. lia.
Qed.

Lemma get_edges_filter g : get_edges g = filter (fun p => fst p <? snd p) (row_pairs 0 (adjacency g)).
Proof.
  unfold get_edges. generalize 0 as lo. induction (adjacency g) as [|r rows IH]; intros lo; [reflexivity|].
  rewrite row_pairs_cons, filter_app. cbn [List.length seq combine map concat fst snd]. f_equal.
  - induction r as [|b r IHr]; [reflexivity|]. cbn [filter map fst snd].
    destruct (lo <? b); cbn [map]; rewrite IHr; reflexivity.
  - apply IH.
Qed.

Lemma filter_split {A} (f : A -> bool) l : Permutation l (filter f l ++ filter (fun x => negb (f x)) l).
Proof.
  induction l as [|x l IH]; simpl; auto. destruct (f x); simpl.
  - constructor. exact IH.
  - apply Permutation_cons_app. exact IH.
Qed.

Lemma NoDup_map_inj {A B} (f : A -> B) l : (forall x y, In x l -> In y l -> f x = f y -> x = y) -> NoDup l -> NoDup (map f l).
Proof.
  intros H. induction 1 as [|x l Hx Hn IH]; simpl; constructor.
  - intros Hi. apply in_map_iff in Hi. destruct Hi as (y & Hy & Hl). apply H in Hy; simpl; auto. subst; auto.
  - apply IH. intros; apply H; simpl; auto.
Qed.

Lemma edge_count g : (forall u, NoDup (nth u (adjacency g) [])) ->
  (forall u v, edge g u v -> edge g v u) -> (forall u, ~ edge g u u) ->
  list_sum (map (@List.length nat) (adjacency g)) = 2 * List.length (get_edges g).
Proof.
  intros ND Sym Irr. rewrite <- (row_pairs_length (adjacency g) 0), get_edges_filter.
  set (ps := row_pairs 0 (adjacency g)).
  assert (Hin : forall a b, In (a, b) ps <-> edge g a b).
  { intros a b. unfold ps. rewrite row_pairs_in, Nat.sub_0_r. unfold edge, adj_edge. intuition lia. }
  rewrite (Permutation_length (filter_split (fun p => fst p <? snd p) ps)), app_length.
  assert (P : Permutation (filter (fun p => negb (fst p <? snd p)) ps)
                (map (fun p => (snd p, fst p)) (filter (fun p => fst p <? snd p) ps))).
  { assert (NP : NoDup ps) by (apply row_pairs_nodup; exact ND).
    apply NoDup_Permutation.
    - apply NoDup_filter. exact NP.
    - apply NoDup_map_inj; [|apply NoDup_filter; exact NP].
      intros [a b] [c d] _ _ H. simpl in H. congruence.
    - intros [a b]. rewrite filter_In, in_map_iff. cbn [fst snd]. rewrite Hin, negb_true_iff, Nat.ltb_ge. split.
      + intros [He Hl]. exists (b, a). split; auto. rewrite filter_In, Hin. cbn [fst snd]. rewrite Nat.ltb_lt.
        split; auto. destruct (Nat.eq_dec a b) as [->|]; [elim (Irr b He)|lia].
      + intros ([c d] & Hc & Hf). inversion Hc; subst. rewrite filter_In, Hin in Hf. cbn [fst snd] in Hf.
        rewrite Nat.ltb_lt in Hf. destruct Hf. split; auto. lia. }
  rewrite (Permutation_length P), map_length. lia.
Qed.

Lemma get_edges_spec g : (forall u, NoDup (nth u (adjacency g) [])) ->
  NoDup (get_edges g) /\ forall a b, In (a, b) (get_edges g) <-> a < b /\ edge g a b.
Proof.
  intros ND. rewrite get_edges_filter. split.
  - apply NoDup_filter, row_pairs_nodup, ND.
  - intros a b. rewrite filter_In, row_pairs_in, Nat.sub_0_r. cbn [fst snd]. rewrite Nat.ltb_lt. unfold edge, adj_edge.
    intuition lia.
Qed.

Lemma has_edge_spec g a b : in_bounds (adjacency g) -> has_edge g a b = true <-> edge g a b.
Proof.
  intros W. unfold has_edge, edge, adj_edge. specialize (W a). rewrite Forall_forall in W.
  destruct (Nat.leb_spec (List.length (adjacency g)) a); simpl.
  - rewrite nth_overflow by lia. simpl. split; [discriminate|tauto].
  - destruct (Nat.leb_spec (List.length (adjacency g)) b); simpl.
    + split; [discriminate|]. intros Hi. apply W in Hi. lia.
    + rewrite existsb_exists. split.
      * intros (x & Hx & He). apply Nat.eqb_eq in He. subst. auto.
      * intros Hi. exists b. rewrite Nat.eqb_refl. auto.
Qed.

(** from_mesh *)


Lemma share_cell_mesh {T} (m : mesh T) a b : share_cell (map c_points (cells m)) a b <-> mesh_edge m a b.
Proof.
  unfold share_cell, mesh_edge. split; intros (Hn & c & Hc & Ha & Hb); (split; [exact Hn|]).
  - apply in_map_iff in Hc. destruct Hc as (c' & <- & Hc). eauto.
  - exists (c_points c). split; auto. apply in_map. auto.
Qed.

Lemma from_mesh_adj {T} (m : mesh T) calc chk : cells_in_range m ->
  exists adj, Good (List.length (points m)) adj /\ (forall u v, adj_edge adj u v <-> mesh_edge m u v) /\
    from_mesh m calc chk = from_adjacency_set adj calc chk.
Proof.
  intros H. destruct (mesh_adjacency_ok (List.length (points m)) (map c_points (cells m))) as (adj & A & G & R).
  - intros c p Hc Hp. apply in_map_iff in Hc. destruct Hc as (c' & <- & Hc). eapply H; eauto.
  - exists adj. split; auto. split.
    + intros u v. unfold adj_edge. rewrite R. apply share_cell_mesh.
    + unfold from_mesh. rewrite A. reflexivity.
Qed.

Lemma mesh_edge_sym {T} (m : mesh T) a b : mesh_edge m a b -> mesh_edge m b a.
Proof. intros (Hn & c & Hc & Ha & Hb). split; eauto. Qed.

Lemma from_mesh_spec {T} (m : mesh T) calc chk g : cells_in_range m -> from_mesh m calc chk = Ok g ->
  nv g = List.length (points m) /\
  (forall a b, edge g a b <-> mesh_edge m a b) /\
  (forall u, NoDup (nth u (adjacency g) [])) /\
  (forall u, StronglySorted (fun x y => key_leb (if calc then degree g else []) x y = true) (nth u (adjacency g) [])) /\
  degree g = (if calc then map (@List.length nat) (adjacency g) else []) /\
  nedge g = List.length (get_edges g) /\ in_bounds (adjacency g) /\
  (calc = true -> points m <> [] -> p_min_degree g < nv g) /\
  (chk = true -> forall v, v < List.length (points m) -> reachable (mesh_edge m) 0 v).
Proof.
  intros H HG. destruct (from_mesh_adj m calc chk H) as (adj & (L & ND & W) & R & HE).
  rewrite HE in HG. destruct (built_any _ _ _ _ W HG) as [B C].
  assert (Ed : forall a b, edge g a b <-> mesh_edge m a b).
  { intros a b. rewrite <- R. unfold edge, adj_edge. split; intros Hi; (eapply Permutation_in; [|exact Hi]);
      [|apply Permutation_sym]; apply (b_rows _ _ _ B). }
  split; [rewrite (b_len _ _ _ B); exact L|]. split; [exact Ed|].
  split; [apply (b_nodup _ _ _ B ND)|]. split; [apply (b_sorted _ _ _ B)|].
  split; [apply (b_degree _ _ _ B)|]. split; [|split; [apply (b_bounds _ _ _ B)|split]].
  - rewrite (b_nedge _ _ _ B), edge_count.
    + rewrite Nat.mul_comm. apply Nat.div_mul. lia.
    + apply (b_nodup _ _ _ B ND).
    + intros u v. rewrite !Ed. apply mesh_edge_sym.
    + intros u. rewrite Ed. intros [Hn _]. auto.
  - intros -> Hne. apply (b_pmin _ _ _ B eq_refl). intros ->. simpl in L. destruct (points m); simpl in L; congruence.
  - intros Hc v Hv. destruct (C Hc) as [_ C2]. rewrite L in C2. destruct (C2 v Hv) as [k Hk].
    exists k. eapply walk_iff; [|exact Hk]. exact R.
Qed.

Lemma from_mesh_connectivity {T} (m : mesh T) calc : cells_in_range m -> points m <> [] ->
  ((exists g, from_mesh m calc true = Ok g) <-> forall v, v < List.length (points m) -> reachable (mesh_edge m) 0 v) /\
  ((exists g, from_mesh m calc true = Ok g) \/
   from_mesh m calc true = Err "there are hanging vertices/edges in the mesh (graph is disconnected)").
Proof.
  intros H Hne. destruct (from_mesh_adj m calc true H) as (adj & (L & ND & W) & R & HE). rewrite HE.
  assert (H0 : 0 < List.length adj) by (rewrite L; destruct (points m); simpl; [congruence|lia]).
  assert (RR : (forall v, v < List.length adj -> reachable (adj_edge adj) 0 v) <-> (forall v, v < List.length (points m) -> reachable (mesh_edge m) 0 v)).
  { rewrite L. split; intros K v Hv; destruct (K v Hv) as [k Hk]; exists k; (eapply walk_iff; [|exact Hk]); auto.
    intros; rewrite R; tauto. }
  destruct (check_connected_iff adj W H0) as [C1 C2].
  destruct (built_unchecked adj calc W) as (g0 & U & _).
  rewrite <- RR, <- C1, from_adjacency_checked. destruct (check_connected adj) as [[]|m1| |] eqn:Ec.
  - cbn [bind]. rewrite U. split; [split; intros; eauto|left; eauto].
  - specialize (C2 ltac:(discriminate)). rewrite C2. cbn [bind].
    split; [|auto]. split; [intros [g Hg]; discriminate|discriminate].
  - specialize (C2 ltac:(discriminate)). discriminate.
  - specialize (C2 ltac:(discriminate)). discriminate.
Qed.

(** from_edges *)
Lemma nodes_fold (edges : list (nat * nat)) : forall s, NoDup s ->
  let r := fold_left (fun s e => hs_insert (snd e) (hs_insert (fst e) s)) edges s in
  NoDup r /\ forall x, In x r <-> In x s \/ exists e, In e edges /\ (x = fst e \/ x = snd e).
Proof.
  induction edges as [|e edges IH]; intros s Hs; cbv zeta.
  - simpl. split; auto. intros x. split; auto. intros [?|(e & [] & _)]; auto.
  - simpl. destruct (IH (hs_insert (snd e) (hs_insert (fst e) s))) as [A B].
    + apply hs_insert_nodup, hs_insert_nodup, Hs.
    + split; auto. intros x. rewrite B, !hs_insert_in. split.
      * intros [[[?|?]|?]|(e' & ? & ?)]; [auto|right; exists e; auto..|right; exists e'; auto].
      * intros [?|(e' & [->|?] & [?|?])]; auto; right; exists e'; auto.
Qed.

Lemma from_edges_adj edges n calc chk :
  (forall e, In e edges -> fst e < n /\ snd e < n) ->
  (forall u, u < n -> exists e, In e edges /\ (u = fst e \/ u = snd e)) ->
  exists adj, Good n adj /\ (forall u v, adj_edge adj u v <-> In (u, v) edges \/ In (v, u) edges) /\
    from_edges edges calc chk = from_adjacency_set adj calc chk.
Proof.
  intros H1 H2. unfold from_edges.
  destruct (nodes_fold edges [] (NoDup_nil _)) as [N1 N2]. cbv zeta in *.
  set (nodes := fold_left (fun s e => hs_insert (snd e) (hs_insert (fst e) s)) edges []) in *.
  assert (P : Permutation nodes (seq 0 n)).
  { apply NoDup_Permutation; auto using seq_NoDup. intros x. rewrite N2, in_seq. simpl. split.
    - intros [[]|(e & He & [->| ->])]; destruct (H1 e He); lia.
    - intros Hx. right. apply H2. lia. }
  apply Permutation_length in P. rewrite seq_length in P. rewrite P.
  edestruct (fold_adds n
    (fun adj (e : nat * nat) => let! adj := adj_insert adj (fst e) (snd e) in adj_insert adj (snd e) (fst e))
    (fun e u v => (u = fst e /\ v = snd e) \/ (u = snd e /\ v = fst e)) edges) as (adj & A & B); [|apply good_repeat|].
  - intros e adj He G. destruct (H1 e He).
    destruct (adj_insert_adds n adj (fst e) (snd e) G) as (a3 & E3 & A3); auto. rewrite E3. cbn [bind].
    destruct (adj_insert_adds n a3 (snd e) (fst e) (proj1 A3)) as (a4 & E4 & A4); auto.
    exists a4. split; auto. exact (adds_trans _ _ _ _ _ _ A3 A4).
  - exists adj. split; [apply B|]. split; [|rewrite A; reflexivity].
    intros u v. unfold adj_edge. destruct B as [_ B]. rewrite B, nth_repeat_nil. simpl. split.
    + intros [[]|([a b] & He & [[-> ->]|[-> ->]])]; auto.
    + intros [He|He]; right; [exists (u, v)|exists (v, u)]; auto.
Qed.
