(* Collections of blocks: the block of a region. *)
From Coq Require Import String Reals List Lia Lra Bool Arith ZArith Permutation Sorted.
From Verif Require Import Base BaseFacts Kind MeshModel MeshQuerySpec TopoModel TopoSpec TopoMaps TopoProof GeomModel GeomSpec GeomProof GridModel GridSpec GridProof SearchModel SearchSpec SearchProof SearchProof2
  JoinModel JoinSpec JoinProof JoinProof2 JoinProof3 ShapesModel ShapesSpec PadModel PadSpec BlockModel BlockSpec BlockProof BlockProof2 BlockProof3 BlockProof10 PropBlock GraphModel StructModel StructSpec StructProof StructProof4 RingSpec RingProof2 BlocksSpec BlocksProof BlocksProof2.
Import ListNotations.
Local Open Scope list_scope.
Local Open Scope R_scope.

(* ---------------------------------------------------------------- the maps of markers *)
Lemma fold_last {K Q} (eqb : K -> K -> bool) (H : forall a b, eqb a b = true <-> a = b) (key : Q -> K) (mk : Q -> Z) l k v :
  mget eqb (fold_left (fun mm q => mput eqb mm (key q) (mk q)) l []) k = Some v <-> exists x, last_entry (fun q => key q = k) l x /\ mk x = v.
Proof.
  induction l as [|q l IH] using rev_ind.
  - cbn. split; [discriminate|]. intros (x & (_ & u & w & E & _) & _). destruct u; discriminate E.
  - rewrite fold_left_app. cbn [fold_left]. destruct (eqb (key q) k) eqn:E.
    + apply H in E. subst k. rewrite (mget_mput_same eqb H). split.
      * intros X. injection X as <-. exists q. split; [|reflexivity]. split; [reflexivity|]. exists l, []. split; [reflexivity|]. intros q' [].
      * intros (x & (Kx & u & w & El & N) & <-). f_equal. f_equal. destruct w as [|w0 w] using rev_ind; [apply app_inj_tail in El as [_ <-]; reflexivity|]. clear IHw. exfalso. rewrite app_comm_cons, app_assoc in El. apply app_inj_tail in El as [_ <-].
        apply (N q); [apply in_elt|reflexivity].
    + assert (Ne : key q <> k) by (intros X; apply H in X; rewrite X in E; discriminate E). rewrite (mget_mput_other eqb H) by exact Ne. rewrite IH. split.
      * intros (x & (Kx & u & w & -> & N) & Mx). exists x. split; [|exact Mx]. split; [exact Kx|]. exists u, (w ++ [q]). split; [rewrite <- app_assoc; reflexivity|]. intros q' I. apply in_app_iff in I as [I|[<-|[]]]; [apply N; exact I|exact Ne].
      * intros (x & (Kx & u & w & El & N) & Mx). exists x. split; [|exact Mx]. split; [exact Kx|]. destruct w as [|w0 w] using rev_ind; [apply app_inj_tail in El as [_ <-]; contradiction|]. clear IHw. rewrite app_comm_cons, app_assoc in El. apply app_inj_tail in El as [-> <-].
        exists u, w. split; [reflexivity|]. intros q' I. apply N. apply in_or_app. left. exact I.
Qed.
Lemma last_entry_ext {A} (P Q : A -> Prop) l x : (forall y, P y <-> Q y) -> last_entry P l x <-> last_entry Q l x.
Proof.
  intros H. unfold last_entry. rewrite H. split; intros (Q1 & u & v & E & N); (split; [exact Q1|]); exists u, v; (split; [exact E|]); intros q I X; apply (N q I), H, X.
Qed.
Lemma edges_to_mark_get l p q v : mget ekey_eqb (edges_to_mark l) (sort2 (p, q)) = Some v <-> exists x, last_entry (edge_at p q) l x /\ fst (fst x) = v.
Proof.
  unfold edges_to_mark. rewrite (fold_last ekey_eqb ekey_eqb_eq (fun q => sort2 (snd (fst q), snd q)) (fun q => fst (fst q)) l).
  split; intros (x & L & M); exists x; (split; [|exact M]); eapply last_entry_ext; [|exact L| |exact L]; intros [[z a] b]; cbn [fst snd]; unfold edge_at; cbn [fst snd].
  - destruct (sort2_cases p q) as [[-> Hp]|[-> Hp]]; rewrite sort2_iff by lia; unfold same_pair; lia.
  - destruct (sort2_cases p q) as [[-> Hp]|[-> Hp]]; rewrite sort2_iff by lia; unfold same_pair; lia.
Qed.
Lemma faces_to_mark_get l ps v : mget fkey_eqb (faces_to_mark l) (sort4 ps) = Some v <->
  exists x, last_entry (fun x : Z * nat * nat * nat * nat => let '(_, a, b, c, d) := x in Permutation ps [a; b; c; d]) l x /\ fst (fst (fst (fst x))) = v.
Proof.
  unfold faces_to_mark.
  assert (E : forall l mm, fold_left (fun mm (q : Z * nat * nat * nat * nat) => let '(mk, p1, p2, p3, p4) := q in mput fkey_eqb mm (sort4 [p1; p2; p3; p4]) mk) l mm =
    fold_left (fun mm q => mput fkey_eqb mm ((fun q : Z * nat * nat * nat * nat => let '(_, p1, p2, p3, p4) := q in sort4 [p1; p2; p3; p4]) q) ((fun q : Z * nat * nat * nat * nat => fst (fst (fst (fst q)))) q)) l mm).
  { clear. induction l as [|[[[[a b] c] d] e] l IH]; intros mm; cbn [fold_left fst]; [reflexivity|apply IH]. }
  rewrite E, (fold_last fkey_eqb fkey_eqb_eq). split; intros (x & L & M); exists x; (split; [|exact M]); eapply last_entry_ext; [|exact L| |exact L]; intros [[[[z a] b] c] d]; rewrite sort4_perm; split; apply Permutation_sym.
Qed.

(* ---------------------------------------------------------------- marking the edges and faces of a block *)
Lemma call_ok rb b : call rb = Ok b -> fst rb = Ok tt /\ snd rb = b.
Proof. destruct rb as [[[]|e| |] b']; cbn; intros H; try discriminate H. injection H as <-. auto. Qed.
Lemma get_some' {A} (l : list A) i x : get l i = Ok x -> nth_error l i = Some x.
Proof. unfold get. destruct (nth_error l i); intros H; [injection H as ->; reflexivity|discriminate H]. Qed.

(* the marker for an edge (face) of the block *)
Definition edge_lookup (kind : geokind) (pp : list nat) (mm : list (ekey * Z)) (e : nat) : option Z :=
  match nth_error pp (edge_node_id kind e 0), nth_error pp (edge_node_id kind e 1) with Some p, Some q => mget ekey_eqb mm (sort2 (p, q)) | _, _ => None end.
Definition face_lookup (pp : list nat) (mm : list (fkey * Z)) (f : nat) : option Z :=
  match mapM (fun i => get pp (face_node_id Hex8 f i)) (seq 0 4) with Ok ps => mget fkey_eqb mm (sort4 ps) | _ => None end.

Lemma mark_edges_ok zdet kind n pp mm b b' : 0 <= zdet -> made zdet b -> n = (if (b_ndim b =? 2)%nat then 4 else 12)%nat ->
  mark_block_edges kind n pp mm b = Ok b' -> made zdet b' /\ b' = with_em b (b_em b') /\
  forall e, mget Nat.eqb (b_em b') e = if (e <? n)%nat then match edge_lookup kind pp mm e with Some v => Some v | None => mget Nat.eqb (b_em b) e end else mget Nat.eqb (b_em b) e.
Proof.
  intros Hz M Hn H.
  assert (Fold : forall es b b', (forall e, In e es -> (e < n)%nat) -> made zdet b -> n = (if (b_ndim b =? 2)%nat then 4 else 12)%nat ->
    foldM (fun (b : block) e => let! p := get pp (edge_node_id kind e 0) in let! q := get pp (edge_node_id kind e 1) in
      match mget ekey_eqb mm (sort2 (p, q)) with Some mk => call (set_edge_marker b e mk) | None => Ok b end) es b = Ok b' ->
    made zdet b' /\ b' = with_em b (b_em b') /\ forall e, mget Nat.eqb (b_em b') e = if in_dec Nat.eq_dec e es then match edge_lookup kind pp mm e with Some v => Some v | None => mget Nat.eqb (b_em b) e end else mget Nat.eqb (b_em b) e).
  { clear b b' M Hn H. induction es as [|e es IH]; intros b b' Hes M Hn H.
    - cbn in H. injection H as <-. split; [exact M|]. split; [destruct b; reflexivity|]. intros e. destruct (in_dec Nat.eq_dec e []) as [[]|_]. reflexivity.
    - cbn [foldM] in H. apply bind_ok in H as (b1 & H1 & H). apply bind_ok in H1 as (p & Hp & H1). apply bind_ok in H1 as (q & Hq & H1). apply get_some' in Hp, Hq.
      assert (LK : edge_lookup kind pp mm e = mget ekey_eqb mm (sort2 (p, q))) by (unfold edge_lookup; rewrite Hp, Hq; reflexivity).
      assert (S1 : made zdet b1 /\ b1 = with_em b (b_em b1) /\ forall e', mget Nat.eqb (b_em b1) e' = if (e' =? e)%nat then match edge_lookup kind pp mm e with Some v => Some v | None => mget Nat.eqb (b_em b) e' end else mget Nat.eqb (b_em b) e').
      { rewrite LK. destruct (mget ekey_eqb mm (sort2 (p, q))) as [mk|].
        - apply call_ok in H1 as (_ & E1). split; [rewrite <- E1; apply made_em; exact M|]. destruct (C61_edge_setter zdet b e mk Hz M) as (A & _). destruct (A) as (b2 & E2 & G & W); [rewrite <- Hn; apply Hes; left; reflexivity|].
          rewrite E2 in E1. cbn in E1. subst b2. split; [exact W|exact G].
        - injection H1 as <-. split; [exact M|]. split; [destruct b; reflexivity|]. intros e'. destruct (e' =? e)%nat; reflexivity. }
      destruct S1 as (M1 & W1 & G1). destruct (IH b1 b') as (M2 & W2 & G2); [intros e' I; apply Hes; right; exact I|exact M1|rewrite W1; exact Hn|exact H|].
      split; [exact M2|]. split; [rewrite W2, W1; reflexivity|]. intros e'. rewrite G2, G1. destruct (in_dec Nat.eq_dec e' es) as [I|I], (in_dec Nat.eq_dec e' (e :: es)) as [J|J], (Nat.eqb_spec e' e) as [->|Ne]; try reflexivity.
      + destruct (edge_lookup kind pp mm e); reflexivity.
      + exfalso. apply J. right. exact I.
      + exfalso. apply J. right. exact I.
      + destruct J as [->|J]; [contradiction|contradiction].
      + exfalso. apply J. left. reflexivity. }
  unfold mark_block_edges in H. destruct mm as [|x0 mm0]; [|set (mm := x0 :: mm0) in *].
  - injection H as <-. split; [exact M|]. split; [destruct b; reflexivity|]. intros e. destruct (e <? n)%nat; [|reflexivity]. unfold edge_lookup. destruct (nth_error pp _); [|reflexivity]. destruct (nth_error pp _); reflexivity.
  - destruct (Fold (seq 0 n) b b') as (M2 & W2 & G2); [intros e I; apply in_seq in I; lia|exact M|exact Hn|exact H|]. split; [exact M2|]. split; [exact W2|]. intros e. rewrite G2.
    destruct (in_dec Nat.eq_dec e (seq 0 n)) as [I|I], (Nat.ltb_spec e n) as [L|L]; try reflexivity; exfalso; [apply in_seq in I; lia|apply I; apply in_seq; lia].
Qed.
Lemma mark_faces_ok zdet pp mm b b' : made zdet b -> b_ndim b = 3%nat ->
  mark_block_faces pp mm b = Ok b' -> made zdet b' /\ b' = with_fm b (b_fm b') /\
  forall e, mget Nat.eqb (b_fm b') e = if (e <? 6)%nat then match face_lookup pp mm e with Some v => Some v | None => mget Nat.eqb (b_fm b) e end else mget Nat.eqb (b_fm b) e.
Proof.
  intros M Hn H.
  assert (Fold : forall es b b', (forall e, In e es -> (e < 6)%nat) -> made zdet b -> b_ndim b = 3%nat ->
    foldM (fun (b : block) f => let! ps := mapM (fun i => get pp (face_node_id Hex8 f i)) (seq 0 4) in
      match mget fkey_eqb mm (sort4 ps) with Some mk => call (set_face_marker b f mk) | None => Ok b end) es b = Ok b' ->
    made zdet b' /\ b' = with_fm b (b_fm b') /\ forall e, mget Nat.eqb (b_fm b') e = if in_dec Nat.eq_dec e es then match face_lookup pp mm e with Some v => Some v | None => mget Nat.eqb (b_fm b) e end else mget Nat.eqb (b_fm b) e).
  { clear b b' M Hn H. induction es as [|e es IH]; intros b b' Hes M Hn H.
    - cbn in H. injection H as <-. split; [exact M|]. split; [destruct b; reflexivity|]. intros e. destruct (in_dec Nat.eq_dec e []) as [[]|_]. reflexivity.
    - cbn [foldM] in H. apply bind_ok in H as (b1 & H1 & H). apply bind_ok in H1 as (ps & Hp & H1).
      assert (LK : face_lookup pp mm e = mget fkey_eqb mm (sort4 ps)) by (unfold face_lookup; rewrite Hp; reflexivity).
      assert (S1 : made zdet b1 /\ b1 = with_fm b (b_fm b1) /\ forall e', mget Nat.eqb (b_fm b1) e' = if (e' =? e)%nat then match face_lookup pp mm e with Some v => Some v | None => mget Nat.eqb (b_fm b) e' end else mget Nat.eqb (b_fm b) e').
      { rewrite LK. destruct (mget fkey_eqb mm (sort4 ps)) as [mk|].
        - apply call_ok in H1 as (_ & E1). split; [rewrite <- E1; apply made_fm; exact M|]. destruct (C61_face_setter b e mk) as (A & _). destruct (A) as (b2 & E2 & G & W); [split; [exact Hn|apply Hes; left; reflexivity]|].
          rewrite E2 in E1. cbn in E1. subst b2. split; [exact W|exact G].
        - injection H1 as <-. split; [exact M|]. split; [destruct b; reflexivity|]. intros e'. destruct (e' =? e)%nat; reflexivity. }
      destruct S1 as (M1 & W1 & G1). destruct (IH b1 b') as (M2 & W2 & G2); [intros e' I; apply Hes; right; exact I|exact M1|rewrite W1; exact Hn|exact H|].
      split; [exact M2|]. split; [rewrite W2, W1; reflexivity|]. intros e'. rewrite G2, G1. destruct (in_dec Nat.eq_dec e' es) as [I|I], (in_dec Nat.eq_dec e' (e :: es)) as [J|J], (Nat.eqb_spec e' e) as [->|Ne]; try reflexivity.
      + destruct (face_lookup pp mm e); reflexivity.
      + exfalso. apply J. right. exact I.
      + exfalso. apply J. right. exact I.
      + destruct J as [->|J]; [contradiction|contradiction].
      + exfalso. apply J. left. reflexivity. }
  unfold mark_block_faces in H. destruct mm as [|x0 mm0]; [|set (mm := x0 :: mm0) in *].
  - injection H as <-. split; [exact M|]. split; [destruct b; reflexivity|]. intros e. destruct (e <? 6)%nat; [|reflexivity]. unfold face_lookup. destruct (mapM _ _); reflexivity.
  - destruct (Fold (seq 0 6) b b') as (M2 & W2 & G2); [intros e I; apply in_seq in I; lia|exact M|exact Hn|exact H|]. split; [exact M2|]. split; [exact W2|]. intros e. rewrite G2.
    destruct (in_dec Nat.eq_dec e (seq 0 6)) as [I|I], (Nat.ltb_spec e 6) as [L|L]; try reflexivity; exfalso; [apply in_seq in I; lia|apply I; apply in_seq; lia].
Qed.

(* ---------------------------------------------------------------- the block of a region *)
Lemma get_nth {A} (l : list A) i x d : get l i = Ok x -> (i < List.length l)%nat /\ x = nth i l d.
Proof. intros H. apply get_some' in H. split; [apply nth_error_Some; congruence|symmetry; apply nth_error_nth; exact H]. Qed.
Lemma corners_get {A} (l : list A) (f : A -> list R) d ps cs : mapM (fun p => let! c := get l p in Ok (f c)) ps = Ok cs ->
  (forall p, In p ps -> (p < List.length l)%nat) /\ cs = map (fun p => f (nth p l d)) ps.
Proof.
  intros H. apply mapM_ok in H. induction H as [|p c ps cs H1 H2 (I1 & I2)]; [split; [intros p []|reflexivity]|].
  apply bind_ok in H1 as (x & Hx & H1). injection H1 as <-. destruct (get_nth _ _ _ d Hx) as (L & ->). split; [intros p' [<-|I]; [exact L|apply I1; exact I]|]. cbn [map]. rewrite <- I2. reflexivity.
Qed.
Lemma f2_impl {A B} (P Q : A -> B -> Prop) l l' : (forall a b, P a b -> Q a b) -> Forall2 P l l' -> Forall2 Q l l'.
Proof. intros H F. induction F; constructor; auto. Qed.
Lemma two_equal : weighted [1; 1] [1; 1].
Proof. split; [reflexivity|]. intros i Hi. cbn in Hi. destruct i as [|[|i]]; [| |lia]; cbn; lra. Qed.
Lemma new_ok zdet nd cs b : 0 <= zdet -> good_size nd cs -> rect nd cs -> block_new zdet nd cs = Ok b ->
  b_ndim b = nd /\ b_ndiv b = repeat 2%nat nd /\ b_delta b = repeat [1; 1] nd /\ b_ec b = [] /\ b_fc b = [] /\ b_em b = [] /\ b_fm b = [] /\ b_ring b = false /\ holds_nodes nd cs (b_pad b).
Proof.
  intros Z G Rc H. destruct (C62_new zdet nd cs Z G Rc) as (d & _ & A & B). destruct (Rle_or_lt d zdet) as [L|L]; [destruct (B L) as (msg & E); rewrite E in H; discriminate H|].
  destruct (A L) as (b' & E & F1 & F2 & F3 & F4 & F5 & F6 & F7 & F8 & F9 & _ & _ & _ & F10). rewrite E in H. injection H as <-. auto 10.
Qed.
Lemma edge_lookup_marks nd l g e mk : (edge_lookup (linear_kind nd) (g_ids g) (edges_to_mark l) e = Some mk /\ (e < kind_nedge (linear_kind nd))%nat) <-> marks_edge nd l g e mk.
Proof.
  unfold edge_lookup, marks_edge. split.
  - intros (H & L). split; [exact L|]. destruct (nth_error (g_ids g) (edge_node_id (linear_kind nd) e 0)) as [p|] eqn:Ep; [|discriminate H]. destruct (nth_error (g_ids g) (edge_node_id (linear_kind nd) e 1)) as [q|] eqn:Eq; [|discriminate H].
    exists p, q. split; [reflexivity|]. split; [reflexivity|]. apply edges_to_mark_get. exact H.
  - intros (L & p & q & -> & -> & X). split; [|exact L]. apply edges_to_mark_get. exact X.
Qed.
Lemma face_lookup_marks l g f mk : (face_lookup (g_ids g) (faces_to_mark l) f = Some mk /\ (f < 6)%nat) <-> marks_face l g f mk.
Proof.
  unfold face_lookup, marks_face. split.
  - intros (H & L). split; [exact L|]. destruct (mapM _ _) as [ps| | |] eqn:E; try discriminate H. exists ps. split; [|apply faces_to_mark_get; exact H].
    apply mapM_ok in E. revert E. apply f2_impl. intros a b. apply get_some'.
  - intros (L & ps & F & X). split; [|exact L]. assert (E : mapM (fun i => get (g_ids g) (face_node_id Hex8 f i)) (seq 0 4) = Ok ps) by (apply mapM_ok; revert F; apply f2_impl; intros a b Hab; unfold get; rewrite Hab; reflexivity).
    rewrite E. apply faces_to_mark_get. exact X.
Qed.

(* the conditions of the sides *)
Definition side_facts (nd : nat) (g : region) (b : block) : Prop :=
  (forall s, (s < nsides nd)%nat /\ constrained b s <-> exists c, In (s, c) (g_sides g)) /\ apart b /\
  forall s c, In (s, c) (g_sides g) -> (forall x y, projects b s x y /\ meets b s y <-> moved c x y) /\ forall x, near b s x <-> too_near c x.
Lemma sides_2d b g : b_ndim b = 2%nat -> (forall s c, mget Nat.eqb (b_ec b) s = Some c <-> In (s, In2d c) (g_sides g)) ->
  (forall s c, In (s, c) (g_sides g) -> (s < 4)%nat /\ exists c', c = In2d c') ->
  (forall s s' c c', In (s, c) (g_sides g) -> In (s', c') (g_sides g) -> s <> s' -> side_axis 2 s = side_axis 2 s') -> side_facts 2 g b.
Proof.
  intros N L R A. assert (C : forall s, (s < nsides 2)%nat /\ constrained b s <-> exists c, In (s, c) (g_sides g)).
  { intros s. unfold constrained. rewrite N. cbn [Nat.eqb]. split.
    - intros (_ & H). destruct (mget Nat.eqb (b_ec b) s) as [c|] eqn:E; [|congruence]. exists (In2d c). apply L. exact E.
    - intros (c & H). destruct (R s c H) as (Hs & c' & ->). apply L in H. split; [exact Hs|congruence]. }
  split; [exact C|]. split.
  - intros s s' Hs Hs' H H' Ne. rewrite N in *. destruct (proj1 (C s) (conj Hs H)) as (c & I). destruct (proj1 (C s') (conj Hs' H')) as (c' & I'). apply (A s s' c c'); assumption.
  - intros s c I. destruct (R s c I) as (_ & c' & ->). apply L in I. unfold projects, meets, near. rewrite N, I. cbn [Nat.eqb]. split; reflexivity.
Qed.
Lemma sides_3d b g : b_ndim b = 3%nat -> (forall s c, mget Nat.eqb (b_fc b) s = Some c <-> In (s, In3d c) (g_sides g)) ->
  (forall s c, In (s, c) (g_sides g) -> (s < 6)%nat /\ exists c', c = In3d c') ->
  (forall s s' c c', In (s, c) (g_sides g) -> In (s', c') (g_sides g) -> s <> s' -> side_axis 3 s = side_axis 3 s') -> side_facts 3 g b.
Proof.
  intros N L R A. assert (C : forall s, (s < nsides 3)%nat /\ constrained b s <-> exists c, In (s, c) (g_sides g)).
  { intros s. unfold constrained. rewrite N. cbn [Nat.eqb]. split.
    - intros (_ & H). destruct (mget Nat.eqb (b_fc b) s) as [c|] eqn:E; [|congruence]. exists (In3d c). apply L. exact E.
    - intros (c & H). destruct (R s c H) as (Hs & c' & ->). apply L in H. split; [exact Hs|congruence]. }
  split; [exact C|]. split.
  - intros s s' Hs Hs' H H' Ne. rewrite N in *. destruct (proj1 (C s) (conj Hs H)) as (c & I). destruct (proj1 (C s') (conj Hs' H')) as (c' & I'). apply (A s s' c c'); assumption.
  - intros s c I. destruct (R s c I) as (_ & c' & ->). apply L in I. unfold projects, meets, near. rewrite N, I. cbn [Nat.eqb]. split; reflexivity.
Qed.

Lemma region_block_2d zdet bl i b : 0 <= zdet -> block_2d zdet bl i = Ok b ->
  let g := region_2d bl i in
  (i < List.length (k2_regions bl))%nat /\ (i < List.length (k2_weights bl))%nat /\ (i < List.length (k2_constraints bl))%nat /\
  (forall p, In p (g_ids g) -> (p < List.length (k2_points bl))%nat) /\ (forall e c, In (e, c) (g_sides g) -> (e < 4)%nat) /\
  of_region zdet 2 (marks_edge 2 (k2_medges bl) g) (fun _ _ => False) g b.
Proof.
  intros Hz H g. unfold block_2d in H. apply bind_ok in H as (r & Hr & H). destruct (get_nth _ _ _ (0%Z, 0, 0, 0, 0)%nat Hr) as (Li & Er). destruct r as [[[[att p0] p1] p2] p3].
  apply bind_ok in H as (cs & Hcs & H). apply (corners_get _ _ (0, 0)) in Hcs as (Lp & Ecs). apply bind_ok in H as (b0 & Hb & H). apply bind_ok in H as (w & Hw & H). destruct (get_nth _ _ _ ([], []) Hw) as (Lw & Ew). destruct w as [wx wy].
  apply bind_ok in H as (b2 & Hb2 & H). apply bind_ok in H as (c & Hc & H). destruct (get_nth _ _ _ None Hc) as (Lc & Ec). apply bind_ok in H as (b3 & Hb3 & H).
  assert (Gd : good_size 2 cs) by (split; [left; reflexivity|left; rewrite Ecs; reflexivity]).
  assert (Rc : rect 2 cs) by (intros m Hm; rewrite Ecs in Hm |- *; cbn in Hm; do 4 (destruct m as [|m]; [reflexivity|]); lia).
  destruct (new_ok _ _ _ _ Hz Gd Rc Hb) as (F1 & F2 & F3 & F4 & F5 & F6 & F7 & F8 & F9). pose proof (made_new _ _ _ _ Hb) as M0.
  set (b1 := set_marker b0 att) in *. assert (M1 : made zdet b1) by (apply made_marker; exact M0).
  assert (Eg : g = mkRegion att [p0; p1; p2; p3] cs (match (wx, wy) with ((_ :: _) as wx, (_ :: _) as wy) => [wx; wy] | _ => repeat [1; 1] 2 end) (match c with Some (e, c) => [(e, In2d c)] | None => [] end)).
  { unfold g, region_2d. rewrite <- Er, <- Ew, <- Ec, Ecs. reflexivity. }
  assert (D : made zdet b2 /\ same_but_div b1 b2 /\ (forall w, In w (g_weights g) -> 1 <= sum w) /\ b_ndiv b2 = divs g /\ List.length (g_weights g) = 2%nat /\ forall a, (a < 2)%nat -> weighted (nth a (g_weights g) []) (widths b2 a)).
  { rewrite Eg. cbn [g_weights]. unfold divs. cbn [g_weights fst snd] in *.
    assert (Default : b2 = b1 -> made zdet b2 /\ same_but_div b1 b2 /\ (forall w, In w (repeat [1; 1] 2) -> 1 <= sum w) /\ b_ndiv b2 = map (@List.length R) (repeat [1; 1] 2) /\ List.length (repeat [1; 1] 2) = 2%nat /\ forall a, (a < 2)%nat -> weighted (nth a (repeat [1; 1] 2) []) (widths b2 a)).
    { intros ->. split; [exact M1|]. split; [repeat split|]. split; [intros w I; apply repeat_spec in I; subst w; cbn; lra|]. split; [exact F2|]. split; [reflexivity|].
      intros a Ha. unfold widths. change (b_delta b1) with (b_delta b0). rewrite F3. destruct a as [|[|a]]; [exact two_equal|exact two_equal|lia]. }
    destruct wx as [|x wx]; [cbn in Hb2; injection Hb2 as <-; apply Default; reflexivity|]. destruct wy as [|y wy]; [cbn in Hb2; injection Hb2 as <-; apply Default; reflexivity|]. clear Default.
    cbn [List.length Nat.ltb Nat.leb andb] in Hb2. destruct (C54_weights_2d zdet b1 (x :: wx) (y :: wy) Hz M1) as (A & B).
    destruct (Rle_or_lt 1 (sum (x :: wx))) as [Sx|Sx]; [|destruct B as (msg & E); [auto|rewrite E in Hb2; discriminate Hb2]].
    destruct (Rle_or_lt 1 (sum (y :: wy))) as [Sy|Sy]; [|destruct B as (msg & E); [auto|rewrite E in Hb2; discriminate Hb2]]. clear B.
    destruct A as (b' & dx & dy & E & Sm & Nd & Dl & Wx & Wy); [exact F1|discriminate|discriminate|exact Sx|exact Sy|]. rewrite E in Hb2. injection Hb2 as <-.
    split; [replace b' with (snd (set_div_weights_2d b1 (x :: wx) (y :: wy))) by (rewrite E; reflexivity); apply made_w2; exact M1|]. split; [exact Sm|].
    split; [intros w [<-|[<-|[]]]; [exact Sx|exact Sy]|]. split; [exact Nd|]. split; [reflexivity|]. intros a Ha. unfold widths. rewrite Dl. destruct a as [|[|a]]; [exact Wx|exact Wy|lia]. }
  destruct D as (M2 & Sm & Sums & Nd & Lg & Wd). destruct Sm as (S1 & S2 & S3 & S4 & S5 & S6 & S7 & S8 & S9).
  assert (D : made zdet b3 /\ b3 = with_ec b2 (b_ec b3) /\ match c with Some (e, c) => (e < 4)%nat /\ forall s, mget Nat.eqb (b_ec b3) s = if (s =? e)%nat then Some c else None | None => b_ec b3 = [] end).
  { destruct c as [[e c]|]; cbn [fst snd] in Hb3.
    - apply call_ok in Hb3 as (E1 & E2). destruct (C47_edge_setter b2 e (Some c)) as (A & B). destruct (lt_dec e 4) as [Le|Le]; [|destruct B as (msg & E); [tauto|rewrite E in E1; discriminate E1]].
      destruct A as (b' & E & G & W); [split; [rewrite S2; exact F1|exact Le]|]. split; [rewrite <- E2; apply made_ec; exact M2|]. rewrite E in E2. cbn in E2. subst b'. split; [exact W|]. split; [exact Le|]. intros s. rewrite G, S3. change (b_ec b1) with (b_ec b0). rewrite F4. reflexivity.
    - injection Hb3 as <-. split; [exact M2|]. split; [destruct b2; reflexivity|]. rewrite S3. exact F4. }
  destruct D as (M3 & W3 & C3). assert (N3 : b_ndim b3 = 2%nat) by (rewrite W3; cbn; rewrite S2; exact F1).
  apply (mark_edges_ok zdet) in H as (M4 & W4 & G4); [|exact Hz|exact M3|rewrite N3; reflexivity].
  split; [exact Li|]. split; [exact Lw|]. split; [exact Lc|]. split; [rewrite Eg; exact Lp|].
  split; [rewrite Eg; cbn [g_sides]; destruct c as [[e c]|]; intros e' P X; [destruct X as [X|[]]; injection X as <- _; apply C3|destruct X]|].
  assert (Ecs' : g_nodes g = cs) by (rewrite Eg; reflexivity).
  assert (Eids : g_ids g = [p0; p1; p2; p3]) by (rewrite Eg; reflexivity).
  assert (Sd : side_facts 2 g b).
  { assert (E3 : b_ec b = b_ec b3) by (rewrite W4; reflexivity). assert (N' : b_ndim b = 2%nat) by (rewrite W4; exact N3). rewrite Eg. apply (sides_2d b); [exact N'| | |]; cbn [g_sides].
    - intros s c'. rewrite E3. destruct c as [[e c]|]; [destruct C3 as (_ & C3); rewrite C3|rewrite C3; cbn; split; [discriminate|intros []]].
      destruct (Nat.eqb_spec s e) as [-> |Ne]; cbn; (split; [intros X; try discriminate X; injection X as ->; auto|intros [X|[]]; injection X; congruence]).
    - intros s c' X. destruct c as [[e c]|]; [destruct X as [X|[]]; injection X as <- <-; split; [apply C3|eauto]|destruct X].
    - intros s s' c1 c2 X1 X2 Ne. destruct c as [[e c]|]; [|destruct X1]. destruct X1 as [X1|[]], X2 as [X2|[]]. congruence. }
  constructor.
  - exact M4.
  - rewrite W4. exact N3.
  - rewrite W4, W3. cbn. rewrite S9. exact F8.
  - rewrite W4, W3. cbn. rewrite S1, Eg. reflexivity.
  - exact Lg.
  - exact Sums.
  - rewrite W4, W3. cbn. exact Nd.
  - intros a Ha. rewrite W4, W3. exact (Wd a Ha).
  - left. rewrite Ecs', Ecs. reflexivity.
  - rewrite Ecs', W4, W3. cbn. rewrite S7. exact F9.
  - apply Sd.
  - apply Sd.
  - apply Sd.
  - intros e mk. rewrite G4. rewrite <- Eids. change Qua4 with (linear_kind 2). rewrite <- edge_lookup_marks. change (kind_nedge (linear_kind 2)) with 4%nat.
    assert (E0 : forall e', mget Nat.eqb (b_em b3) e' = None) by (intros e'; rewrite W3; cbn; rewrite S5; change (b_em b1) with (b_em b0); rewrite F6; reflexivity). rewrite E0.
    destruct (Nat.ltb_spec e 4) as [L|L]; [|split; [discriminate|lia]]. destruct (edge_lookup _ _ _ e) as [v|]; [|split; [discriminate|intros (X & _); exact X]]. split; [auto|intros (X & _); exact X].
  - intros f mk. rewrite W4, W3. cbn. rewrite S6. change (b_fm b1) with (b_fm b0). rewrite F7. cbn. split; [discriminate|intros []].
Qed.

Lemma region_block_3d zdet bl i b : 0 <= zdet -> block_3d zdet bl i = Ok b ->
  let g := region_3d bl i in
  (i < List.length (k3_regions bl))%nat /\ (i < List.length (k3_weights bl))%nat /\ (i < List.length (k3_constraints bl))%nat /\
  (forall p, In p (g_ids g) -> (p < List.length (k3_points bl))%nat) /\ (forall e c, In (e, c) (g_sides g) -> (e < 6)%nat) /\
  of_region zdet 3 (marks_edge 3 (k3_medges bl) g) (marks_face (k3_mfaces bl) g) g b.
Proof.
  intros Hz H g. unfold block_3d in H. apply bind_ok in H as (r & Hr & H). destruct (get_nth _ _ _ (0%Z, (0, 0, 0, 0), (0, 0, 0, 0))%nat Hr) as (Li & Er). destruct r as [[att [[[p0 p1] p2] p3]] [[[p4 p5] p6] p7]].
  apply bind_ok in H as (cs & Hcs & H). apply (corners_get _ _ (0, 0, 0)) in Hcs as (Lp & Ecs). apply bind_ok in H as (b0 & Hb & H). apply bind_ok in H as (w & Hw & H). destruct (get_nth _ _ _ ([], [], []) Hw) as (Lw & Ew). destruct w as [[wx wy] wz].
  apply bind_ok in H as (b2 & Hb2 & H). apply bind_ok in H as (c & Hc & H). destruct (get_nth _ _ _ None Hc) as (Lc & Ec). apply bind_ok in H as (b3 & Hb3 & H). apply bind_ok in H as (b4 & H4 & H5).
  assert (Gd : good_size 3 cs) by (split; [right; reflexivity|left; rewrite Ecs; reflexivity]).
  assert (Rc : rect 3 cs) by (intros m Hm; rewrite Ecs in Hm |- *; cbn in Hm; do 8 (destruct m as [|m]; [reflexivity|]); lia).
  destruct (new_ok _ _ _ _ Hz Gd Rc Hb) as (F1 & F2 & F3 & F4 & F5 & F6 & F7 & F8 & F9). pose proof (made_new _ _ _ _ Hb) as M0.
  set (b1 := set_marker b0 att) in *. assert (M1 : made zdet b1) by (apply made_marker; exact M0).
  assert (Eg : g = mkRegion att [p0; p1; p2; p3; p4; p5; p6; p7] cs (match (wx, wy, wz) with ((_ :: _) as wx, (_ :: _) as wy, (_ :: _) as wz) => [wx; wy; wz] | _ => repeat [1; 1] 3 end) (match c with Some (e, c) => [(e, In3d c)] | None => [] end)).
  { unfold g, region_3d. rewrite <- Er, <- Ew, <- Ec, Ecs. reflexivity. }
  assert (D : made zdet b2 /\ same_but_div b1 b2 /\ (forall w, In w (g_weights g) -> 1 <= sum w) /\ b_ndiv b2 = divs g /\ List.length (g_weights g) = 3%nat /\ forall a, (a < 3)%nat -> weighted (nth a (g_weights g) []) (widths b2 a)).
  { rewrite Eg. cbn [g_weights]. unfold divs. cbn [g_weights fst snd] in *.
    assert (Default : b2 = b1 -> made zdet b2 /\ same_but_div b1 b2 /\ (forall w, In w (repeat [1; 1] 3) -> 1 <= sum w) /\ b_ndiv b2 = map (@List.length R) (repeat [1; 1] 3) /\ List.length (repeat [1; 1] 3) = 3%nat /\ forall a, (a < 3)%nat -> weighted (nth a (repeat [1; 1] 3) []) (widths b2 a)).
    { intros ->. split; [exact M1|]. split; [repeat split|]. split; [intros w I; apply repeat_spec in I; subst w; cbn; lra|]. split; [exact F2|]. split; [reflexivity|].
      intros a Ha. unfold widths. change (b_delta b1) with (b_delta b0). rewrite F3. destruct a as [|[|[|a]]]; [exact two_equal|exact two_equal|exact two_equal|lia]. }
    destruct wx as [|x wx]; [cbn in Hb2; injection Hb2 as <-; apply Default; reflexivity|]. destruct wy as [|y wy]; [cbn in Hb2; injection Hb2 as <-; apply Default; reflexivity|]. destruct wz as [|z wz]; [cbn in Hb2; injection Hb2 as <-; apply Default; reflexivity|]. clear Default.
    cbn [List.length Nat.ltb Nat.leb andb] in Hb2. destruct (C54_weights_3d zdet b1 (x :: wx) (y :: wy) (z :: wz) Hz M1) as (A & B).
    destruct (Rle_or_lt 1 (sum (x :: wx))) as [Sx|Sx]; [|destruct B as (msg & E); [auto 10|rewrite E in Hb2; discriminate Hb2]].
    destruct (Rle_or_lt 1 (sum (y :: wy))) as [Sy|Sy]; [|destruct B as (msg & E); [auto 10|rewrite E in Hb2; discriminate Hb2]].
    destruct (Rle_or_lt 1 (sum (z :: wz))) as [Sz|Sz]; [|destruct B as (msg & E); [auto 10|rewrite E in Hb2; discriminate Hb2]]. clear B.
    destruct A as (b' & dx & dy & dz & E & Sm & Nd & Dl & Wx & Wy & Wz); [exact F1|discriminate|discriminate|discriminate|exact Sx|exact Sy|exact Sz|]. rewrite E in Hb2. injection Hb2 as <-.
    split; [replace b' with (snd (set_div_weights_3d b1 (x :: wx) (y :: wy) (z :: wz))) by (rewrite E; reflexivity); apply made_w3; exact M1|]. split; [exact Sm|].
    split; [intros w [<-|[<-|[<-|[]]]]; [exact Sx|exact Sy|exact Sz]|]. split; [exact Nd|]. split; [reflexivity|]. intros a Ha. unfold widths. rewrite Dl. destruct a as [|[|[|a]]]; [exact Wx|exact Wy|exact Wz|lia]. }
  destruct D as (M2 & Sm & Sums & Nd & Lg & Wd). destruct Sm as (S1 & S2 & S3 & S4 & S5 & S6 & S7 & S8 & S9).
  assert (D : made zdet b3 /\ b3 = with_fc b2 (b_fc b3) /\ match c with Some (e, c) => (e < 6)%nat /\ forall s, mget Nat.eqb (b_fc b3) s = if (s =? e)%nat then Some c else None | None => b_fc b3 = [] end).
  { destruct c as [[e c]|]; cbn [fst snd] in Hb3.
    - apply call_ok in Hb3 as (E1 & E2). destruct (C47_face_setter b2 e (Some c)) as (A & B). destruct (lt_dec e 6) as [Le|Le]; [|destruct B as (msg & E); [tauto|rewrite E in E1; discriminate E1]].
      destruct A as (b' & E & G & W); [split; [rewrite S2; exact F1|exact Le]|]. split; [rewrite <- E2; apply made_fc; exact M2|]. rewrite E in E2. cbn in E2. subst b'. split; [exact W|]. split; [exact Le|]. intros s. rewrite G, S4. change (b_fc b1) with (b_fc b0). rewrite F5. reflexivity.
    - injection Hb3 as <-. split; [exact M2|]. split; [destruct b2; reflexivity|]. rewrite S4. exact F5. }
  destruct D as (M3 & W3 & C3). assert (N3 : b_ndim b3 = 3%nat) by (rewrite W3; cbn; rewrite S2; exact F1).
  apply (mark_edges_ok zdet) in H4 as (M4 & W4 & G4); [|exact Hz|exact M3|rewrite N3; reflexivity]. assert (N4 : b_ndim b4 = 3%nat) by (rewrite W4; exact N3).
  apply (mark_faces_ok zdet) in H5 as (M5 & W5 & G5); [|exact M4|exact N4].
  split; [exact Li|]. split; [exact Lw|]. split; [exact Lc|]. split; [rewrite Eg; exact Lp|].
  split; [rewrite Eg; cbn [g_sides]; destruct c as [[e c]|]; intros e' P X; [destruct X as [X|[]]; injection X as <- _; apply C3|destruct X]|].
  assert (Ecs' : g_nodes g = cs) by (rewrite Eg; reflexivity).
  assert (Eids : g_ids g = [p0; p1; p2; p3; p4; p5; p6; p7]) by (rewrite Eg; reflexivity).
  assert (Sd : side_facts 3 g b).
  { assert (E3 : b_fc b = b_fc b3) by (rewrite W5, W4; reflexivity). assert (N' : b_ndim b = 3%nat) by (rewrite W5, W4; exact N3). rewrite Eg. apply (sides_3d b); [exact N'| | |]; cbn [g_sides].
    - intros s c'. rewrite E3. destruct c as [[e c]|]; [destruct C3 as (_ & C3); rewrite C3|rewrite C3; cbn; split; [discriminate|intros []]].
      destruct (Nat.eqb_spec s e) as [-> |Ne]; cbn; (split; [intros X; try discriminate X; injection X as ->; auto|intros [X|[]]; injection X; congruence]).
    - intros s c' X. destruct c as [[e c]|]; [destruct X as [X|[]]; injection X as <- <-; split; [apply C3|eauto]|destruct X].
    - intros s s' c1 c2 X1 X2 Ne. destruct c as [[e c]|]; [|destruct X1]. destruct X1 as [X1|[]], X2 as [X2|[]]. congruence. }
  constructor.
  - exact M5.
  - rewrite W5. exact N4.
  - rewrite W5, W4, W3. cbn. rewrite S9. exact F8.
  - rewrite W5, W4, W3. cbn. rewrite S1, Eg. reflexivity.
  - exact Lg.
  - exact Sums.
  - rewrite W5, W4, W3. cbn. exact Nd.
  - intros a Ha. rewrite W5, W4, W3. exact (Wd a Ha).
  - left. rewrite Ecs', Ecs. reflexivity.
  - rewrite Ecs', W5, W4, W3. cbn. rewrite S7. exact F9.
  - apply Sd.
  - apply Sd.
  - apply Sd.
  - intros e mk. assert (E4 : b_em b = b_em b4) by (rewrite W5; reflexivity). rewrite E4, G4. rewrite <- Eids. change Hex8 with (linear_kind 3). rewrite <- edge_lookup_marks. change (kind_nedge (linear_kind 3)) with 12%nat.
    assert (E0 : forall e', mget Nat.eqb (b_em b3) e' = None) by (intros e'; rewrite W3; cbn; rewrite S5; change (b_em b1) with (b_em b0); rewrite F6; reflexivity). rewrite E0.
    destruct (Nat.ltb_spec e 12) as [L|L]; [|split; [discriminate|lia]]. destruct (edge_lookup _ _ _ e) as [v|]; [|split; [discriminate|intros (X & _); exact X]]. split; [auto|intros (X & _); exact X].
  - intros f mk. rewrite G5. rewrite <- Eids, <- face_lookup_marks.
    assert (E0 : forall e', mget Nat.eqb (b_fm b4) e' = None) by (intros e'; rewrite W4, W3; cbn; rewrite S6; change (b_fm b1) with (b_fm b0); rewrite F7; reflexivity). rewrite E0.
    destruct (Nat.ltb_spec f 6) as [L|L]; [|split; [discriminate|lia]]. destruct (face_lookup _ _ f) as [v|]; [|split; [discriminate|intros (X & _); exact X]]. split; [auto|intros (X & _); exact X].
Qed.
