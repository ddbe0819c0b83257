(* Features of the mesh of a block: what is listed, how many, with which markers. *)
From Coq Require Import String Reals QArith List Lia Lra Bool Arith ZArith Permutation Sorting.
From Verif Require Import Base BaseFacts TopoMaps Kind MeshModel GraphModel MeshQuerySpec TopoModel TopoSpec TopoFeat3 TopoFeat5 TopoFeat6 TopoFinal
  GridModel GeomModel ShapesModel ShapesSpec PadModel PadSpec
  BlockModel BlockSpec BlockProof BlockProof2 BlockProof3 BlockProof4 BlockProof5 BlockProof6 BlockProof7 BlockProof8 BlockProof9 BlockFeatSpec BlockFeatProof BlockFeatProof2.
Import ListNotations.
Local Open Scope list_scope.
Local Open Scope nat_scope.

(* counting *)
Lemma inj_length {A B} (R : A -> B -> Prop) l l' : NoDup l -> (forall a, In a l -> exists x, In x l' /\ R a x) ->
  (forall a a' x, In a l -> In a' l -> In x l' -> R a x -> R a' x -> a = a') -> List.length l <= List.length l'.
Proof.
  intros N Tot Inj. assert (G : exists xs, Forall2 R l xs /\ NoDup xs /\ incl xs l').
  { induction N as [|a l Ni N IH]; [exists []; split; [constructor|split; [constructor|intros ? []]]|].
    destruct IH as (xs & Fx & Nx & Ix); [intros; apply Tot; now right|intros; eapply Inj; eauto; now right|].
    destruct (Tot a (or_introl eq_refl)) as (x & Hx & Rx). exists (x :: xs). split; [constructor; auto|]. split.
    - constructor; auto. intros I. destruct (Forall2_in_left _ _ _ x Fx I) as (a' & Ia & Ra). apply Ni. rewrite (Inj a a' x); auto; [now left|now right].
    - intros y [<-|Hy]; auto. }
  destruct G as (xs & Fx & Nx & Ix). rewrite (Forall2_length_eq _ _ _ Fx). apply NoDup_incl_length; auto.
Qed.
Lemma bij_length {A B} (R : A -> B -> Prop) l l' : NoDup l -> NoDup l' ->
  (forall a, In a l -> exists x, In x l' /\ R a x) -> (forall x, In x l' -> exists a, In a l /\ R a x) ->
  (forall a a' x, In a l -> In a' l -> In x l' -> R a x -> R a' x -> a = a') ->
  (forall a x x', In a l -> In x l' -> In x' l' -> R a x -> R a x' -> x = x') -> List.length l = List.length l'.
Proof.
  intros N N' T T' I I'. apply Nat.le_antisymm; [apply (inj_length R); auto|]. apply (inj_length (fun x a => R a x)); auto.
  intros x x' a Hx Hx' Ha. apply I'; auto.
Qed.
Lemma flat_length {A B} (g : A -> list B) l : List.length (flat_map g l) = nsum (map (fun x => List.length (g x)) l).
Proof. induction l as [|a l IH]; auto. cbn [flat_map map]. rewrite app_length, IH. reflexivity. Qed.
Lemma flat_filter {A B} (p : B -> bool) (g : A -> list B) l : filter p (flat_map g l) = flat_map (fun x => filter p (g x)) l.
Proof. induction l as [|a l IH]; auto. cbn [flat_map]. rewrite filter_app, IH. reflexivity. Qed.
Lemma map_filter {A B} (p : B -> bool) (g : A -> B) l : List.length (filter p (map g l)) = List.length (filter (fun x => p (g x)) l).
Proof. induction l as [|a l IH]; auto. cbn [map filter]. destruct (p (g a)); cbn [List.length]; auto. Qed.
Lemma sum_one c v n : nsum (map (fun j => if j =? v then c else 0) (seq 0 n)) = if v <? n then c else 0.
Proof.
  induction n as [|n IH]; [reflexivity|]. rewrite seq_S, map_app. cbn [Nat.add map].
  assert (A : forall l l', nsum (l ++ l') = nsum l + nsum l') by (induction l as [|x l IHl]; intros l'; [reflexivity|]; cbn [app nsum fold_right]; change (fold_right Nat.add 0) with nsum; rewrite IHl; lia).
  rewrite A, IH. cbn [nsum fold_right]. destruct (Nat.eqb_spec n v) as [->|Ne].
  - rewrite Nat.ltb_irrefl. destruct (Nat.ltb_spec v (S v)); lia.
  - destruct (Nat.ltb_spec v n), (Nat.ltb_spec v (S n)); lia.
Qed.
Lemma filter_one v n : List.length (filter (fun j => j =? v) (seq 0 n)) = if v <? n then 1 else 0.
Proof.
  rewrite <- (sum_one 1 v n). induction (seq 0 n) as [|j l IH]; auto. cbn [filter map nsum fold_right]. change (fold_right Nat.add 0) with nsum.
  destruct (j =? v); cbn [List.length]; lia.
Qed.
Lemma sum_const {A} (l : list A) c : nsum (map (fun _ => c) l) = List.length l * c.
Proof. induction l as [|a l IH]; auto. cbn [map nsum fold_right List.length]. change (fold_right Nat.add 0) with nsum. lia. Qed.
Lemma filter_true {A} (p : A -> bool) l : (forall x, p x = true) -> filter p l = l.
Proof. intros H. induction l as [|a l IH]; auto. cbn. rewrite H. f_equal. exact IH. Qed.
Lemma filter_false {A} (p : A -> bool) l : (forall x, p x = false) -> filter p l = [].
Proof. intros H. induction l as [|a l IH]; auto. cbn. rewrite H. exact IH. Qed.
Lemma filter_const {A} (c : bool) (l : list A) : List.length (filter (fun _ => c) l) = if c then List.length l else 0.
Proof. destruct c; [rewrite filter_true by auto|rewrite filter_false by auto]; reflexivity. Qed.

Lemma NoDup_join {A} (l l' : list A) : NoDup l -> NoDup l' -> (forall x, In x l -> ~ In x l') -> NoDup (l ++ l').
Proof.
  intros N N' D. induction N as [|x l Ni N IH]; auto. cbn [app]. constructor; [|apply IH; intros; apply D; now right].
  rewrite in_app_iff. intros [I|I]; [contradiction|]. apply (D x); auto. now left.
Qed.

Section Count.
Variable b : block.
Hypothesis W : wf_block b.
Let nd := b_ndim b.
Lemma indices_nodup : NoDup (indices b).
Proof.
  apply NoDup_nth_error. intros i j Hi E.
  assert (X : forall i x, nth_error (indices b) i = Some x -> rank (b_ndiv b) x = i).
  2:{ destruct (nth_error (indices b) i) as [x|] eqn:Ex; [|apply nth_error_None in Ex; lia]. symmetry in E. rewrite <- (X i x Ex), <- (X j x E). reflexivity. }
  clear i j Hi E. intros i x E.
  revert i x E. assert (Len := indices_length b W).
  unfold indices. pose proof (w_nd b W) as N. pose proof (w_ndiv b W) as Ld. unfold ndivs.
  assert (A : forall {A} (g : nat -> list A) c n, (forall k, List.length (g k) = c) -> forall i x, nth_error (flat_map g (seq 0 n)) i = Some x -> exists k j, k < n /\ j < c /\ i = k * c + j /\ nth_error (g k) j = Some x).
  { clear. intros A g c n Hc. assert (G : forall n s i x, nth_error (flat_map g (seq s n)) i = Some x -> exists k j, k < n /\ j < c /\ i = k * c + j /\ nth_error (g (s + k)) j = Some x).
    { clear n. induction n as [|n IH]; intros s i x E; [destruct i; discriminate|]. cbn [seq flat_map] in E.
      destruct (Nat.lt_ge_cases i c) as [L|L].
      - rewrite nth_error_app1 in E by (rewrite Hc; lia). exists 0, i. rewrite Nat.add_0_r. repeat split; try lia. exact E.
      - rewrite nth_error_app2 in E by (rewrite Hc; lia). rewrite Hc in E. destruct (IH _ _ _ E) as (k & j & A1 & A2 & A3 & A4).
        exists (S k), j. split; [lia|]. split; [lia|]. split; [lia|]. replace (s + S k) with (S s + k) by lia. exact A4. }
    intros i x E. destruct (G n 0 i x E) as (k & j & H). exists k, j. exact H. }
  assert (M : forall {A} (g : nat -> A) n i x, nth_error (map g (seq 0 n)) i = Some x -> i < n /\ x = g i).
  { clear. intros A g n i x E. assert (L : i < n) by (rewrite <- (seq_length n 0), <- (map_length g); apply nth_error_Some; congruence). split; auto.
    rewrite nth_error_map in E. rewrite (nth_error_nth' _ 0) in E by (rewrite seq_length; exact L). cbn in E. rewrite seq_nth in E by exact L. cbn in E. congruence. }
  intros i x E.
  destruct N as [D|D]; rewrite D in *; cbn [Nat.eqb] in E.
  - destruct (b_ndiv b) as [|n0 [|n1 [|]]]; try discriminate. cbn [nth] in E.
    apply (A _ _ (n1 * n0)) in E. 2:{ intros k. rewrite flat_length. rewrite (map_ext _ (fun _ => n0)) by (intros; rewrite map_length, seq_length; auto). rewrite sum_const, seq_length. reflexivity. }
    destruct E as (k & j & Hk & Hj & -> & E). apply (A _ _ n0) in E. 2:{ intros. rewrite map_length, seq_length. reflexivity. }
    destruct E as (k' & j' & Hk' & Hj' & -> & E). apply M in E as [_ ->]. cbn [firstn rank]. lia.
  - destruct (b_ndiv b) as [|n0 [|n1 [|n2 [|]]]]; try discriminate. cbn [nth] in E.
    apply (A _ _ (n1 * n0)) in E. 2:{ intros k. rewrite flat_length. rewrite (map_ext _ (fun _ => n0)) by (intros; rewrite map_length, seq_length; auto). rewrite sum_const, seq_length. reflexivity. }
    destruct E as (k & j & Hk & Hj & -> & E). apply (A _ _ n0) in E. 2:{ intros. rewrite map_length, seq_length. reflexivity. }
    destruct E as (k' & j' & Hk' & Hj' & -> & E). apply M in E as [_ ->]. cbn [firstn rank]. nia.
Qed.
Lemma slab_length a v : a < nd -> v < ndivs b a ->
  List.length (filter (fun idx => nth a idx 0 =? v) (indices b)) = fold_right Nat.mul 1 (map (ndivs b) (filter (fun c => negb (c =? a)) (seq 0 nd))).
Proof.
  intros Ha Hv. unfold indices. rewrite flat_filter, flat_length. pose proof (w_nd b W) as N. fold nd in N |- *.
  assert (I : forall j k, List.length (filter (fun idx => nth a idx 0 =? v) (map (fun i => firstn nd [i; j; k]) (seq 0 (ndivs b 0)))) =
     match a with 0 => 1 | 1 => if j =? v then ndivs b 0 else 0 | _ => if k =? v then ndivs b 0 else 0 end).
  { intros j k. rewrite map_filter. destruct N as [D|D]; rewrite D in *; cbn [firstn].
    - destruct a as [|[|a]]; [| |lia]; cbn [nth]; [rewrite filter_one; apply Nat.ltb_lt in Hv; rewrite Hv; reflexivity|rewrite filter_const, seq_length; reflexivity].
    - destruct a as [|[|[|a]]]; [| | |lia]; cbn [nth]; [rewrite filter_one; apply Nat.ltb_lt in Hv; rewrite Hv; reflexivity|rewrite filter_const, seq_length; reflexivity|rewrite filter_const, seq_length; reflexivity]. }
  assert (J : forall k, List.length (filter (fun idx => nth a idx 0 =? v) (flat_map (fun j => map (fun i => firstn nd [i; j; k]) (seq 0 (ndivs b 0))) (seq 0 (ndivs b 1)))) =
     match a with 0 => ndivs b 1 | 1 => ndivs b 0 | _ => if k =? v then ndivs b 1 * ndivs b 0 else 0 end).
  { intros k. rewrite flat_filter, flat_length. rewrite (map_ext _ _ (fun j => I j k)). destruct a as [|[|a]].
    - rewrite sum_const, seq_length. lia.
    - rewrite sum_one. apply Nat.ltb_lt in Hv. rewrite Hv. reflexivity.
    - rewrite (sum_const (seq 0 (ndivs b 1))). rewrite seq_length. destruct (k =? v); lia. }
  rewrite (map_ext _ _ J). destruct N as [D|D]; rewrite D in *; cbn [Nat.eqb seq].
  - destruct a as [|[|a]]; [| |lia]; rewrite (sum_const [0]); cbn; lia.
  - destruct a as [|[|[|a]]]; [| | |lia]; cbn [filter Nat.eqb negb map fold_right]; [rewrite sum_const, seq_length; lia|rewrite sum_const, seq_length; lia|].
    rewrite sum_one. apply Nat.ltb_lt in Hv. rewrite Hv. lia.
Qed.

(* pairs (cell, side) with the sides in the list, at the rim *)
Definition rimb (s : nat) (idx : list nat) : bool := nth (side_axis nd s) idx 0 =? (if high nd s =? 0 then 0 else ndivs b (side_axis nd s) - 1).
Definition rims (ss : list nat) : list (list nat * nat) := flat_map (fun s => map (fun idx => (idx, s)) (filter (rimb s) (indices b))) ss.
Hypothesis Ax : forall s, s < nsides nd -> side_axis nd s < nd.
Lemma rimb_iff idx s : valid_index b idx -> s < nsides nd -> (rimb s idx = true <-> at_rim b idx s).
Proof.
  intros V Hs. rewrite rim_high. cbv zeta. fold nd. unfold rimb. rewrite Nat.eqb_eq. pose proof (w_pos b W _ (Ax s Hs)). destruct (high nd s =? 0); [tauto|]. lia.
Qed.
Lemma rims_in ss idx s : (forall s, In s ss -> s < nsides nd) -> (In (idx, s) (rims ss) <-> In s ss /\ valid_index b idx /\ at_rim b idx s).
Proof.
  intros Hs. unfold rims. rewrite in_flat_map. split.
  - intros (s' & H1 & H2). apply in_map_iff in H2 as (idx' & E & H2). injection E as -> ->. apply filter_In in H2 as [H2 H3].
    apply (indices_valid b W) in H2. split; auto. split; auto. apply rimb_iff; auto.
  - intros (H1 & H2 & H3). exists s. split; auto. apply in_map_iff. exists idx. split; auto. apply filter_In. split; [apply (indices_valid b W); auto|apply rimb_iff; auto].
Qed.
Lemma pairs_nodup (g : nat -> list (list nat)) ss : NoDup ss -> (forall s, NoDup (g s)) -> NoDup (flat_map (fun s => map (fun idx => (idx, s)) (g s)) ss).
Proof.
  intros N G. induction N as [|s ss Ni N IH]; [constructor|]. cbn [flat_map]. apply NoDup_join.
  - apply FinFun.Injective_map_NoDup; [intros x y E; congruence|apply G].
  - exact IH.
  - intros [idx s'] H1 H2. apply in_map_iff in H1 as (i & E & _). injection E as -> ->. apply in_flat_map in H2 as (s'' & H2 & H3).
    apply in_map_iff in H3 as (j & E & _). injection E as -> ->. contradiction.
Qed.
Lemma rims_nodup ss : NoDup ss -> NoDup (rims ss).
Proof. intros N. apply pairs_nodup; auto. intros s. apply NoDup_filter, indices_nodup. Qed.
Lemma rims_length ss : (forall s, In s ss -> s < nsides nd) -> List.length (rims ss) = nsum (map (rim_size b) ss).
Proof.
  intros Hs. unfold rims. rewrite flat_length. f_equal. apply map_ext_in. intros s I. rewrite map_length. pose proof (Ax s (Hs s I)) as A.
  unfold rimb. rewrite slab_length; [reflexivity|exact A|]. pose proof (w_pos b W _ A). destruct (high nd s =? 0); lia.
Qed.
End Count.

Section Features.
Variables (b : block) (target : geokind) (sh : container -> container) (shc : list (nat * nat) -> list (nat * nat)).
Hypothesis P : forall c, Permutation (sh c) c.
Hypothesis Q : forall l, Permutation (shc l) l.
Hypothesis W : wf_block b.
Hypothesis F : In target (targets (b_ndim b)).
Hypothesis Sp : spaced b target.
Variable msh : mesh R.
Hypothesis Run : subdivide sh shc b target = Ok msh.
Let nd := b_ndim b.
Variables (leb : R -> R -> bool) (shuffle : emap -> emap).
Hypothesis Pf : forall l, Permutation (shuffle l) l.
Let cons := proj1 (mesh_consistent b target sh shc P Q W F Sp msh Run).
Let dim : ndim msh = nd := proj2 (proj2 (mesh_consistent b target sh shc P Q W F Sp msh Run)).

Lemma axis_lt s : s < nsides nd -> side_axis nd s < nd.
Proof.
  intros Hs. pose proof (side_facts nd target s (w_nd b W) F Hs) as C. unfold side_check in C. rewrite !andb_true_iff in C.
  destruct C as ((((((((((_ & _) & Ax) & _) & _) & _) & _) & _) & _) & _) & _). now apply Nat.ltb_lt.
Qed.
Lemma no_tets : no_quadratic_tets msh.
Proof.
  intros c I. destruct (cell_at b target sh shc P Q W F Sp msh Run c I) as (_ & _ & _ & _ & ->). clear - F W.
  destruct (w_nd b W) as [D|D]; rewrite D in F; simpl in F; destruct target; try (split; discriminate); exfalso; intuition discriminate.
Qed.
Lemma mesh_fits : TopoFeat5.fits msh.
Proof.
  intros c I. destruct (cell_at b target sh shc P Q W F Sp msh Run c I) as (_ & _ & _ & _ & ->). rewrite dim.
  rewrite (proj1 (kind_dim nd target (w_nd b W) F)). lia.
Qed.
Lemma edge_somewhere p q c e : nd = 2 -> has_edge msh p q (c, e) -> e < 4 /\ exists idx, valid_index b idx /\ c = rank (b_ndiv b) idx.
Proof. intros D H. apply (edge_side b target sh shc P Q W F Sp msh Run p q c e D) in H as (idx & ps & V & He & E & _). eauto. Qed.
Lemma face_somewhere k c f : nd = 3 -> has_face msh k (c, f) -> f < 6 /\ exists idx, valid_index b idx /\ c = rank (b_ndiv b) idx.
Proof. intros D H. apply (face_side b target sh shc P Q W F Sp msh Run k c f D) in H as (idx & ps & V & He & E & _). eauto. Qed.

Lemma edges_listed ft p q : nd = 2 -> features_new leb shuffle msh false = Ok ft ->
  ((exists ed, get_edge ft p q = Ok ed) <-> p <= q /\ exists idx e, valid_index b idx /\ at_rim b idx e /\ has_edge msh p q (rank (b_ndiv b) idx, e)).
Proof.
  intros D H. rewrite (listed_edges_2d leb shuffle Pf msh false ft cons (eq_trans dim D) H p q). cbn [wanted]. split; intros [L X]; (split; [exact L|]).
  - pose proof X as Y. destruct X as ([c e] & He & _). destruct (edge_somewhere p q c e D He) as (_ & idx & V & ->). exists idx, e. split; auto. split; auto.
    apply (edge_alone b target sh shc P Q W F Sp msh Run p q idx e D V He). exact Y.
  - destruct X as (idx & e & V & Rm & He). apply (edge_alone b target sh shc P Q W F Sp msh Run p q idx e D V He). exact Rm.
Qed.
Lemma faces_listed ft k : nd = 3 -> features_new leb shuffle msh false = Ok ft ->
  ((exists fc, get_face ft k = Ok fc) <-> StronglySorted le k /\ exists idx f, valid_index b idx /\ at_rim b idx f /\ has_face msh k (rank (b_ndiv b) idx, f)).
Proof.
  intros D H. rewrite (listed_faces_3d leb shuffle msh false ft cons (eq_trans dim D) no_tets H k). cbn [wanted]. split; intros [L X]; (split; [exact L|]).
  - pose proof X as Y. destruct X as ([c e] & He & _). destruct (face_somewhere k c e D He) as (_ & idx & V & ->). exists idx, e. split; auto. split; auto.
    apply (face_alone b target sh shc P Q W F Sp msh Run k idx e D V He). exact Y.
  - destruct X as (idx & e & V & Rm & He). apply (face_alone b target sh shc P Q W F Sp msh Run k idx e D V He). exact Rm.
Qed.
(* sides have points *)
Lemma edge_exists idx e : nd = 2 -> valid_index b idx -> e < 4 -> exists p q, p <= q /\ has_edge msh p q (rank (b_ndiv b) idx, e).
Proof.
  intros D V He. assert (Ns : nsides nd = 4) by (rewrite D; reflexivity).
  destruct (side_points_ex b target sh shc P Q W F Sp msh Run idx e V ltac:(fold nd; lia)) as (ps & A).
  assert (L2 : List.length ps = 2). { unfold side_points in A. rewrite <- (Forall2_length_eq _ _ _ A). unfold side_ids. fold nd. rewrite D. reflexivity. }
  destruct ps as [|p [|q [|]]]; try discriminate. exists (Nat.min p q), (Nat.max p q). split; [lia|].
  apply (edge_side b target sh shc P Q W F Sp msh Run _ _ _ e D). exists idx, [p; q]. split; auto. split; auto. split; auto. split; auto. apply Permutation_sym, minmax_perm.
Qed.
Lemma face_exists idx f : nd = 3 -> valid_index b idx -> f < 6 -> exists k, StronglySorted le k /\ has_face msh k (rank (b_ndiv b) idx, f).
Proof.
  intros D V He. assert (Ns : nsides nd = 6) by (rewrite D; reflexivity).
  destruct (side_points_ex b target sh shc P Q W F Sp msh Run idx f V ltac:(fold nd; lia)) as (ps & A).
  exists (sort4 ps). split; [apply JoinProof2.sort4_is_sorted|].
  apply (face_side b target sh shc P Q W F Sp msh Run _ _ f D). exists idx, ps. split; auto. split; auto. split; auto. split; auto. apply isort_perm.
Qed.
(* the points determine the side at the rim, and conversely *)
Lemma edge_rim_unique p q idx e idx' e' : nd = 2 -> valid_index b idx -> at_rim b idx e -> has_edge msh p q (rank (b_ndiv b) idx, e) ->
  valid_index b idx' -> has_edge msh p q (rank (b_ndiv b) idx', e') -> idx' = idx /\ e' = e.
Proof.
  intros D V Rm H V' H'. destruct (proj2 (edge_alone b target sh shc P Q W F Sp msh Run p q idx e D V H) Rm) as (ce & _ & U).
  pose proof (U _ H) as E1. rewrite (U _ H') in E1. injection E1 as E1 ->. split; auto. apply (rank_inj b W); auto.
Qed.
Lemma face_rim_unique k idx f idx' f' : nd = 3 -> valid_index b idx -> at_rim b idx f -> has_face msh k (rank (b_ndiv b) idx, f) ->
  valid_index b idx' -> has_face msh k (rank (b_ndiv b) idx', f') -> idx' = idx /\ f' = f.
Proof.
  intros D V Rm H V' H'. destruct (proj2 (face_alone b target sh shc P Q W F Sp msh Run k idx f D V H) Rm) as (ce & _ & U).
  pose proof (U _ H) as E1. rewrite (U _ H') in E1. injection E1 as E1 ->. split; auto. apply (rank_inj b W); auto.
Qed.
Lemma edge_points_unique p q p' q' idx e : nd = 2 -> valid_index b idx -> p <= q -> p' <= q' -> has_edge msh p q (rank (b_ndiv b) idx, e) -> has_edge msh p' q' (rank (b_ndiv b) idx, e) ->
  p = p' /\ q = q'.
Proof.
  intros D V L L' H H'. apply (edge_side b target sh shc P Q W F Sp msh Run p q _ e D) in H as (i1 & ps & V1 & _ & E1 & A1 & P1).
  apply (edge_side b target sh shc P Q W F Sp msh Run p' q' _ e D) in H' as (i2 & qs & V2 & _ & E2 & A2 & P2).
  apply (rank_inj b W) in E1, E2; auto. subst i1 i2. rewrite (points_unique b target msh idx e ps qs A1 A2) in P1.
  assert (X : Permutation [p; q] [p'; q']) by (transitivity qs; auto; apply Permutation_sym; auto).
  apply Permutation_length_2_inv in X as [X|X]; injection X as -> ->; lia.
Qed.
Lemma face_points_unique k k' idx f : nd = 3 -> valid_index b idx -> StronglySorted le k -> StronglySorted le k' -> has_face msh k (rank (b_ndiv b) idx, f) -> has_face msh k' (rank (b_ndiv b) idx, f) -> k = k'.
Proof.
  intros D V L L' H H'. apply (face_side b target sh shc P Q W F Sp msh Run k _ f D) in H as (i1 & ps & V1 & _ & E1 & A1 & P1).
  apply (face_side b target sh shc P Q W F Sp msh Run k' _ f D) in H' as (i2 & qs & V2 & _ & E2 & A2 & P2).
  apply (rank_inj b W) in E1, E2; auto. subst i1 i2. rewrite (points_unique b target msh idx f ps qs A1 A2) in P1.
  assert (X : Permutation k k') by (transitivity qs; auto; apply Permutation_sym; auto).
  apply (GraphProof3.sorted_unique Nat.leb); [intros x y H1 H2; apply Nat.leb_le in H1, H2; lia| | |exact X].
  - clear - L. induction L as [|x l L IH Fx]; constructor; auto. eapply Forall_impl; [|exact Fx]. intros y H. apply Nat.leb_le; auto.
  - clear - L'. induction L' as [|x l L IH Fx]; constructor; auto. eapply Forall_impl; [|exact Fx]. intros y H. apply Nat.leb_le; auto.
Qed.

Lemma nsides_2 : nd = 2 -> nsides nd = 4. Proof. intros E. rewrite E. reflexivity. Qed.
Lemma nsides_3 : nd = 3 -> nsides nd = 6. Proof. intros E. rewrite E. reflexivity. Qed.

(* markers *)
Lemma edge_marker_listed ea ft p q ed idx e : nd = 2 -> features_new leb shuffle msh ea = Ok ft -> get_edge ft p q = Ok ed ->
  valid_index b idx -> has_edge msh p q (rank (b_ndiv b) idx, e) -> expected b (b_em b) idx e (e_marker ed).
Proof.
  intros D H G V He. destruct (edges_2d leb shuffle Pf msh ea ft cons (eq_trans dim D) H) as (_ & _ & _ & X). destruct (X p q ed G) as [M _].
  exact (edge_marker_is b target sh shc P Q W F Sp msh Run p q idx e _ D V He M).
Qed.
Lemma face_marker_listed ea ft k fc idx f : nd = 3 -> features_new leb shuffle msh ea = Ok ft -> get_face ft k = Ok fc ->
  valid_index b idx -> has_face msh k (rank (b_ndiv b) idx, f) -> expected b (b_fm b) idx f (f_marker fc).
Proof.
  intros D H G V He. destruct (face_data_3d leb shuffle msh ea ft cons (eq_trans dim D) no_tets H k fc G) as [M _].
  exact (face_marker_is b target sh shc P Q W F Sp msh Run k idx f _ D V He M).
Qed.

(* the number of listed edges whose sides are among ss *)
Definition edge_at (ft : @features R) (ed : edge) (x : list nat * nat) : Prop :=
  exists p q, get_edge ft p q = Ok ed /\ valid_index b (fst x) /\ at_rim b (fst x) (snd x) /\ has_edge msh p q (rank (b_ndiv b) (fst x), snd x).
Definition face_at (ft : @features R) (fc : face) (x : list nat * nat) : Prop :=
  exists k, get_face ft k = Ok fc /\ valid_index b (fst x) /\ at_rim b (fst x) (snd x) /\ has_face msh k (rank (b_ndiv b) (fst x), snd x).
Lemma edges_count ft l ss : nd = 2 -> features_new leb shuffle msh false = Ok ft -> NoDup l -> NoDup ss -> (forall s, In s ss -> s < 4) ->
  (forall ed, In ed l <-> exists x, In (snd x) ss /\ edge_at ft ed x) -> List.length l = nsum (map (rim_size b) ss).
Proof.
  intros D H Nl Ns Hs In_l. pose proof (nsides_2 D) as N4.
  assert (Hs' : forall s, In s ss -> s < nsides (b_ndim b)) by (intros s I; fold nd; specialize (Hs s I); lia).
  rewrite <- (rims_length b W axis_lt ss Hs'). apply (bij_length (edge_at ft)); auto.
  - apply rims_nodup; auto.
  - intros ed I. apply In_l in I as ([idx e] & I & R). exists (idx, e). split; auto. apply (rims_in b W axis_lt); auto. destruct R as (p & q & _ & V & Rm & _). auto.
  - intros [idx e] I. apply (rims_in b W axis_lt ss idx e Hs') in I as (I & V & Rm). destruct (edge_exists idx e D V (Hs e I)) as (p & q & L & He).
    destruct (proj2 (edges_listed ft p q D H)) as (ed & G); [split; auto; exists idx, e; auto|].
    assert (R : edge_at ft ed (idx, e)) by (exists p, q; auto). exists ed. split; auto. apply In_l. exists (idx, e). auto.
  - intros ed ed' [idx e] _ _ _ (p & q & G & V & Rm & He) (p' & q' & G' & _ & _ & He'). cbn [fst snd] in *.
    assert (L : p <= q) by (apply (edges_listed ft p q D H); eauto). assert (L' : p' <= q') by (apply (edges_listed ft p' q' D H); eauto).
    destruct (edge_points_unique p q p' q' idx e D V L L' He He') as [-> ->]. congruence.
  - intros ed [idx e] [idx' e'] _ _ _ (p & q & G & V & Rm & He) (p' & q' & G' & V' & Rm' & He'). cbn [fst snd] in *.
    pose proof (get_edge_key leb shuffle Pf msh false ft p q ed cons (or_introl (eq_trans dim D)) H G) as [K _].
    pose proof (get_edge_key leb shuffle Pf msh false ft p' q' ed cons (or_introl (eq_trans dim D)) H G') as [K' _]. rewrite K in K'. injection K' as <- <-.
    destruct (edge_rim_unique p q idx e idx' e' D V Rm He V' He') as [-> ->]. reflexivity.
Qed.
Lemma get_face_keyed ft k fc : nd = 3 -> features_new leb shuffle msh false = Ok ft -> get_face ft k = Ok fc -> face_key fc = Ok k.
Proof. intros D H G. destruct (get_face_points leb shuffle msh false ft k fc cons (eq_trans dim D) H G) as (_ & _ & _ & _ & _ & _ & _ & _ & _ & _ & K). exact K. Qed.
Lemma faces_count ft l ss : nd = 3 -> features_new leb shuffle msh false = Ok ft -> NoDup l -> NoDup ss -> (forall s, In s ss -> s < 6) ->
  (forall fc, In fc l <-> exists x, In (snd x) ss /\ face_at ft fc x) -> List.length l = nsum (map (rim_size b) ss).
Proof.
  intros D H Nl Ns Hs In_l. pose proof (nsides_3 D) as N4.
  assert (Hs' : forall s, In s ss -> s < nsides (b_ndim b)) by (intros s I; fold nd; specialize (Hs s I); lia).
  rewrite <- (rims_length b W axis_lt ss Hs'). apply (bij_length (face_at ft)); auto.
  - apply rims_nodup; auto.
  - intros fc I. apply In_l in I as ([idx e] & I & R). exists (idx, e). split; auto. apply (rims_in b W axis_lt); auto. destruct R as (k & _ & V & Rm & _). auto.
  - intros [idx e] I. apply (rims_in b W axis_lt ss idx e Hs') in I as (I & V & Rm). destruct (face_exists idx e D V (Hs e I)) as (k & L & He).
    destruct (proj2 (faces_listed ft k D H)) as (fc & G); [split; auto; exists idx, e; auto|].
    assert (R : face_at ft fc (idx, e)) by (exists k; auto). exists fc. split; auto. apply In_l. exists (idx, e). auto.
  - intros fc fc' [idx e] _ _ _ (k & G & V & Rm & He) (k' & G' & _ & _ & He'). cbn [fst snd] in *.
    assert (L : StronglySorted le k) by (apply (faces_listed ft k D H); eauto). assert (L' : StronglySorted le k') by (apply (faces_listed ft k' D H); eauto).
    rewrite (face_points_unique k k' idx e D V L L' He He') in G. congruence.
  - intros fc [idx e] [idx' e'] _ _ _ (k & G & V & Rm & He) (k' & G' & V' & Rm' & He'). cbn [fst snd] in *.
    pose proof (get_face_keyed ft k fc D H G) as K. rewrite (get_face_keyed ft k' fc D H G') in K. injection K as ->.
    destruct (face_rim_unique k idx e idx' e' D V Rm He V' He') as [-> ->]. reflexivity.
Qed.
(* sides with a marker *)
Lemma sides_marked_in l n mk s : In s (sides_marked l n mk) <-> s < n /\ side_marker l s = mk.
Proof. unfold sides_marked. rewrite filter_In, in_seq, Z.eqb_eq. split; intros [A B]; split; auto; lia. Qed.
Lemma marked_edges_at ft mk : nd = 2 -> features_new leb shuffle msh false = Ok ft -> exists r, search_marked_edges ft mk = Ok r /\
  (forall ed, In ed r <-> exists p q idx e, get_edge ft p q = Ok ed /\ valid_index b idx /\ at_rim b idx e /\ has_edge msh p q (rank (b_ndiv b) idx, e) /\ side_marker (b_em b) e = mk) /\
  List.length r = nsum (map (rim_size b) (sides_marked (b_em b) 4 mk)).
Proof.
  intros D H. destruct (marked_edges_spec leb shuffle Pf msh false ft mk cons (or_introl (eq_trans dim D)) H) as (r & E & I & So).
  assert (I' : forall ed, In ed r <-> exists p q idx e, get_edge ft p q = Ok ed /\ valid_index b idx /\ at_rim b idx e /\ has_edge msh p q (rank (b_ndiv b) idx, e) /\ side_marker (b_em b) e = mk).
  { intros ed. rewrite I. split.
    - intros [M (p & q & G)]. destruct (proj1 (edges_listed ft p q D H)) as (_ & idx & e & V & Rm & He); [eauto|].
      exists p, q, idx, e. split; auto. split; auto. split; auto. split; auto. destruct (edge_marker_listed false ft p q ed idx e D H G V He) as [[_ X]|[X _]]; [congruence|contradiction].
    - intros (p & q & idx & e & G & V & Rm & He & M). split; [|eauto]. destruct (edge_marker_listed false ft p q ed idx e D H G V He) as [[_ X]|[X _]]; [congruence|contradiction]. }
  exists r. split; auto. split; auto.
  apply (edges_count ft r _ D H).
  - assert (K : forall ed, In ed r -> exists k, edge_key ed = Ok k).
    { intros ed Hd. apply I in Hd as (_ & p & q & G). exists (p, q). apply (get_edge_key leb shuffle Pf msh false ft p q ed cons (or_introl (eq_trans dim D)) H G). }
    clear - So K. induction So as [|ed l So IH Fo]; constructor; [|apply IH; intros; apply K; now right].
    intros J. rewrite Forall_forall in Fo. destruct (K ed) as (k & Ek); [now left|]. specialize (Fo ed J k k Ek Ek). unfold lex in Fo. lia.
  - apply NoDup_filter, seq_NoDup.
  - intros s X. apply sides_marked_in in X. tauto.
  - intros ed. rewrite I'. split.
    + intros (p & q & idx & e & G & V & Rm & He & M). exists (idx, e). cbn [snd]. split; [apply sides_marked_in; split; auto; apply (edge_somewhere p q _ e D He)|]. exists p, q. auto.
    + intros ([idx e] & X & p & q & G & V & Rm & He). cbn [fst snd] in *. apply sides_marked_in in X as [_ X]. exists p, q, idx, e. auto.
Qed.
Lemma marked_faces_at ft mk : nd = 3 -> features_new leb shuffle msh false = Ok ft -> exists r, search_marked_faces ft mk = Ok r /\
  (forall fc, In fc r <-> exists k idx f, get_face ft k = Ok fc /\ valid_index b idx /\ at_rim b idx f /\ has_face msh k (rank (b_ndiv b) idx, f) /\ side_marker (b_fm b) f = mk) /\
  List.length r = nsum (map (rim_size b) (sides_marked (b_fm b) 6 mk)).
Proof.
  intros D H. destruct (marked_faces_spec leb shuffle msh false ft mk cons (eq_trans dim D) H) as (r & E & I & So).
  assert (I' : forall fc, In fc r <-> exists k idx f, get_face ft k = Ok fc /\ valid_index b idx /\ at_rim b idx f /\ has_face msh k (rank (b_ndiv b) idx, f) /\ side_marker (b_fm b) f = mk).
  { intros fc. rewrite I. split.
    - intros [M (k & G)]. destruct (proj1 (faces_listed ft k D H)) as (_ & idx & e & V & Rm & He); [eauto|].
      exists k, idx, e. split; auto. split; auto. split; auto. split; auto. destruct (face_marker_listed false ft k fc idx e D H G V He) as [[_ X]|[X _]]; [congruence|contradiction].
    - intros (k & idx & e & G & V & Rm & He & M). split; [|eauto]. destruct (face_marker_listed false ft k fc idx e D H G V He) as [[_ X]|[X _]]; [congruence|contradiction]. }
  exists r. split; auto. split; auto.
  apply (faces_count ft r _ D H).
  - assert (K : forall fc, In fc r -> exists k, face_key fc = Ok k) by (intros fc Hd; apply I in Hd as (_ & k & G); exists k; exact (get_face_keyed ft k fc D H G)).
    clear - So K. induction So as [|fc l So IH Fo]; constructor; [|apply IH; intros; apply K; now right].
    intros J. rewrite Forall_forall in Fo. destruct (K fc) as (k & Ek); [now left|]. specialize (Fo fc J k k Ek Ek).
    destruct (fkey_leb_total k k) as [X|X]; congruence.
  - apply NoDup_filter, seq_NoDup.
  - intros s X. apply sides_marked_in in X. tauto.
  - intros fc. rewrite I'. split.
    + intros (k & idx & e & G & V & Rm & He & M). exists (idx, e). cbn [snd]. split; [apply sides_marked_in; split; auto; apply (face_somewhere k _ e D He)|]. exists k. auto.
    + intros ([idx e] & X & k & G & V & Rm & He). cbn [fst snd] in *. apply sides_marked_in in X as [_ X]. exists k, idx, e. auto.
Qed.
(* how many are listed *)
Lemma keys_nodup {K V} (eqb : K -> K -> bool) (eqb_eq : forall x y, eqb x y = true <-> x = y) (m : list (K * V)) : NoDup (map fst m) ->
  forall k v, In (k, v) m <-> mget eqb m k = Some v.
Proof.
  intros N k v. induction m as [|[k' v'] m IH]; cbn; [split; [intros []|discriminate]|]. inversion N as [|? ? Ni N']; subst.
  destruct (eqb k' k) eqn:E.
  - apply eqb_eq in E. subst k'. split; [intros [X|X]; [congruence|]|intros X; left; congruence]. exfalso. apply Ni. apply in_map_iff. exists (k, v). auto.
  - rewrite <- IH by auto. split; [intros [X|X]; auto|auto]. exfalso. injection X as -> ->. assert (eqb k k = true) by now apply eqb_eq. congruence.
Qed.
Lemma edges_number ft : nd = 2 -> features_new leb shuffle msh false = Ok ft -> List.length (ft_edges ft) = 2 * (ndivs b 0 + ndivs b 1).
Proof.
  intros D H. destruct (edges_2d leb shuffle Pf msh false ft cons (eq_trans dim D) H) as (N & _). rewrite <- (map_length snd).
  assert (G : forall p q ed, In ((p, q), ed) (ft_edges ft) <-> get_edge ft p q = Ok ed).
  { intros p q ed. rewrite (keys_nodup ekey_eqb ekey_eqb_eq _ N). unfold get_edge, unwrap. destruct (mget ekey_eqb (ft_edges ft) (p, q)); split; congruence. }
  rewrite (edges_count ft _ (seq 0 4) D H).
  - unfold rim_size. fold nd. rewrite D. cbn. lia.
  - assert (K : forall k ed, In (k, ed) (ft_edges ft) -> edge_key ed = Ok k).
    { intros [p q] ed I. apply G in I. apply (get_edge_key leb shuffle Pf msh false ft p q ed cons (or_introl (eq_trans dim D)) H I). }
    clear - N K. revert N K. generalize (ft_edges ft) as l. induction l as [|[k ed] l IH]; intros N K; [constructor|]. cbn [map fst snd] in *. inversion N as [|? ? Ni N']; subst. constructor; [|apply IH; auto; intros; apply K; now right].
    intros I. apply in_map_iff in I as ([k' ed'] & E & I). cbn in E. subst ed'. apply Ni. apply in_map_iff. exists (k', ed). split; auto. cbn.
    pose proof (K k ed (or_introl eq_refl)) as E1. rewrite (K k' ed (or_intror I)) in E1. congruence.
  - apply seq_NoDup.
  - intros s X. apply in_seq in X. lia.
  - intros ed. rewrite in_map_iff. split.
    + intros ([[p q] ed'] & E & I). cbn in E. subst ed'. apply G in I. destruct (proj1 (edges_listed ft p q D H)) as (_ & idx & e & V & Rm & He); [eauto|].
      exists (idx, e). split; [apply in_seq; pose proof (proj1 (edge_somewhere p q _ e D He)); cbn; lia|]. exists p, q. auto.
    + intros ([idx e] & _ & p & q & X & _). exists ((p, q), ed). split; auto. apply G, X.
Qed.
Lemma faces_number ft : nd = 3 -> features_new leb shuffle msh false = Ok ft ->
  List.length (ft_faces ft) = 2 * (ndivs b 0 * ndivs b 1 + ndivs b 1 * ndivs b 2 + ndivs b 0 * ndivs b 2).
Proof.
  intros D H. destruct (faces_3d leb shuffle msh false ft cons (eq_trans dim D) H) as (N & _). rewrite <- (map_length snd).
  assert (G : forall k fc, In (k, fc) (ft_faces ft) <-> get_face ft k = Ok fc).
  { intros k fc. rewrite (keys_nodup fkey_eqb fkey_eqb_eq _ N). unfold get_face, unwrap. destruct (mget fkey_eqb (ft_faces ft) k); split; congruence. }
  rewrite (faces_count ft _ (seq 0 6) D H).
  - unfold rim_size. fold nd. rewrite D. cbn. lia.
  - assert (K : forall k fc, In (k, fc) (ft_faces ft) -> face_key fc = Ok k) by (intros k fc I; apply G in I; exact (get_face_keyed ft k fc D H I)).
    clear - N K. revert N K. generalize (ft_faces ft) as l. induction l as [|[k fc] l IH]; intros N K; [constructor|]. cbn [map fst snd] in *. inversion N as [|? ? Ni N']; subst. constructor; [|apply IH; auto; intros; apply K; now right].
    intros I. apply in_map_iff in I as ([k' fc'] & E & I). cbn in E. subst fc'. apply Ni. apply in_map_iff. exists (k', fc). split; auto. cbn.
    pose proof (K k fc (or_introl eq_refl)) as E1. rewrite (K k' fc (or_intror I)) in E1. congruence.
  - apply seq_NoDup.
  - intros s X. apply in_seq in X. lia.
  - intros fc. rewrite in_map_iff. split.
    + intros ([k fc'] & E & I). cbn in E. subst fc'. apply G in I. destruct (proj1 (faces_listed ft k D H)) as (_ & idx & e & V & Rm & He); [eauto|].
      exists (idx, e). split; [apply in_seq; pose proof (proj1 (face_somewhere k _ e D He)); cbn; lia|]. exists k. auto.
    + intros ([idx e] & _ & k & X & _). exists (k, fc). split; auto. apply G, X.
Qed.
(* neighbours *)
Lemma neighbours_are ea ft idx : nd = 2 -> features_new leb shuffle msh ea = Ok ft -> valid_index b idx ->
  exists r, get_neighbors_2d msh ft (rank (b_ndiv b) idx) = Ok r /\ NoDup r /\
  forall e n ne, In (e, n, ne) r <-> exists idx', e < 4 /\ valid_index b idx' /\ across 2 e idx idx' /\ n = rank (b_ndiv b) idx' /\ ne = opposite 2 e.
Proof.
  intros D H V. assert (Lc : rank (b_ndiv b) idx < List.length (cells msh)).
  { destruct (mesh_cell b target sh shc P Q W F Sp msh Run idx V) as (c & E & _). apply nth_error_Some. congruence. }
  destruct (neighbors_total leb shuffle msh ea ft _ cons mesh_fits (eq_trans dim D) H Lc) as (r & E). exists r. split; auto.
  destruct (neighbors_iff leb shuffle msh ea ft _ r cons mesh_fits (eq_trans dim D) H E) as [N I]. split; auto.
  intros e n ne. rewrite I. split.
  - intros (Nn & p & q & H1 & H2). apply (edge_shared b target sh shc P Q W F Sp msh Run p q idx e D V H1) in H2 as [[X _]|(idx' & V' & Ac & -> & ->)]; [contradiction|].
    exists idx'. split; auto. apply (edge_somewhere p q _ e D H1).
  - intros (idx' & He & V' & Ac & -> & ->). split.
    + intros X. apply (rank_inj b W) in X; auto. subst idx'. apply (not_itself b idx e); fold nd; rewrite D; auto.
    + destruct (edge_exists idx e D V He) as (p & q & _ & H1). exists p, q. split; auto. apply (edge_shared b target sh shc P Q W F Sp msh Run p q idx e D V H1). right. exists idx'. auto.
Qed.
End Features.
