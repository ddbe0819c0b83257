(* Structured::rectangle. *)
From Coq Require Import String Reals List Lia Lra Bool Arith ZArith Permutation.
From Verif Require Import Base BaseFacts Kind MeshModel MeshQuerySpec TopoModel TopoSpec GeomModel GeomSpec GeomProof GridModel GridSpec GridProof SearchModel SearchProof
  JoinModel JoinSpec JoinProof JoinProof2 ShapesModel BlockModel BlockSpec BlockProof BlockProof3 PropJoin GraphModel GraphVocab PropGraph StructModel StructSpec StructProof StructProof2 StructProof3 StructProof4.
Import ListNotations.
Local Open Scope list_scope.
Local Open Scope R_scope.

Lemma tol2_pos : 0 < tolR 2.
Proof. unfold tolR. assert (0 < sqrt (INR 2)) by (apply sqrt_lt_R0; cbn; lra). lra. Qed.

(* ---------------------------------------------------------------- chains of intervals *)
Section Chain.
Variable e : R.
Hypothesis E0 : 0 < e.
Variable target : geokind.

Fixpoint chained (s : R) (l : list (R * R * nat)) : Prop :=
  match l with [] => True | (a, b, n) :: r => a = s /\ apart_by e target a b n /\ chained b r end.
Definition ticks (l : list (R * R * nat)) (u : R) : Prop :=
  exists a b n L, In (a, b, n) l /\ (L <= per target * n)%nat /\ u = tick a b (per target * n) L.

Lemma apart_lt a b n : apart_by e target a b n -> a + e < b /\ (0 < per target * n)%nat /\ INR (per target * n) * e < b - a.
Proof.
  intros (Hn & H & _). pose proof (per_pos target). assert (P : (1 <= per target * n)%nat) by nia. pose proof (le_INR _ _ P) as P'. change (INR 1) with 1 in P'. split; [nra|]. split; [lia|exact H].
Qed.
Lemma tick_ends a b n L : apart_by e target a b n -> (L <= per target * n)%nat ->
  (tick a b (per target * n) L = a \/ a + e < tick a b (per target * n) L) /\ (tick a b (per target * n) L = b \/ tick a b (per target * n) L + e < b).
Proof.
  intros A H. destruct (apart_lt a b n A) as (Lt & P & G). split.
  - destruct (Nat.eq_dec L 0) as [->|N]; [left; apply tick_0|right]. pose proof (tick_gap a b _ L 0 e P G (Rlt_le _ _ E0) N) as X. pose proof (tick_mono a b (per target * n) 0 L P ltac:(lra) ltac:(lia)) as Y. rewrite tick_0 in X, Y. rewrite Rabs_right in X by lra. lra.
  - destruct (Nat.eq_dec L (per target * n)) as [->|N]; [left; apply tick_n; exact P|right]. pose proof (tick_gap a b _ L _ e P G (Rlt_le _ _ E0) N) as X. pose proof (tick_mono a b (per target * n) L _ P ltac:(lra) H) as Y. rewrite tick_n in X, Y by exact P.
    rewrite Rabs_minus_sym, Rabs_right in X by lra. lra.
Qed.
Lemma ticks_above : forall l s u, chained s l -> ticks l u -> u = s \/ s + e < u.
Proof.
  induction l as [|[[a b] n] l IH]; intros s u C (a' & b' & n' & L & I & HL & ->); [destruct I|]. destruct C as (-> & A & C). destruct I as [E|I].
  - injection E as <- <- <-. apply tick_ends; assumption.
  - destruct (apart_lt _ _ _ A) as (Lt & _). destruct (IH b (tick a' b' (per target * n') L) C) as [H|H]; [exists a', b', n', L; auto|right; lra|right; lra].
Qed.
Lemma ticks_gapped : forall l s, chained s l -> gapped e (ticks l).
Proof.
  induction l as [|[[a b] n] l IH]; intros s C u v Hu Hv; [destruct Hu as (? & ? & ? & ? & [] & _)|]. destruct C as (-> & A & C).
  assert (Split : forall w, ticks ((s, b, n) :: l) w -> (exists L, (L <= per target * n)%nat /\ w = tick s b (per target * n) L) \/ ticks l w).
  { intros w (a' & b' & n' & L & [E|I] & HL & ->); [injection E as <- <- <-; left; eauto|right; exists a', b', n', L; auto]. }
  assert (Mixed : forall L w, (L <= per target * n)%nat -> ticks l w -> tick s b (per target * n) L = w \/ e < w - tick s b (per target * n) L).
  { intros L w HL Hw. destruct (proj2 (tick_ends s b n L A HL)) as [X|X]; destruct (ticks_above l b w C Hw) as [Y|Y]; lra. }
  destruct (Split u Hu) as [(L & HL & ->)|Hu']; destruct (Split v Hv) as [(M & HM & ->)|Hv'].
  - destruct (Nat.eq_dec L M) as [->|N]; [left; reflexivity|right]. destruct (apart_lt _ _ _ A) as (_ & P & G). apply tick_gap; auto. lra.
  - destruct (Mixed L v HL Hv') as [X|X]; [left; exact X|right]. rewrite Rabs_minus_sym. apply (Rlt_le_trans _ _ _ X), Rle_abs.
  - destruct (Mixed M u HM Hu') as [X|X]; [left; symmetry; exact X|right]. apply (Rlt_le_trans _ _ _ X), Rle_abs.
  - exact (IH b C u v Hu' Hv').
Qed.
Lemma chained_order : forall l s, chained s l -> ForallOrdPairs (fun I J : R * R * nat => snd (fst I) <= fst (fst J)) l.
Proof.
  induction l as [|[[a b] n] l IH]; intros s C; constructor.
  - destruct C as (_ & _ & C). clear - C E0. revert b C. induction l as [|[[a' b'] n'] l IH]; intros b C; constructor.
    + cbn. destruct C as (-> & _). lra.
    + destruct C as (-> & A & C). destruct (apart_lt _ _ _ A) as (Lt & _). specialize (IH b' C). eapply Forall_impl; [|exact IH]. cbn. intros J HJ. lra.
  - destruct C as (_ & _ & C). exact (IH b C).
Qed.
End Chain.

Lemma columns_chained e target xa xb xc na nb : (forall x0 x1 k, In (x0, x1, k) (columns xa xb xc na nb) -> apart_by e target x0 x1 k) -> chained e target xa (columns xa xb xc na nb).
Proof.
  intros H. destruct xb as [xb|]; cbn in *.
  - split; [reflexivity|]. split; [apply H; auto|]. split; [reflexivity|]. split; [apply H; auto|exact I].
  - split; [reflexivity|]. split; [apply H; auto|exact I].
Qed.
Definition strip (l : R * R * nat * Z) : R * R * nat := fst l.
Lemma layers_chained e target y ny mks : (forall y0 y1 n mk, In (y0, y1, n, mk) (layers y ny mks) -> apart_by e target y0 y1 n) -> chained e target (nth 0 y 0) (map strip (layers y ny mks)).
Proof.
  unfold layers. set (f := fun l => (nth l y 0, nth (S l) y 0, nth l ny 0%nat, nth l mks 0%Z)).
  assert (X : forall k s, (forall y0 y1 n mk, In (y0, y1, n, mk) (map f (seq s k)) -> apart_by e target y0 y1 n) -> chained e target (nth s y 0) (map strip (map f (seq s k)))).
  { induction k as [|k IH]; intros s H; cbn [seq map chained]; [exact I|]. cbn [strip fst f]. split; [reflexivity|]. split; [apply (H _ _ _ (nth s mks 0%Z)); left; reflexivity|].
    apply IH. intros y0 y1 n mk Hin. apply (H y0 y1 n mk). right. exact Hin. }
  apply X.
Qed.

(* ---------------------------------------------------------------- the boxes of the rectangle *)
Definition lay_boxes (cols : list (R * R * nat)) (l : R * R * nat * Z) : list box :=
  let '(y0, y1, n, mk) := l in flat_map (fun c : R * R * nat => let '(x0, x1, k) := c in grid_boxes (mkBox mk x0 x1 y0 y1) k n) cols.
Lemma rectangle_boxes_eq cols lays : rectangle_boxes cols lays = flat_map (lay_boxes cols) lays.
Proof. reflexivity. Qed.

Lemma pairs_map {A B} (P : B -> B -> Prop) (f : A -> B) l : ForallOrdPairs P (map f l) -> ForallOrdPairs (fun x y => P (f x) (f y)) l.
Proof.
  induction l as [|a l IH]; intros H; [constructor|]. cbn in H. inversion H as [|? ? H1 H2]; subst. constructor; [|auto]. rewrite Forall_map in H1. exact H1.
Qed.
Lemma pairs_impl {A} (P Q : A -> A -> Prop) l : (forall x y, In x l -> In y l -> P x y -> Q x y) -> ForallOrdPairs P l -> ForallOrdPairs Q l.
Proof.
  intros H F. induction F as [|a l Fa F IH]; constructor.
  - rewrite Forall_forall in *. intros y Iy. apply H; [left; reflexivity|right; exact Iy|auto].
  - apply IH. intros x y Ix Iy. apply H; right; assumption.
Qed.

Lemma rectangle_disjoint e target cols lays xa y0 : 0 < e -> chained e target xa cols -> chained e target y0 (map strip lays) ->
  disjoint_boxes (rectangle_boxes cols lays).
Proof.
  intros E0 CX CY. rewrite rectangle_boxes_eq.
  assert (AX : forall a b n, In (a, b, n) cols -> a < b).
  { clear CY. revert xa CX. induction cols as [|[[a b] n] l IH]; intros s C x x' k I; [destruct I|]. destruct C as (-> & A & C). destruct (apart_lt _ E0 _ _ _ _ A) as (Lt & _). destruct I as [E|I]; [injection E as <- <- <-; lra|eauto]. }
  assert (AY : forall a b n mk, In (a, b, n, mk) lays -> a < b).
  { clear CX AX. revert y0 CY. induction lays as [|[[[a b] n] mk] l IH]; intros s C x x' k mk' I; [destruct I|]. destruct C as (-> & A & C). destruct (apart_lt _ E0 _ _ _ _ A) as (Lt & _). destruct I as [E|I]; [injection E as <- <- <- <-; lra|eauto]. }
  assert (Win : forall x0 x1 k b0 b1 n mk b, In (x0, x1, k) cols -> In (b0, b1, n, mk) lays -> In b (grid_boxes (mkBox mk x0 x1 b0 b1) k n) ->
    (x0 <= bx0 b < bx1 b /\ bx1 b <= x1) /\ (b0 <= by0 b < by1 b /\ by1 b <= b1)).
  { intros x0 x1 k b0 b1 n mk b Ic Il I. apply (grid_within (mkBox mk x0 x1 b0 b1) k n b); cbn; eauto. }
  apply disjoint_flat.
  - intros [[[b0 b1] n] mk] Il. cbn [lay_boxes]. apply disjoint_flat.
    + intros [[x0 x1] k] Ic. apply grid_disjoint; cbn; eauto.
    + eapply pairs_impl; [|exact (chained_order e E0 target cols xa CX)]. intros [[x0 x1] k] [[x0' x1'] k'] Ic Ic' L b c Ib Ib'. cbn in L. left.
      destruct (Win _ _ _ _ _ _ _ _ Ic Il Ib) as (X & _). destruct (Win _ _ _ _ _ _ _ _ Ic' Il Ib') as (X' & _). lra.
  - pose proof (pairs_map _ strip lays (chained_order e E0 target (map strip lays) y0 CY)) as CO. eapply pairs_impl; [|exact CO].
    intros [[[b0 b1] n] mk] [[[b0' b1'] n'] mk'] Il Il' L b c Ib Ib'. cbn in L. cbn [lay_boxes] in Ib, Ib'. apply in_flat_map in Ib as ([[x0 x1] k] & Ic & Ib). apply in_flat_map in Ib' as ([[x0' x1'] k'] & Ic' & Ib').
    destruct (Win _ _ _ _ _ _ _ _ Ic Il Ib) as (_ & Y). destruct (Win _ _ _ _ _ _ _ _ Ic' Il' Ib') as (_ & Y'). right. right. left. lra.
Qed.

Lemma firstn_snoc {A} (l : list A) : forall k a, nth_error l k = Some a -> firstn (S k) l = firstn k l ++ [a].
Proof. induction l as [|b l IH]; intros [|k] a H; cbn in *; try discriminate; [congruence|]. f_equal. apply IH. exact H. Qed.
(* ---------------------------------------------------------------- the function *)
Section Rect.
Variable zdet : R.
Variable shp : list nat -> list nat.
Variable shuffle : emap -> emap.
Variable sh : container -> container.
Variable shc : list (nat * nat) -> list (nat * nat).
Hypothesis Z0 : 0 <= zdet.
Hypothesis O : any_order shp shuffle sh.
Hypothesis PC : forall l, Permutation (shc l) l.
Variable target : geokind.
Variables (xa : R) (xb : option R) (xc : R) (na nb : nat) (y : list R) (ny : list nat) (markers : list Z).
Hypothesis G : good_rectangle zdet (tolR 2) target xa xb xc na nb y ny markers.
Let cols := columns xa xb xc na nb.
Let lays := layers y ny markers.
Let SX := ticks target cols.
Let SY := ticks target (map strip lays).
Let ok := good target SX SY.

Lemma target_in : In target (targets 2).
Proof. destruct G as (K & _). clear - K. destruct target; try discriminate K; cbn; tauto. Qed.

Lemma one_block x0 x1 k b0 b1 n mk : In (x0, x1, k) cols -> In (b0, b1, n, mk) lays ->
  exists b m, rect_block zdet x0 x1 b0 b1 k n mk = Ok b /\ subdivide sh shc b target = Ok m /\ ok m (grid_boxes (mkBox mk x0 x1 b0 b1) k n).
Proof.
  intros Ic Il. destruct G as (_ & _ & _ & _ & _ & _ & GX & GY & GZ). pose proof (GX _ _ _ Ic) as A. pose proof (GY _ _ _ _ Il) as B.
  destruct (block_mesh zdet sh shc Z0 (proj2 (proj2 O)) PC target target_in (mkBox mk x0 x1 b0 b1) k n (GZ _ _ _ _ _ _ _ Ic Il) A B) as (b & m & E & S & (V1 & V2 & _) & N & (U1 & U2) & D & AU & Sh & C).
  exists b, m. split; [exact E|]. split; [exact S|]. split; [repeat (split; [assumption|]); assumption|].
  destruct (apart_lt _ tol2_pos _ _ _ _ A) as (LX & _). destruct (apart_lt _ tol2_pos _ _ _ _ B) as (LY & _). pose proof tol2_pos. split.
  - intros X. pose proof (f_equal (@List.length box) X) as X'. unfold grid_boxes in X'. rewrite length_grid in X'. cbn in X'. destruct A as (A & _). destruct B as (B & _). nia.
  - split; [apply grid_disjoint; cbn; lra|]. intros i x Hx. destruct (C i x Hx) as (L & M & HL & HM & ->). cbn [bx0 bx1 by0 by1]. eexists _, _. split; [|split; [|reflexivity]].
    + exists x0, x1, k, L. auto.
    + exists b0, b1, n, M. split; [|auto]. apply (in_map strip _ _ Il).
Qed.

Lemma lay_nth l : (l < List.length y - 1)%nat -> nth_error lays l = Some (nth l y 0, nth (S l) y 0, nth l ny 0%nat, nth l markers 0%Z).
Proof.
  intros H. unfold lays, layers. rewrite nth_error_map, (nth_error_nth' _ 0%nat) by (rewrite seq_length; exact H). rewrite seq_nth by exact H. reflexivity.
Qed.

Lemma layers_done : forall k, (k <= List.length y - 1)%nat -> exists ms bss,
  foldM (rect_layer zdet sh shc xa xb xc na nb y ny markers target) (seq 0 k) ([], nth 0 y 0) = Ok (ms, nth k y 0) /\
  Forall2 ok ms bss /\ concat bss = rectangle_boxes cols (firstn k lays) /\ List.length ms = (k * List.length cols)%nat.
Proof.
  induction k as [|k IH]; intros Hk.
  - exists [], []. split; [reflexivity|]. split; [constructor|]. split; reflexivity.
  - destruct IH as (ms & bss & E & F & C & L); [lia|]. pose proof (lay_nth k ltac:(lia)) as Hl. pose proof (nth_error_In _ _ Hl) as Il.
    pose proof one_block as OB. pose proof G as (_ & _ & _ & L2 & Ln & Lm & GX & GY & _). destruct (apart_lt _ tol2_pos _ _ _ _ (GY _ _ _ _ Il)) as (LY & _). pose proof tol2_pos.
    rewrite seq_S, foldM_app, E. cbn [bind foldM]. rewrite Nat.add_0_l. unfold rect_layer at 1. cbn [fst snd].
    assert (Gy : get y (k + 1) = Ok (nth (S k) y 0)). { unfold get. rewrite Nat.add_1_r, (nth_error_nth' y 0) by lia. reflexivity. }
    assert (Gn : get ny k = Ok (nth k ny 0%nat)). { unfold get. rewrite (nth_error_nth' ny 0%nat) by lia. reflexivity. }
    assert (Gm : get markers k = Ok (nth k markers 0%Z)). { unfold get. rewrite (nth_error_nth' markers 0%Z) by lia. reflexivity. }
    rewrite Gy. cbn [bind]. assert (Rl : Rleb (nth (S k) y 0) (nth k y 0) = false). { unfold Rleb. destruct (Rle_dec _ _); [lra|reflexivity]. } rewrite Rl, Gn. cbn [bind]. rewrite Gm. cbn [bind].
    assert (FN : firstn (S k) lays = firstn k lays ++ [(nth k y 0, nth (S k) y 0, nth k ny 0%nat, nth k markers 0%Z)]).
    { apply firstn_snoc. exact Hl. }
    assert (RB : rectangle_boxes cols (firstn (S k) lays) = rectangle_boxes cols (firstn k lays) ++ lay_boxes cols (nth k y 0, nth (S k) y 0, nth k ny 0%nat, nth k markers 0%Z)).
    { rewrite !rectangle_boxes_eq, FN, flat_map_app. cbn [flat_map]. rewrite app_nil_r. reflexivity. }
    rewrite RB. clear RB FN. unfold cols in *.  destruct xb as [xx|].
    + destruct (OB xa xx na _ _ _ _ (or_introl eq_refl) Il) as (b1 & m1 & B1 & S1 & O1). destruct (OB xx xc nb _ _ _ _ (or_intror (or_introl eq_refl)) Il) as (b2 & m2 & B2 & S2 & O2).
      rewrite B1. cbn [bind]. rewrite B2. cbn [bind]. rewrite S1. cbn [bind]. rewrite S2. cbn [bind or_panic].
      eexists _, (bss ++ [_; _]). split; [reflexivity|]. split; [apply Forall2_app; [exact F|constructor; [exact O1|constructor; [exact O2|constructor]]]|].
      split; [rewrite concat_app, C; cbn [concat lay_boxes columns flat_map]; reflexivity|]. rewrite app_length, L. cbn. lia.
    + destruct (OB xa xc na _ _ _ _ (or_introl eq_refl) Il) as (b1 & m1 & B1 & S1 & O1).
      rewrite B1. cbn [bind]. rewrite S1. cbn [bind].
      eexists _, (bss ++ [_]). split; [reflexivity|]. split; [apply Forall2_app; [exact F|constructor; [exact O1|constructor]]|].
      split; [rewrite concat_app, C; cbn [concat lay_boxes columns flat_map]; reflexivity|]. rewrite app_length, L. cbn. lia.
Qed.

Lemma rectangle_done : exists m0, depicts target m0 (rectangle_boxes cols lays) /\
  forall renumber, rectangle zdet shp shuffle sh shc xa xb xc na nb y ny markers target renumber =
    if renumber && negb (match xb with None => (List.length y =? 2)%nat | Some _ => false end) then renumber_mesh m0 false else Ok m0.
Proof.
  pose proof tol2_pos as T. pose proof G as (_ & N1 & N2 & L2 & Ln & Lm & GX & GY & _).
  pose proof (columns_chained _ _ _ _ _ _ _ GX) as CX. pose proof (layers_chained _ _ _ _ _ GY) as CY.
  assert (X1 : xa < xc /\ match xb with Some x => xa < x < xc | None => True end).
  { destruct xb as [x|]; cbn in GX.
    - destruct (apart_lt _ T _ _ _ _ (GX xa x na (or_introl eq_refl))) as (A & _). destruct (apart_lt _ T _ _ _ _ (GX x xc nb (or_intror (or_introl eq_refl)))) as (B & _). lra.
    - destruct (apart_lt _ T _ _ _ _ (GX xa xc na (or_introl eq_refl))) as (A & _). split; [lra|exact I]. }
  destruct (layers_done (List.length y - 1) (le_n _)) as (ms & bss & E & F & C & L).
  assert (Ll : List.length lays = (List.length y - 1)%nat) by (unfold lays, layers; rewrite map_length, seq_length; reflexivity).
  rewrite firstn_all2 in C by lia.
  assert (Run : forall renumber, rectangle zdet shp shuffle sh shc xa xb xc na nb y ny markers target renumber =
    match xb, ms with None, [m] => Ok m | _, _ => let! m := join_meshes shp shuffle sh ms in maybe_renumber renumber m end).
  { intros renumber. unfold rectangle. assert (R1 : Rleb xc xa = false) by (unfold Rleb; destruct (Rle_dec _ _); [lra|reflexivity]). rewrite R1.
    assert (R2 : match xb with Some x => Rleb x xa || Rleb xc x | None => false end = false).
    { destruct xb as [x|]; [|reflexivity]. unfold Rleb. destruct (Rle_dec x xa); [lra|]. destruct (Rle_dec xc x); [lra|reflexivity]. } rewrite R2.
    assert (R3 : ((na <? 1)%nat || (nb <? 1)%nat)%bool = false) by (apply orb_false_iff; split; apply Nat.ltb_ge; lia). rewrite R3.
    rewrite (proj2 (Nat.ltb_ge _ _) L2). rewrite (proj2 (Nat.eqb_eq _ _) Ln), (proj2 (Nat.eqb_eq _ _) Lm). cbn [negb].
    assert (Gy : get y 0 = Ok (nth 0 y 0)) by (unfold get; rewrite (nth_error_nth' y 0) by lia; reflexivity). rewrite Gy. cbn [bind]. rewrite E. cbn [bind fst]. clear. destruct xb; [reflexivity|]. destruct ms as [|m [|m' ms]]; reflexivity. }
  pose proof (rectangle_disjoint _ _ cols lays _ _ T CX CY) as DJ.
  pose proof (ticks_gapped _ T target cols _ CX) as TX. pose proof (ticks_gapped _ T target (map strip lays) _ CY) as TY.
  assert (Join : (2 <= List.length ms)%nat -> exists m0, join_meshes shp shuffle sh ms = Ok m0 /\ depicts target m0 (rectangle_boxes cols lays)).
  { intros LL. rewrite <- C in DJ. destruct (join_many shp shuffle sh O target target_in SX SY TX TY ms bss LL F DJ) as (m & H & (Dp & _)). exists m. rewrite <- C. auto. }
  assert (Conv : forall m0, join_meshes shp shuffle sh ms = Ok m0 -> forall renumber : bool, (let! m := join_meshes shp shuffle sh ms in maybe_renumber renumber m) = if renumber then renumber_mesh m0 false else Ok m0).
  { intros m0 H renumber. rewrite H. cbn [bind]. unfold maybe_renumber. reflexivity. }
  unfold cols in L. destruct xb as [xx|] eqn:Ex; cbn [columns List.length] in L.
  - destruct Join as (m0 & H & Dp); [lia|]. exists m0. split; [exact Dp|]. intros renumber. rewrite Run. rewrite (Conv m0 H). rewrite andb_true_r. reflexivity.
  - destruct (Nat.eqb_spec (List.length y) 2) as [E2|E2].
    + rewrite E2 in L. cbn in L. destruct ms as [|m [|m' ms]]; cbn in L; try lia. inversion F as [|? bb ? bss' Gm F']; subst. inversion F'; subst. cbn [concat] in C. rewrite app_nil_r in C. subst bb.
      exists m. split; [apply Gm|]. intros renumber. rewrite Run. rewrite andb_false_r. reflexivity.
    + destruct Join as (m0 & H & Dp); [lia|]. exists m0. split; [exact Dp|]. intros renumber. rewrite Run. destruct ms as [|m [|m' ms]]; cbn in L; try lia. rewrite (Conv m0 H). rewrite andb_true_r. reflexivity.
Qed.
End Rect.
