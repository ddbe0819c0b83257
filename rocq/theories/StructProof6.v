(* Tiling by the rectangles, rejected arguments and panics of Structured::rectangle. *)
From Coq Require Import String Reals List Lia Lra Bool Arith ZArith Permutation.
From Verif Require Import Base BaseFacts Kind MeshModel MeshQuerySpec TopoModel TopoSpec GeomModel GeomSpec GeomProof GridModel GridSpec GridProof SearchModel SearchProof
  JoinModel JoinSpec JoinProof JoinProof2 ShapesModel BlockModel BlockSpec BlockProof BlockProof2 BlockProof3 BlockProof10 PropJoin PropBlock GraphModel GraphVocab PropGraph StructModel StructSpec StructProof StructProof2 StructProof3 StructProof4 StructProof5.
Import ListNotations.
Local Open Scope list_scope.
Local Open Scope R_scope.

Lemma between (f : nat -> R) x : forall n, (0 < n)%nat -> f 0%nat <= x <= f n -> exists i, (i < n)%nat /\ f i <= x <= f (S i).
Proof.
  induction n as [|n IH]; intros Hn H; [lia|]. destruct (Rle_lt_dec x (f n)) as [L|L].
  - destruct n as [|n]; [exists 0%nat; split; [lia|]; lra|]. destruct IH as (i & Hi & Hx); [lia|lra|]. exists i. split; [lia|exact Hx].
  - exists n. split; [lia|lra].
Qed.
Lemma grid_cover bx n m x y : (0 < n)%nat -> (0 < m)%nat -> in_box bx x y -> exists b, In b (grid_boxes bx n m) /\ in_box b x y.
Proof.
  intros Hn Hm (HX & HY). destruct (between (tick (bx0 bx) (bx1 bx) n) x n Hn) as (i & Hi & Xi); [rewrite tick_0, tick_n by exact Hn; exact HX|].
  destruct (between (tick (by0 bx) (by1 bx) m) y m Hm) as (j & Hj & Yj); [rewrite tick_0, tick_n by exact Hm; exact HY|].
  eexists. split; [apply in_grid; exists i, j; split; [exact Hi|]; split; [exact Hj|reflexivity]|]. split; assumption.
Qed.

Lemma length_flat {A B} (f : A -> list B) l : List.length (flat_map f l) = fold_right plus 0%nat (map (fun x => List.length (f x)) l).
Proof. induction l as [|a l IH]; cbn; [reflexivity|]. rewrite app_length, IH. reflexivity. Qed.
Lemma count_boxes cols lays : List.length (rectangle_boxes cols lays) = (fold_right plus 0 (map snd cols) * fold_right plus 0 (map (fun l : R * R * nat * Z => snd (fst l)) lays))%nat.
Proof.
  rewrite rectangle_boxes_eq, length_flat. induction lays as [|[[[y0 y1] n] mk] l IH]; cbn [map fold_right]; [lia|]. rewrite IH. cbn [lay_boxes fst snd]. rewrite length_flat.
  assert (X : fold_right plus 0%nat (map (fun x : R * R * nat => List.length (let '(x0, x1, k) := x in grid_boxes (mkBox mk x0 x1 y0 y1) k n)) cols) = (fold_right plus 0 (map snd cols) * n)%nat).
  { clear. induction cols as [|[[x0 x1] k] c IHc]; cbn [map fold_right snd]; [lia|]. rewrite IHc. unfold grid_boxes. rewrite length_grid. lia. }
  rewrite X. lia.
Qed.
Lemma layers_ny y ny mks : List.length ny = (List.length y - 1)%nat -> map (fun l : R * R * nat * Z => snd (fst l)) (layers y ny mks) = ny.
Proof.
  intros H. unfold layers. rewrite map_map. cbn [fst snd]. rewrite <- H. clear. apply nth_ext with (d := 0%nat) (d' := 0%nat); [rewrite map_length, seq_length; reflexivity|].
  intros i Hi. rewrite map_length, seq_length in Hi. rewrite nth_indep with (d' := nth 0 ny 0%nat) by (rewrite map_length, seq_length; exact Hi). rewrite (map_nth (fun l => nth l ny 0%nat)). rewrite seq_nth by exact Hi. reflexivity.
Qed.

Lemma last_nth (l : list R) : l <> [] -> last l 0 = nth (List.length l - 1) l 0.
Proof.
  induction l as [|a l IH]; intros H; [congruence|]. destruct l as [|b l]; [reflexivity|]. change (last (a :: b :: l) 0) with (last (b :: l) 0). rewrite IH by discriminate.
  cbn [List.length]. replace (S (S (List.length l)) - 1)%nat with (S (S (List.length l) - 1)) by lia. reflexivity.
Qed.
Section Tiling.
Variables (zdet : R) (target : geokind) (xa : R) (xb : option R) (xc : R) (na nb : nat) (y : list R) (ny : list nat) (markers : list Z).
Hypothesis G : good_rectangle zdet (tolR 2) target xa xb xc na nb y ny markers.
Let bs := rectangle_boxes (columns xa xb xc na nb) (layers y ny markers).

Lemma tiling : disjoint_boxes bs /\
  (forall b, In b bs -> (xa <= bx0 b /\ bx1 b <= xc) /\ (nth 0 y 0 <= by0 b /\ by1 b <= last y 0) /\
     exists l, (l < List.length y - 1)%nat /\ nth l y 0 <= by0 b /\ by1 b <= nth (S l) y 0 /\ bx_marker b = nth l markers 0%Z) /\
  (forall u v, xa <= u <= xc -> nth 0 y 0 <= v <= last y 0 -> exists b, In b bs /\ in_box b u v) /\
  List.length bs = ((na + match xb with Some _ => nb | None => 0 end) * fold_right plus 0 ny)%nat.
Proof.
  pose proof tol2_pos as T. pose proof G as (_ & N1 & N2 & L2 & Ln & Lm & GX & GY & _).
  pose proof (columns_chained _ _ _ _ _ _ _ GX) as CX. pose proof (layers_chained _ _ _ _ _ GY) as CY.
  assert (Lay : forall l, (l < List.length y - 1)%nat -> In (nth l y 0, nth (S l) y 0, nth l ny 0%nat, nth l markers 0%Z) (layers y ny markers)).
  { intros l Hl. apply (in_map (fun l => (nth l y 0, nth (S l) y 0, nth l ny 0%nat, nth l markers 0%Z))). apply in_seq. lia. }
  assert (Asc : forall l, (l < List.length y - 1)%nat -> nth l y 0 < nth (S l) y 0).
  { intros l Hl. destruct (apart_lt _ T _ _ _ _ (GY _ _ _ _ (Lay l Hl))) as (A & _). lra. }
  assert (Mono : forall j i, (i <= j <= List.length y - 1)%nat -> nth i y 0 <= nth j y 0).
  { induction j as [|j IH]; intros i Hi; [replace i with 0%nat by lia; lra|]. destruct (Nat.eq_dec i (S j)) as [->|N]; [lra|]. specialize (IH i ltac:(lia)). specialize (Asc j ltac:(lia)). lra. }
  assert (Lst : last y 0 = nth (List.length y - 1) y 0).
  { apply last_nth. destruct y; [cbn in L2; lia|discriminate]. }
  assert (CW : forall x0 x1 k, In (x0, x1, k) (columns xa xb xc na nb) -> xa <= x0 < x1 /\ x1 <= xc /\ (0 < k)%nat).
  { intros x0 x1 k Ic. destruct (apart_lt _ T _ _ _ _ (GX _ _ _ Ic)) as (A & _). destruct (GX _ _ _ Ic) as (K & _). destruct xb as [x|]; cbn in GX, Ic.
    - destruct (apart_lt _ T _ _ _ _ (GX xa x na (or_introl eq_refl))) as (A1 & _). destruct (apart_lt _ T _ _ _ _ (GX x xc nb (or_intror (or_introl eq_refl)))) as (A2 & _).
      destruct Ic as [E|[E|[]]]; injection E as <- <- <-; lra || (split; [lra|split; [lra|exact K]]).
    - destruct Ic as [E|[]]; injection E as <- <- <-. split; [lra|split; [lra|exact K]]. }
  split; [exact (rectangle_disjoint _ _ _ _ _ _ T CX CY)|]. split; [|split].
  - intros b Ib. unfold bs in Ib. rewrite rectangle_boxes_eq in Ib. apply in_flat_map in Ib as (lay & Il & Ib). unfold layers in Il. apply in_map_iff in Il as (l & <- & Il). apply in_seq in Il.
    cbn [lay_boxes] in Ib. apply in_flat_map in Ib as ([[x0 x1] k] & Ic & Ib). destruct (CW _ _ _ Ic) as (W1 & W2 & _). specialize (Asc l ltac:(lia)).
    destruct (grid_within _ _ _ _ (proj2 W1 : bx0 (mkBox (nth l markers 0%Z) x0 x1 (nth l y 0) (nth (S l) y 0)) < bx1 (mkBox (nth l markers 0%Z) x0 x1 (nth l y 0) (nth (S l) y 0))) Asc Ib) as (X & Y). cbn [bx0 bx1 by0 by1] in X, Y.
    split; [lra|]. rewrite Lst. pose proof (Mono l 0%nat ltac:(lia)). pose proof (Mono (List.length y - 1)%nat (S l) ltac:(lia)). split; [lra|].
    exists l. split; [lia|]. split; [lra|]. split; [lra|]. apply in_grid in Ib as (i & j & _ & _ & ->). reflexivity.
  - intros u v Hu Hv. rewrite Lst in Hv. destruct (between (fun l => nth l y 0) v (List.length y - 1) ltac:(lia) Hv) as (l & Hl & Vl).
    assert (exists x0 x1 k, In (x0, x1, k) (columns xa xb xc na nb) /\ x0 <= u <= x1) as (x0 & x1 & k & Ic & Hx).
    { destruct xb as [x|]; cbn.
      - destruct (Rle_lt_dec u x) as [L|L]; [exists xa, x, na|exists x, xc, nb]; split; auto; lra.
      - exists xa, xc, na. auto. }
    destruct (CW _ _ _ Ic) as (_ & _ & K). destruct (GY _ _ _ _ (Lay l Hl)) as (Kn & _).
    destruct (grid_cover (mkBox (nth l markers 0%Z) x0 x1 (nth l y 0) (nth (S l) y 0)) k (nth l ny 0%nat) u v K Kn) as (b & Ib & Hb); [split; assumption|].
    exists b. split; [|exact Hb]. unfold bs. rewrite rectangle_boxes_eq. apply in_flat_map. eexists. split; [apply (Lay l Hl)|]. cbn [lay_boxes]. apply in_flat_map. eexists. split; [exact Ic|exact Ib].
  - unfold bs. rewrite count_boxes, (layers_ny y ny markers Ln). f_equal. destruct xb; cbn; lia.
Qed.
End Tiling.

(* ---------------------------------------------------------------- rejected arguments *)
Section Errors.
Variable zdet : R.
Variable shp : list nat -> list nat.
Variable shuffle : emap -> emap.
Variable sh : container -> container.
Variable shc : list (nat * nat) -> list (nat * nat).
Hypothesis Z0 : 0 <= zdet.

Lemma rect_block_cases x0 x1 y0 y1 n m mk :
  (exists b, rect_block zdet x0 x1 y0 y1 n m mk = Ok b /\ made zdet b /\ b_ndim b = 2%nat /\ zdet < (x1 - x0) * (y1 - y0) / 4 /\ (1 <= n)%nat /\ (1 <= m)%nat) \/
  (rect_block zdet x0 x1 y0 y1 n m mk = Panic /\ ((x1 - x0) * (y1 - y0) / 4 <= zdet \/ n = 0%nat \/ m = 0%nat)).
Proof.
  destruct (Rle_lt_dec ((x1 - x0) * (y1 - y0) / 4) zdet) as [L|L].
  - right. split; [|auto]. unfold rect_block.
    assert (EB : [[x0; y0]; [x1; y0]; [x1; y1]; [x0; y1]] = box_2d x0 y0 (x1 - x0) (y1 - y0)).
    { unfold box_2d. replace (x0 + (x1 - x0)) with x1 by lra. replace (y0 + (y1 - y0)) with y1 by lra. reflexivity. }
    rewrite EB. destruct (new_fields zdet 2 (box_2d x0 y0 (x1 - x0) (y1 - y0)) Z0) as (d & D & _ & B).
    { split; [left; reflexivity|left; reflexivity]. }
    { intros k Hk. simpl in Hk. do 4 (destruct k as [|k]; [reflexivity|]). lia. }
    rewrite (box_2d_det _ _ _ _ _ D) in B. destruct (B L) as (msg & ->). reflexivity.
  - destruct (Nat.eq_dec n 0) as [Hn|Hn]; [|destruct (Nat.eq_dec m 0) as [Hm|Hm]].
    3: { left. destruct (rect_block_ok zdet Z0 x0 x1 y0 y1 n m mk L ltac:(lia) ltac:(lia)) as (b & E & M & N & _). exists b. split; [exact E|]. repeat (split; [first [assumption|lia]|]). lia. }
    all: right; (split; [|auto]); unfold rect_block;
      assert (EB : [[x0; y0]; [x1; y0]; [x1; y1]; [x0; y1]] = box_2d x0 y0 (x1 - x0) (y1 - y0)) by
      (unfold box_2d; replace (x0 + (x1 - x0)) with x1 by lra; replace (y0 + (y1 - y0)) with y1 by lra; reflexivity);
      destruct (box_2d_ok zdet x0 y0 (x1 - x0) (y1 - y0) Z0 L) as (p & E & _); rewrite EB, E; cbn [bind or_panic];
      match goal with |- context [set_ndiv ?b0 _] => assert (W : wf_block b0) by (eapply made_wf; [exact Z0|eapply made_new; exact E]) end.
    + destruct (ndiv_partly _ [n; m] 0 W eq_refl) as (msg & b' & -> & _); [cbn; congruence|intros; lia|]. reflexivity.
    + destruct (ndiv_partly _ [n; m] 1 W eq_refl) as (msg & b' & -> & _); [cbn; congruence| |reflexivity]. intros j k Hj Hk. replace j with 0%nat in Hk by lia. cbn in Hk. injection Hk as <-. lia.
Qed.

Variables (xa : R) (xb : option R) (xc : R) (na nb : nat) (y : list R) (ny : list nat) (markers : list Z) (target : geokind) (renumber : bool).
Let run := rectangle zdet shp shuffle sh shc xa xb xc na nb y ny markers target renumber.

Lemma Rleb_iff a b : Rleb a b = true <-> a <= b.
Proof. unfold Rleb. destruct (Rle_dec a b); split; auto; congruence. Qed.
Lemma Rleb_not a b : Rleb a b = false <-> b < a.
Proof. unfold Rleb. destruct (Rle_dec a b); split; intros; try congruence; lra. Qed.

Lemma arguments_rejected :
  xc <= xa \/ (exists x, xb = Some x /\ ~ xa < x < xc) \/ na = 0%nat \/ nb = 0%nat \/ (List.length y < 2)%nat \/
  List.length ny <> (List.length y - 1)%nat \/ List.length markers <> (List.length y - 1)%nat -> exists msg, run = Err msg.
Proof.
  intros H. unfold run, rectangle. destruct (Rleb xc xa) eqn:R1; [eauto|]. apply Rleb_not in R1.
  destruct (match xb with Some x => Rleb x xa || Rleb xc x | None => false end) eqn:R2; [eauto|].
  destruct ((na <? 1)%nat || (nb <? 1)%nat)%bool eqn:R3; [eauto|]. apply orb_false_iff in R3 as (R3 & R4). apply Nat.ltb_ge in R3. apply Nat.ltb_ge in R4.
  destruct (List.length y <? 2)%nat eqn:R5; [eauto|]. apply Nat.ltb_ge in R5.
  destruct (List.length ny =? List.length y - 1)%nat eqn:R6; cbn [negb]; [|eauto]. apply Nat.eqb_eq in R6.
  destruct (List.length markers =? List.length y - 1)%nat eqn:R7; cbn [negb]; [|eauto]. apply Nat.eqb_eq in R7. exfalso.
  destruct H as [H|[(x & E & H)|[H|[H|[H|[H|H]]]]]]; try lia; [lra|]. rewrite E in R2. apply orb_false_iff in R2 as (A & B). apply Rleb_not in A. apply Rleb_not in B. apply H. lra.
Qed.


Lemma class_dec c : {c = CQua} + {c <> CQua}.
Proof. destruct c; (left; reflexivity) || (right; discriminate). Qed.
Lemma fits_of b m : made zdet b -> b_ndim b = 2%nat -> subdivide sh shc b target = Ok m -> kind_class target = CQua.
Proof.
  intros M N S. destruct (class_dec (kind_class target)) as [E|E]; [exact E|]. exfalso.
  destruct (C45_wrong_class zdet sh shc b target Z0 M) as (msg & X); [|congruence]. unfold fits. rewrite N. exact E.
Qed.

Lemma ok_inj {A} (a b : A) : Ok a = Ok b -> b = a.
Proof. congruence. Qed.
Lemma get_some {A} (l : list A) i a : get l i = Ok a -> nth_error l i = Some a.
Proof. unfold get. destruct (nth_error l i); congruence. Qed.
Lemma rect_block_inv x0 x1 y0 y1 n m mk b : rect_block zdet x0 x1 y0 y1 n m mk = Ok b -> made zdet b /\ b_ndim b = 2%nat /\ zdet < (x1 - x0) * (y1 - y0) / 4 /\ (1 <= m)%nat.
Proof.
  intros E. destruct (rect_block_cases x0 x1 y0 y1 n m mk) as [(b1 & E1 & M1 & N1 & L1 & _ & Hn)|(E1 & _)]; [|congruence].
  assert (Q : b1 = b) by congruence. rewrite <- Q. auto.
Qed.
Lemma rect_layer_inv st l st' : rect_layer zdet sh shc xa xb xc na nb y ny markers target st l = Ok st' ->
  exists yb n, nth_error y (l + 1) = Some yb /\ nth_error ny l = Some n /\ snd st < yb /\ (1 <= n)%nat /\ kind_class target = CQua /\ snd st' = yb /\
    forall x0 x1 k, In (x0, x1, k) (columns xa xb xc na nb) -> zdet < (x1 - x0) * (yb - snd st) / 4.
Proof.
  unfold rect_layer. intros H. apply bind_ok in H. destruct H as (yb & Y & H). destruct (Rleb yb (snd st)) eqn:R1; [discriminate H|]. apply Rleb_not in R1.
  apply bind_ok in H. destruct H as (n & N & H). apply bind_ok in H. destruct H as (mk & _ & H). apply get_some in Y, N.
  exists yb, n. split; [exact Y|]. split; [exact N|]. split; [exact R1|]. clear Y N. destruct xb as [x|].
  - apply bind_ok in H. destruct H as (b1 & E1 & H). apply bind_ok in H. destruct H as (b2 & E2 & H). apply bind_ok in H. destruct H as (m1 & S1 & H). apply bind_ok in H. destruct H as (m2 & _ & H). apply ok_inj in H. subst st'.
    apply rect_block_inv in E1, E2. destruct E1 as (M1 & N1 & L1 & Hn), E2 as (_ & _ & L2 & _).
    split; [exact Hn|]. split; [exact (fits_of b1 m1 M1 N1 S1)|]. split; [reflexivity|]. intros x0 x1 k [E|[E|[]]]; injection E as <- <- <-; assumption.
  - apply bind_ok in H. destruct H as (b1 & E1 & H). apply bind_ok in H. destruct H as (m1 & S1 & H). apply ok_inj in H. subst st'.
    apply rect_block_inv in E1. destruct E1 as (M1 & N1 & L1 & Hn).
    split; [exact Hn|]. split; [exact (fits_of b1 m1 M1 N1 S1)|]. split; [reflexivity|]. intros x0 x1 k [E|[]]; injection E as <- <- <-; assumption.
Qed.

(* what the arguments of a successful call satisfy *)
Lemma accepted m : run = Ok m -> kind_class target = CQua /\ (1 <= na)%nat /\ (1 <= nb)%nat /\ xa < xc /\ (forall x, xb = Some x -> xa < x < xc) /\
  (2 <= List.length y)%nat /\ List.length ny = (List.length y - 1)%nat /\ List.length markers = (List.length y - 1)%nat /\
  forall l, (l < List.length y - 1)%nat -> nth l y 0 < nth (S l) y 0 /\ (1 <= nth l ny 0)%nat /\
    forall x0 x1 k, In (x0, x1, k) (columns xa xb xc na nb) -> zdet < (x1 - x0) * (nth (S l) y 0 - nth l y 0) / 4.
Proof.
  intros H. assert (NE : ~ exists msg, run = Err msg) by (intros (msg & E); congruence).
  assert (A : ~ (xc <= xa \/ (exists x, xb = Some x /\ ~ xa < x < xc) \/ na = 0%nat \/ nb = 0%nat \/ (List.length y < 2)%nat \/ List.length ny <> (List.length y - 1)%nat \/ List.length markers <> (List.length y - 1)%nat))
    by (intros X; apply NE, arguments_rejected, X).
  assert (L2 : (2 <= List.length y)%nat). { destruct (le_lt_dec 2 (List.length y)); [assumption|]. exfalso. apply A. tauto. }
  assert (Ln : List.length ny = (List.length y - 1)%nat). { destruct (Nat.eq_dec (List.length ny) (List.length y - 1)); [assumption|]. exfalso. apply A. tauto. }
  assert (Lm : List.length markers = (List.length y - 1)%nat). { destruct (Nat.eq_dec (List.length markers) (List.length y - 1)); [assumption|]. exfalso. apply A. tauto. }
  assert (Steps : exists st, foldM (rect_layer zdet sh shc xa xb xc na nb y ny markers target) (seq 0 (List.length y - 1)) ([], nth 0 y 0) = Ok st).
  { unfold run, rectangle in H. destruct (Rleb xc xa); [discriminate H|]. destruct (match xb with Some x => Rleb x xa || Rleb xc x | None => false end); [discriminate H|].
    destruct ((na <? 1)%nat || (nb <? 1)%nat)%bool; [discriminate H|]. destruct (List.length y <? 2)%nat; [discriminate H|]. destruct (List.length ny =? List.length y - 1)%nat; cbn [negb] in H; [|discriminate H].
    destruct (List.length markers =? List.length y - 1)%nat; cbn [negb] in H; [|discriminate H].
    assert (Gy : get y 0 = Ok (nth 0 y 0)) by (unfold get; rewrite (nth_error_nth' y 0) by lia; reflexivity). rewrite Gy in H. cbn [bind] in H.
    destruct (foldM (rect_layer zdet sh shc xa xb xc na nb y ny markers target) (seq 0 (List.length y - 1)) ([], nth 0 y 0)) as [st| | |]; cbn [bind] in H; [|discriminate H..]. eauto. }
  destruct Steps as (st & Steps).
  assert (Each : forall k st, (k <= List.length y - 1)%nat -> foldM (rect_layer zdet sh shc xa xb xc na nb y ny markers target) (seq 0 k) ([], nth 0 y 0) = Ok st ->
    snd st = nth k y 0 /\ forall l, (l < k)%nat -> nth l y 0 < nth (S l) y 0 /\ (1 <= nth l ny 0)%nat /\ kind_class target = CQua /\
      forall x0 x1 k, In (x0, x1, k) (columns xa xb xc na nb) -> zdet < (x1 - x0) * (nth (S l) y 0 - nth l y 0) / 4).
  { clear Steps. induction k as [|k IH]; intros st' Hk E.
    - injection E as <-. split; [reflexivity|]. intros l Hl. lia.
    - rewrite seq_S, foldM_app in E. destruct (foldM (rect_layer zdet sh shc xa xb xc na nb y ny markers target) (seq 0 k) ([], nth 0 y 0)) as [s1| | |] eqn:E1; cbn [bind foldM] in E; [|discriminate E..].
      destruct (IH s1 ltac:(lia) eq_refl) as (I1 & I2). rewrite Nat.add_0_l in E. destruct (rect_layer zdet sh shc xa xb xc na nb y ny markers target s1 k) as [s2| | |] eqn:E2; cbn [bind] in E; [|discriminate E..]. injection E as <-.
      destruct (rect_layer_inv s1 k s2 E2) as (yb & n & Y & N & Lt & Hn & Kc & Sn & Zd). rewrite Nat.add_1_r in Y. apply nth_error_nth with (d := 0) in Y. apply nth_error_nth with (d := 0%nat) in N. rewrite I1, <- Y in *. rewrite <- N in *.
      split; [exact Sn|]. intros l Hl. destruct (Nat.eq_dec l k) as [->|Nl]; [auto|]. apply I2. lia. }
  destruct (Each (List.length y - 1)%nat st (le_n _) Steps) as (_ & Ea).
  split; [apply (Ea 0%nat); lia|]. split; [destruct na; [exfalso; apply A; tauto|lia]|]. split; [destruct nb; [exfalso; apply A; tauto|lia]|].
  split; [destruct (Rlt_le_dec xa xc); [assumption|exfalso; apply A; tauto]|].
  split. { intros x E. destruct (Rlt_le_dec xa x) as [L1|L1]; [destruct (Rlt_le_dec x xc) as [L3|L3]; [auto|]|]; exfalso; apply A; right; left; exists x; (split; [exact E|lra]). }
  split; [exact L2|]. split; [exact Ln|]. split; [exact Lm|]. intros l Hl. destruct (Ea l Hl) as (B1 & B2 & _ & B3). auto.
Qed.
End Errors.

Lemma one_block zdet shp shuffle sh shc y0 y1 n renumber : y0 < y1 -> rect_block zdet 0 1 y0 y1 1 n 1%Z = Panic ->
  rectangle zdet shp shuffle sh shc 0 None 1 1 1 [y0; y1] [n] [1%Z] Qua4 renumber = Panic.
Proof.
  intros H E. unfold rectangle. replace (Rleb 1 0) with false by (symmetry; apply Rleb_not; lra). cbn [orb Nat.ltb Nat.leb List.length Nat.sub Nat.eqb negb get nth_error bind seq foldM].
  unfold rect_layer. cbn [get nth_error bind Nat.add snd fst]. replace (Rleb y1 y0) with false by (symmetry; apply Rleb_not; lra). unfold get. cbn [nth_error bind]. rewrite E. reflexivity.
Qed.
Lemma division_panics zdet shp shuffle sh shc renumber : 0 <= zdet -> rectangle zdet shp shuffle sh shc 0 None 1 1 1 [0; 1] [0%nat] [1%Z] Qua4 renumber = Panic.
Proof.
  intros Z0. apply one_block; [lra|]. destruct (rect_block_cases zdet Z0 0 1 0 1 1 0 1%Z) as [(b & _ & _ & _ & _ & _ & H)|(E & _)]; [lia|exact E].
Qed.
Lemma thin_panics zdet shp shuffle sh shc renumber : 0 < zdet -> rectangle zdet shp shuffle sh shc 0 None 1 1 1 [0; zdet] [1%nat] [1%Z] Qua4 renumber = Panic.
Proof.
  intros Z0. apply one_block; [lra|]. destruct (rect_block_cases zdet ltac:(lra) 0 1 0 zdet 1 1 1%Z) as [(b & _ & _ & _ & H & _)|(E & _)]; [lra|exact E].
Qed.
