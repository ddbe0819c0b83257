(* Blocks with one linear cell each. *)
From Coq Require Import String Reals List Lia Lra Bool Arith ZArith Permutation Sorted.
From Verif Require Import Base BaseFacts Kind GraphModel MeshModel MeshQuerySpec TopoModel TopoSpec TopoMaps TopoProof TopoFeat3 TopoFinal GeomModel GeomSpec GeomProof GridModel GridSpec GridProof SearchModel SearchSpec SearchProof SearchProof2
  JoinModel JoinSpec JoinProof JoinProof2 JoinProof3 PropJoin Expr ShapesModel ShapesSpec PadModel PadSpec PadProof PadProof2 PadProof3 BlockModel BlockSpec BlockProof BlockProof2 BlockProof3 BlockProof10 PropBlock StructModel StructSpec StructProof StructProof4 RingSpec RingProof2 BlocksSpec BlocksProof BlocksProof2 BlocksProof3 BlocksProof4 BlocksProof5 BlocksProof6 BlocksProof7 BlocksProof8 BlocksProof9 ExactSpec ExactProof DiskModel DiskSpec DiskProof DiskProof2 DiskProof3 ShapesProof DiskProof4 PosSpec ExactProof2 StructProof6 DiskProof5 DiskProof6 DiskProof7 DiskProof8 DiskProof9 DiskProof10 DiskProof11 ExactProof3 DiskProof12 ExactProof4.
Import ListNotations.
Local Open Scope list_scope.
Local Open Scope R_scope.

Lemma corner_spread cs k j : planar cs -> (k < 4)%nat -> spread 2 cs (ref_coords Qua4 k) j = nth j (nth k cs []) 0.
Proof.
  intros (L & _) Hk. rewrite ref_qua4 by exact Hk. unfold spread. destruct L as [L|L]; rewrite L; cbn [corners Nat.eqb].
  - unfold blend. rewrite L. cbn [linear_kind Nat.eqb seq map]. rewrite !ref_qua4 by lia. do 4 (destruct k as [|k]; [cbn [nth map sum fold_right]; cbn; field|]). lia.
  - change (bkind 2) with Qua8. cbn [seq map sum]. rewrite !interp_at. do 4 (destruct k as [|k]; [cbn [nth]; cbn; unfold Q2R; cbn; field|]). lia.
Qed.
Lemma corner_2d cs k : planar cs -> (k < 4)%nat -> map (spread 2 cs (ref_coords Qua4 k)) (seq 0 2) = nth k cs [].
Proof.
  intros P Hk. cbn [seq map]. rewrite !corner_spread by assumption. destruct P as (L & P). specialize (P (nth k cs []) ltac:(apply nth_In; destruct L; lia)). destruct (nth k cs []) as [|u [|v [|? ?]]]; try discriminate P. reflexivity.
Qed.
(* the corners of a solid *)
Definition lifted (h : R) (cs : list (list R)) (k : nat) : list R := nth (k mod 4) cs [] ++ [if (k <? 4)%nat then 0 else h].
Lemma corner_3d h cs k : planar cs -> (k < 8)%nat -> map (spread 3 (extrude h cs) (ref_coords Hex8 k)) (seq 0 3) = lifted h cs k.
Proof.
  intros P Hk. assert (Q : exists z, ref_coords Hex8 k = [nth 0 (ref_coords Qua4 (k mod 4)) 0; nth 1 (ref_coords Qua4 (k mod 4)) 0; z] /\ (1 + z) / 2 = if (k <? 4)%nat then 0 else 1).
  { rewrite ref_hex8 by exact Hk. rewrite ref_qua4 by (apply Nat.mod_upper_bound; lia). do 8 (destruct k as [|k]; [eexists; split; [cbn; reflexivity|cbn; lra]|]). lia. }
  destruct Q as (z & -> & Ez). cbn [seq map]. destruct (spread_extrude h cs (nth 0 (ref_coords Qua4 (k mod 4)) 0) (nth 1 (ref_coords Qua4 (k mod 4)) 0) z (proj1 P) (proj2 P)) as (-> & -> & ->).
  assert (K4 : (k mod 4 < 4)%nat) by (apply Nat.mod_upper_bound; lia). assert (Rf : [nth 0 (ref_coords Qua4 (k mod 4)) 0; nth 1 (ref_coords Qua4 (k mod 4)) 0] = ref_coords Qua4 (k mod 4)).
  { rewrite ref_qua4 by exact K4. revert K4. generalize (k mod 4). intros j Hj. do 4 (destruct j as [|j]; [reflexivity|]). lia. }
  rewrite Rf. pose proof (corner_2d cs (k mod 4) P K4) as C. cbn [seq map] in C. unfold lifted. rewrite <- C. cbn [app]. f_equal. f_equal. f_equal. unfold Rdiv in *. destruct (k <? 4)%nat; rewrite Rmult_assoc, Ez; ring.
Qed.
Lemma one_idx nd cs sd idx : in_region (piece cs (repeat 1%nat nd) sd) idx -> idx = repeat 0%nat nd.
Proof.
  unfold in_region. rewrite divs_piece. revert idx. induction nd as [|n IH]; intros idx I; cbn [repeat] in I; inversion I; subst; [reflexivity|]. cbn [repeat]. f_equal; [lia|apply IH; assumption].
Qed.
Lemma one_in_region nd cs sd : in_region (piece cs (repeat 1%nat nd) sd) (repeat 0%nat nd).
Proof. unfold in_region. rewrite divs_piece. induction nd as [|n IH]; cbn [repeat]; constructor; [lia|exact IH]. Qed.
Lemma one_ksi nd cs sd k : (nd = 2 \/ nd = 3)%nat -> (k < corners nd)%nat -> region_ksi (piece cs (repeat 1%nat nd) sd) (lin nd) (repeat 0%nat nd) k = ref_coords (lin nd) k.
Proof.
  intros [E|E] Hk; rewrite E in *; unfold region_ksi, lin; cbn [piece g_weights repeat map List.length seq Nat.eqb corners nth] in *.
  - rewrite ref_qua4 by exact Hk. do 4 (destruct k as [|k]; [unfold cut, stretch; cbn; leq|]). lia.
  - rewrite ref_hex8 by exact Hk. do 8 (destruct k as [|k]; [unfold cut, stretch; cbn; leq|]). lia.
Qed.
(* the corners of a side with a condition are where it puts them *)
Definition round_2d (cs : list (list R)) (sd : list (nat * condition)) : Prop :=
  forall s c, In (s, c) sd -> exists r, c = circle r /\ 0 < r /\ forall k, (k < 4)%nat -> at_side 2 s (ref_coords Qua4 k) -> dist2 (nth 0 (nth k cs []) 0) (nth 1 (nth k cs []) 0) = r.
Definition round_3d (cs : list (list R)) (sd : list (nat * condition)) : Prop :=
  forall s c, In (s, c) sd -> exists r, c = cylinder r /\ 0 < r /\ forall k, (k < 8)%nat -> at_side 3 s (ref_coords Hex8 k) -> dist2 (nth 0 (nth (k mod 4) cs []) 0) (nth 1 (nth (k mod 4) cs []) 0) = r.
Lemma settle nd g target idx k y (x : list R) : region_at nd g target idx k y -> (k < corners nd)%nat -> region_node nd g target idx k = x ->
  (forall s c, In (s, c) (g_sides g) -> at_side nd s (region_ksi g target idx k) -> moved c x y -> y = x) -> y = x.
Proof.
  intros At Hk E H. unfold region_at in At. destruct (g_sides g) as [|p l] eqn:Es; [congruence|].
  destruct At as (Fr & _). destruct (proj1 Fr Hk) as [(s & _ & A & (c & I & M))|(_ & Y)]; [|rewrite Y; exact E]. apply (H s c I A). rewrite <- E. exact M.
Qed.
Lemma one_2d cs sd idx k y : planar cs -> round_2d cs sd -> is_node 2 Qua4 (piece cs [1; 1]%nat sd) idx k y -> idx = [0; 0]%nat /\ y = nth k cs [].
Proof.
  intros P Ro (Ix & Hk & Ly & At). pose proof (one_idx 2 cs sd idx Ix) as Ei. cbn [repeat] in Ei. split; [exact Ei|]. subst idx. change (kind_nnode Qua4) with 4%nat in Hk. pose proof (one_ksi 2 cs sd k (or_introl eq_refl) Hk) as Ks. change (lin 2) with Qua4 in Ks. cbn [repeat] in Ks.
  apply (settle 2 _ _ _ _ _ _ At Hk); [unfold region_node; rewrite Ks; apply (corner_2d cs k P Hk)|].
  cbn [g_sides piece]. intros s c I A Mv. destruct (Ro s c I) as (r & -> & Hr & D). destruct Mv as (Pr & _). rewrite Ks in A. specialize (D k Hk A).
  cbn in Pr. destruct Pr as (Lw & Pr). assert (Lx : List.length (nth k cs []) = 2%nat) by (apply P, nth_In; destruct P as ([L|L] & _); lia). pose proof (Pr 0%nat) as P0. pose proof (Pr 1%nat) as P1. cbn [Nat.eqb] in P0, P1. rewrite !Rminus_0_r, Rplus_0_l, D in P0, P1. unfold Rdiv in P0, P1. rewrite Rinv_r, Rmult_1_l in P0, P1 by lra.
  destruct y as [|u [|v [|? ?]]]; try discriminate Ly. destruct (nth k cs []) as [|u' [|v' [|? ?]]]; try discriminate Lx. cbn [nth] in P0, P1. rewrite P0, P1. reflexivity.
Qed.
Lemma one_3d h cs sd idx k y : planar cs -> round_3d cs sd -> is_node 3 Hex8 (piece (extrude h cs) [1; 1; 1]%nat sd) idx k y -> idx = [0; 0; 0]%nat /\ y = lifted h cs k.
Proof.
  intros P Ro (Ix & Hk & Ly & At). pose proof (one_idx 3 (extrude h cs) sd idx Ix) as Ei. cbn [repeat] in Ei. split; [exact Ei|]. subst idx. change (kind_nnode Hex8) with 8%nat in Hk. pose proof (one_ksi 3 (extrude h cs) sd k (or_intror eq_refl) Hk) as Ks. change (lin 3) with Hex8 in Ks. cbn [repeat] in Ks.
  apply (settle 3 _ _ _ _ _ _ At Hk); [unfold region_node; rewrite Ks; apply (corner_3d h cs k P Hk)|].
  cbn [g_sides piece]. intros s c I A Mv. destruct (Ro s c I) as (r & -> & Hr & D). destruct Mv as (Pr & _). rewrite Ks in A. specialize (D k Hk A).
  cbn in Pr. destruct Pr as (Lw & Pr). assert (Lx : List.length (nth (k mod 4) cs []) = 2%nat) by (apply P, nth_In; pose proof (Nat.mod_upper_bound k 4); destruct P as ([L|L] & _); lia). pose proof (Pr 0%nat) as P0. pose proof (Pr 1%nat) as P1. pose proof (Pr 2%nat) as P2. cbn [Nat.eqb] in P0, P1, P2. unfold lifted in *.
  set (z := if (k <? 4)%nat then 0 else h) in *. destruct (nth (k mod 4) cs []) as [|u' [|v' [|? ?]]]; try discriminate Lx. cbn [nth app] in *. rewrite !Rminus_0_r, Rplus_0_l, D in P0, P1. unfold Rdiv in P0, P1. rewrite Rinv_r, Rmult_1_l in P0, P1 by lra.
  destruct y as [|u [|v [|w [|? ?]]]]; try discriminate Ly. cbn [nth] in P0, P1, P2. rewrite P0, P1, P2. reflexivity.
Qed.

Lemma nth_first {A} (gs : list A) n i : nth_error (firstn n gs) i = if (i <? n)%nat then nth_error gs i else None.
Proof.
  destruct (Nat.ltb_spec i n) as [H|H]; [|apply nth_error_None; rewrite firstn_length; lia]. revert i n H. induction gs as [|g l IH]; intros i n H; [rewrite firstn_nil; reflexivity|]. destruct n as [|n]; [lia|]. destruct i as [|i]; [reflexivity|]. cbn. apply IH. lia.
Qed.
(* labels of the corners of the cells: equal labels, equal places *)
Section Labels.
Variables (nd : nat) (target : geokind) (gs : list region) (lab : list (list nat)) (pos : nat -> list R) (e : R) (N : nat).
Hypothesis Kt : kind_nnode target = corners nd.
Hypothesis At : forall i g idx k y, nth_error gs i = Some g -> is_node nd target g idx k y -> idx = repeat 0%nat nd /\ y = pos (nth k (nth i lab []) 0%nat).
Hypothesis In0 : forall g, In g gs -> in_region g (repeat 0%nat nd).
Hypothesis Lab : forall i k, (i < List.length gs)%nat -> (k < corners nd)%nat -> (nth k (nth i lab []) 0 < N)%nat.
Hypothesis Nd : forall i k k', (i < List.length gs)%nat -> (k < corners nd)%nat -> (k' < corners nd)%nat -> nth k (nth i lab []) 0%nat = nth k' (nth i lab []) 0%nat -> k = k'.
Hypothesis Far : forall l l', (l < N)%nat -> (l' < N)%nat -> l <> l' -> e < GeomSpec.euclid (pos l) (pos l').
Hypothesis He : 0 <= e.
Lemma same_label l l' : (l < N)%nat -> (l' < N)%nat -> pos l = pos l' -> l = l'.
Proof. intros H H' E. destruct (Nat.eq_dec l l') as [|D]; [assumption|]. specialize (Far l l' H H' D). rewrite E, JoinProof2.euclid_refl in Far. lra. Qed.
Lemma lab_separated : separated nd e target gs.
Proof.
  intros g g' idx k y idx' k' y' I I' M M'. apply In_nth_error in I as (i & I). apply In_nth_error in I' as (i' & I'). assert (Li : (i < List.length gs)%nat) by (apply nth_error_Some; congruence). assert (Li' : (i' < List.length gs)%nat) by (apply nth_error_Some; congruence).
  destruct (At i g idx k y I M) as (_ & Y). destruct (At i' g' idx' k' y' I' M') as (_ & Y'). rewrite Y, Y'.
  assert (Hk : (k < corners nd)%nat) by (rewrite <- Kt; apply M). assert (Hk' : (k' < corners nd)%nat) by (rewrite <- Kt; apply M').
  destruct (Nat.eq_dec (nth k (nth i lab []) 0%nat) (nth k' (nth i' lab []) 0%nat)) as [E|D]; [left; rewrite E; reflexivity|right]. apply Far; [apply Lab; assumption..|exact D].
Qed.
Lemma lab_one_to_one : one_to_one nd target gs.
Proof.
  intros g idx k idx' k' y I M M'. apply In_nth_error in I as (i & I). assert (Li : (i < List.length gs)%nat) by (apply nth_error_Some; congruence).
  destruct (At i g idx k y I M) as (Ei & Y). destruct (At i g idx' k' y I M') as (Ei' & Y'). assert (Hk : (k < corners nd)%nat) by (rewrite <- Kt; apply M). assert (Hk' : (k' < corners nd)%nat) by (rewrite <- Kt; apply M').
  rewrite Y in Y'. apply same_label in Y'; [|apply Lab; assumption..]. apply Nd in Y'; [|assumption..]. rewrite Ei, Ei', Y'. reflexivity.
Qed.
Definition label (i k : nat) : nat := nth k (nth i lab []) 0%nat.
Definition once (n i k : nat) : Prop := (i < n)%nat /\ (k < corners nd)%nat /\ forall i' k', (i' < n)%nat -> (k' < corners nd)%nat -> label i' k' = label i k -> i' = i /\ k' = k.
Lemma first_in n i g : nth_error (firstn n gs) i = Some g -> (i < n)%nat /\ (i < List.length gs)%nat /\ nth_error gs i = Some g.
Proof. rewrite nth_first. destruct (Nat.ltb_spec i n) as [H|H]; intros E; [|discriminate E]. split; [exact H|]. split; [apply nth_error_Some; congruence|exact E]. Qed.
Lemma lab_outermost n s a i k : (n <= List.length gs)%nat -> once n i k -> (forall i' k', (i' < n)%nat -> (k' < corners nd)%nat -> s * nth a (pos (label i k)) 0 <= s * nth a (pos (label i' k')) 0) -> outermost nd target (firstn n gs) s a.
Proof.
  intros Hn (Hi & Hk & On) H. destruct (nth_error gs i) as [g|] eqn:Eg; [|apply nth_error_None in Eg; lia]. exists i, g, (repeat 0%nat nd), k. split.
  - split; [rewrite nth_first; destruct (Nat.ltb_spec i n); [exact Eg|lia]|]. split; [apply In0, nth_error_In with (n := i); exact Eg|]. split; [exact Hk|].
    intros i' g' idx' k' y E' Hk' M M'. apply first_in in E' as (L1 & L2 & E'). destruct (At i g _ k y Eg M) as (_ & Y). destruct (At i' g' idx' k' y E' M') as (Ei' & Y'). rewrite Y in Y'. apply same_label in Y'; [|apply Lab; [lia|assumption]..].
    destruct (On i' k' L1 Hk' (eq_sym Y')) as (-> & ->). auto.
  - intros y g' idx' k' y' M I' M'. apply In_nth_error in I' as (i' & I'). apply first_in in I' as (L1 & L2 & E'). destruct (At i g _ k y Eg M) as (_ & ->). destruct (At i' g' idx' k' y' E' M') as (_ & ->). apply H; [exact L1|]. rewrite <- Kt. apply M'.
Qed.
Lemma lab_wide n a i k i' k' : (n <= List.length gs)%nat -> (i < n)%nat -> (i' < n)%nat -> (k < corners nd)%nat -> (k' < corners nd)%nat -> nth a (pos (label i k)) 0 <> nth a (pos (label i' k')) 0 -> wide nd target (firstn n gs) a.
Proof.
  intros Hn Hi Hi' Hk Hk' D. destruct (nth_error gs i) as [g|] eqn:Eg; [|apply nth_error_None in Eg; lia]. destruct (nth_error gs i') as [g'|] eqn:Eg'; [|apply nth_error_None in Eg'; lia].
  exists g, (repeat 0%nat nd), k, g', (repeat 0%nat nd), k'.
  split; [apply nth_error_In with (n := i); rewrite nth_first; destruct (Nat.ltb_spec i n); [exact Eg|lia]|]. split; [apply nth_error_In with (n := i'); rewrite nth_first; destruct (Nat.ltb_spec i' n); [exact Eg'|lia]|].
  split; [apply In0, nth_error_In with (n := i); exact Eg|]. split; [apply In0, nth_error_In with (n := i'); exact Eg'|]. rewrite Kt. split; [exact Hk|]. split; [exact Hk'|].
  intros y y' M M'. destruct (At i g _ k y Eg M) as (_ & ->). destruct (At i' g' _ k' y' Eg' M') as (_ & ->). exact D.
Qed.
End Labels.
