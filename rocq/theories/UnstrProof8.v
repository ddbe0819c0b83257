(* The facets of the quarter ring in 3D form a closed surface. *)
From Coq Require Import List Arith Bool Lia.
From Verif Require Import Base BaseFacts UnstrSpec UnstrProof UnstrProof7.
Import ListNotations.
Local Open Scope nat_scope.

Lemma sides_map l : polygon_sides l = map (fun i => side_key (nth i l 0) (nth ((i + 1) mod List.length l) l 0)) (seq 0 (List.length l)).
Proof.
  destruct l as [|p r]; [reflexivity|]. unfold polygon_sides. cbn [tl]. set (l := p :: r). set (L := List.length l).
  assert (EL : L = S (List.length r)) by reflexivity.
  apply (nth_ext _ _ (0, 0) (0, 0)).
  - rewrite !map_length, combine_length, app_length, seq_length. fold L. cbn [List.length]. lia.
  - intros i Hi. rewrite map_length, combine_length, app_length in Hi. fold L in Hi. cbn [List.length] in Hi.
    rewrite (nth_indep _ (0, 0) (side_key (fst (0, 0)) (snd (0, 0)))) by (rewrite map_length, combine_length, app_length; fold L; cbn [List.length]; lia).
    rewrite (map_nth (fun s => side_key (fst s) (snd s))). rewrite combine_nth by (rewrite app_length; fold L; cbn [List.length]; lia). cbn [fst snd].
    rewrite (nth_indep (map _ (seq 0 L)) (0, 0) (side_key (nth 0 l 0) (nth ((0 + 1) mod L) l 0))) by (rewrite map_length, seq_length; lia).
    rewrite (map_nth (fun i => side_key (nth i l 0) (nth ((i + 1) mod L) l 0))), seq_nth by lia. cbn [Nat.add]. f_equal.
    destruct (Nat.eq_dec i (List.length r)) as [->|Ne].
    + rewrite app_nth2, Nat.sub_diag by lia. replace (List.length r + 1) with L by lia. rewrite Nat.mod_same by lia. reflexivity.
    + rewrite app_nth1 by lia. rewrite Nat.mod_small by lia. replace (i + 1) with (S i) by lia. reflexivity.
Qed.
Lemma sides_in l s : In s (polygon_sides l) <-> exists i, i < List.length l /\ s = side_key (nth i l 0) (nth ((i + 1) mod List.length l) l 0).
Proof.
  rewrite sides_map, in_map_iff. split.
  - intros (i & <- & Hi). apply in_seq in Hi. exists i. split; [lia|auto].
  - intros (i & Hi & ->). exists i. split; [auto|]. apply in_seq. lia.
Qed.
Lemma key_eq a b c d : side_key a b = side_key c d -> (a = c /\ b = d) \/ (a = d /\ b = c).
Proof. unfold side_key. intros H. injection H. lia. Qed.
Lemma key_sym a b : side_key a b = side_key b a.
Proof. unfold side_key. f_equal; lia. Qed.
Lemma next_inj L i j : 3 <= L -> i < L -> j < L -> (i + 1) mod L = j -> (j + 1) mod L = i -> False.
Proof.
  intros H Hi Hj E1 E2. destruct (Nat.eq_dec (i + 1) L) as [E|E].
  - rewrite E, Nat.mod_same in E1 by lia. subst j. rewrite Nat.mod_small in E2 by lia. lia.
  - rewrite Nat.mod_small in E1 by lia. subst j. destruct (Nat.eq_dec (i + 1 + 1) L) as [E'|E'].
    + rewrite E', Nat.mod_same in E2 by lia. lia.
    + rewrite Nat.mod_small in E2 by lia. lia.
Qed.
Lemma sides_nodup l : NoDup l -> 3 <= List.length l -> NoDup (polygon_sides l).
Proof.
  intros N L. rewrite sides_map. rewrite NoDup_nth with (d := (0, 0)). intros i j Hi Hj E. rewrite map_length, seq_length in *.
  set (f := fun i => side_key (nth i l 0) (nth ((i + 1) mod List.length l) l 0)) in *.
  rewrite !(nth_indep _ (0, 0) (f 0)) in E by (rewrite map_length, seq_length; auto). rewrite !map_nth, !seq_nth in E by auto. cbn [Nat.add] in E. unfold f in E.
  pose proof (Nat.mod_upper_bound (i + 1) (List.length l) ltac:(lia)) as Mi. pose proof (Nat.mod_upper_bound (j + 1) (List.length l) ltac:(lia)) as Mj.
  pose proof (proj1 (NoDup_nth l 0) N) as NN. apply key_eq in E. destruct E as [[E _]|[E1 E2]]; [now apply NN|].
  apply NN in E1; auto. apply NN in E2; auto. exfalso. apply (next_inj (List.length l) i j); auto.
Qed.

Section Closed.
Variables (nr na : nat).
Hypothesis Hr : 1 <= nr. Hypothesis Ha : 1 <= na.
Notation nn := (2 * nr + 2 * na).
Notation b := (2 * nr + na).
Definition nxt (k : nat) : nat := if k + 1 =? nn then 0 else k + 1.
Definition Low k := side_key k (nxt k).
Definition Up k := side_key (nn + k) (nn + nxt k).
Definition Vert k := side_key k (nn + k).
(* the facet on the side k of the polygon *)
Definition wall (k : nat) : nat := if k <? nr then 2 else if k <? nr + na then 4 + na + (k - nr) else if k <? b then 3 else 4 + (k - b).
Definition post (k : nat) : Prop := k = 0 \/ nr <= k <= nr + na \/ b <= k < nn.
Definition prev (k : nat) : nat := if k =? 0 then nn - 1 else k - 1.
Lemma nxt_lt k : k < nn -> nxt k < nn. Proof. unfold nxt. intros. destruct (Nat.eqb_spec (k + 1) nn); lia. Qed.
Lemma nxt_mod k : k < nn -> (k + 1) mod nn = nxt k.
Proof. intros H. unfold nxt. destruct (Nat.eqb_spec (k + 1) nn) as [->|]; [apply Nat.mod_same; lia|apply Nat.mod_small; lia]. Qed.
Lemma low_inj j k : j < nn -> k < nn -> Low j = Low k -> j = k.
Proof. intros Hj Hk E. apply key_eq in E. unfold nxt in E. destruct (Nat.eqb_spec (j + 1) nn), (Nat.eqb_spec (k + 1) nn); lia. Qed.
Lemma up_inj j k : j < nn -> k < nn -> Up j = Up k -> j = k.
Proof. intros Hj Hk E. apply key_eq in E. unfold nxt in E. destruct (Nat.eqb_spec (j + 1) nn), (Nat.eqb_spec (k + 1) nn); lia. Qed.
Lemma vert_inj j k : j < nn -> k < nn -> Vert j = Vert k -> j = k.
Proof. intros Hj Hk E. apply key_eq in E. lia. Qed.
Lemma low_up j k : j < nn -> k < nn -> Low j <> Up k.
Proof. intros Hj Hk E. pose proof (nxt_lt j Hj). apply key_eq in E. lia. Qed.
Lemma low_vert j k : j < nn -> k < nn -> Low j <> Vert k.
Proof. intros Hj Hk E. pose proof (nxt_lt j Hj). apply key_eq in E. lia. Qed.
Lemma up_vert j k : j < nn -> k < nn -> Up j <> Vert k.
Proof. intros Hj Hk E. apply key_eq in E. lia. Qed.
Lemma wall_range k : k < nn -> 2 <= wall k < 4 + 2 * na.
Proof. intros H. unfold wall. destruct (Nat.ltb_spec k nr), (Nat.ltb_spec k (nr + na)), (Nat.ltb_spec k b); lia. Qed.
Lemma prev_lt k : k < nn -> prev k < nn. Proof. unfold prev. destruct (Nat.eqb_spec k 0); lia. Qed.
Lemma post_lt k : post k -> k < nn. Proof. unfold post. lia. Qed.
Lemma post_walls k : post k -> wall (prev k) <> wall k.
Proof.
  unfold post, wall, prev. intros H. destruct (Nat.eqb_spec k 0) as [->|N].
  - destruct (Nat.ltb_spec (nn - 1) nr), (Nat.ltb_spec (nn - 1) (nr + na)), (Nat.ltb_spec (nn - 1) b), (Nat.ltb_spec 0 nr); lia.
  - destruct (Nat.ltb_spec (k - 1) nr), (Nat.ltb_spec (k - 1) (nr + na)), (Nat.ltb_spec (k - 1) b), (Nat.ltb_spec k nr), (Nat.ltb_spec k (nr + na)), (Nat.ltb_spec k b); lia.
Qed.

(* the sides of the facets *)
Definition side_of (f : nat) (s : nat * nat) : Prop :=
  (f = 0 /\ exists k, k < nn /\ s = Low k) \/ (f = 1 /\ exists k, k < nn /\ s = Up k) \/
  (exists k, k < nn /\ wall k = f /\ (s = Low k \/ s = Up k)) \/
  (exists k, post k /\ (wall k = f \/ wall (prev k) = f) /\ s = Vert k).
Notation FAC := (ring_facet nr na).
Lemma facet_sides f s : f < 4 + 2 * na -> In s (polygon_sides (FAC f)) -> side_of f s.
Proof.
  intros Hf. rewrite sides_in, (facet_len nr na Hr Ha f Hf). intros (i & Hi & ->).
  change (nth i (FAC f) 0) with (T nr na f i). change (nth ?x (FAC f) 0) with (T nr na f x).
  destruct (Nat.lt_ge_cases f 4) as [L|L].
  - destruct f as [|[|[|[|j]]]]; [| | | |lia].
    + left. split; [auto|]. exists i. change (nth 0 (flen nr na) 0) with nn in *. split; [auto|]. rewrite nxt_mod by auto.
      rewrite !T0 by (auto using nxt_lt). reflexivity.
    + right; left. split; [auto|]. exists i. change (nth 1 (flen nr na) 0) with nn in *. split; [auto|]. rewrite nxt_mod by auto.
      rewrite !T1 by (auto using nxt_lt). reflexivity.
    + right; right. change (nth 2 (flen nr na) 0) with (2 * (nr + 1)) in *.
      destruct (Nat.lt_ge_cases i nr) as [C1|C1].
      { left. exists i. split; [lia|]. split; [unfold wall; now rewrite (proj2 (Nat.ltb_lt i nr))|]. left. rewrite Nat.mod_small by lia. rewrite !T2a by lia.
        unfold Low, nxt. now rewrite (proj2 (Nat.eqb_neq (i + 1) nn)) by lia. }
      destruct (Nat.eq_dec i nr) as [->|C2].
      { right. exists nr. split; [unfold post; lia|]. split; [right; unfold wall, prev; rewrite (proj2 (Nat.eqb_neq nr 0)) by lia; now rewrite (proj2 (Nat.ltb_lt _ _)) by lia|].
        rewrite Nat.mod_small by lia. rewrite T2a by lia. replace (nr + 1) with (nr + 1 + nr - nr) at 1 by lia. rewrite T2b by lia. reflexivity. }
      destruct (Nat.eq_dec i (nr + 1 + nr)) as [->|C3].
      { right. exists 0. split; [unfold post; lia|]. split; [left; unfold wall; now rewrite (proj2 (Nat.ltb_lt 0 nr)) by lia|].
        replace (nr + 1 + nr + 1) with (2 * (nr + 1)) by lia. rewrite Nat.mod_same by lia. rewrite T2a with (i := 0) by lia. replace (nr + 1 + nr) with (nr + 1 + nr - 0) by lia. rewrite T2b by lia.
        unfold Vert. rewrite key_sym. reflexivity. }
      left. exists (nr + 1 + nr - i - 1). split; [lia|]. split; [unfold wall; rewrite (proj2 (Nat.ltb_lt _ nr)) by lia; auto|]. right.
      rewrite Nat.mod_small by lia. replace i with (nr + 1 + nr - (nr + 1 + nr - i)) at 1 by lia. replace (i + 1) with (nr + 1 + nr - (nr + 1 + nr - i - 1)) by lia. rewrite !T2b by lia.
      unfold Up, nxt. rewrite (proj2 (Nat.eqb_neq _ nn)) by lia. rewrite key_sym. f_equal. lia.
    + right; right. change (nth 3 (flen nr na) 0) with (2 * (nr + 1)) in *.
      assert (WK : forall k, nr + na <= k < b -> wall k = 3).
      { intros k Hk. unfold wall. rewrite (proj2 (Nat.ltb_ge k nr)), (proj2 (Nat.ltb_ge k (nr + na))), (proj2 (Nat.ltb_lt k b)) by lia. reflexivity. }
      destruct (Nat.lt_ge_cases i nr) as [C1|C1].
      { left. exists (b - i - 1). split; [lia|]. split; [apply WK; lia|]. left. rewrite Nat.mod_small by lia. rewrite !T3a by lia.
        unfold Low, nxt. rewrite (proj2 (Nat.eqb_neq _ nn)) by lia. rewrite key_sym. f_equal; lia. }
      destruct (Nat.eq_dec i nr) as [->|C2].
      { right. exists (nr + na). split; [unfold post; lia|]. split; [left; apply WK; lia|].
        rewrite Nat.mod_small by lia. rewrite T3a by lia. replace (nr + 1) with (nr + 1 + nr - nr) at 1 by lia. rewrite T3b by lia. unfold Vert. f_equal; lia. }
      destruct (Nat.eq_dec i (nr + 1 + nr)) as [->|C3].
      { right. exists b. split; [unfold post; lia|]. split; [right; unfold prev; rewrite (proj2 (Nat.eqb_neq b 0)) by lia; apply WK; lia|].
        replace (nr + 1 + nr + 1) with (2 * (nr + 1)) by lia. rewrite Nat.mod_same by lia. rewrite T3a with (i := 0) by lia. replace (nr + 1 + nr) with (nr + 1 + nr - 0) by lia. rewrite T3b by lia.
        unfold Vert. rewrite key_sym. f_equal; lia. }
      left. exists (b - (nr + 1 + nr - i)). split; [lia|]. split; [apply WK; lia|]. right.
      rewrite Nat.mod_small by lia. replace i with (nr + 1 + nr - (nr + 1 + nr - i)) at 1 by lia. replace (i + 1) with (nr + 1 + nr - (nr + 1 + nr - i - 1)) by lia. rewrite !T3b by lia.
      unfold Up, nxt. rewrite (proj2 (Nat.eqb_neq _ nn)) by lia. f_equal; lia.
  - right; right. replace f with (4 + (f - 4)) in * by lia. set (j := f - 4) in *. rewrite (nth4 nr na Hr Ha j) in * by lia.
    destruct (Nat.lt_ge_cases j na) as [Lj|Lj].
    + assert (WB : wall (b + j) = 4 + j).
      { unfold wall. rewrite (proj2 (Nat.ltb_ge (b + j) nr)), (proj2 (Nat.ltb_ge (b + j) (nr + na))), (proj2 (Nat.ltb_ge (b + j) b)) by lia. lia. }
      assert (PN : prev (nxt (b + j)) = b + j) by (unfold prev, nxt; destruct (Nat.eqb_spec (b + j + 1) nn); [cbn [Nat.eqb]; lia|rewrite (proj2 (Nat.eqb_neq _ 0)) by lia; lia]).
      assert (PO : post (nxt (b + j))) by (unfold post, nxt; destruct (Nat.eqb_spec (b + j + 1) nn); lia).
      rewrite !(T4 nr na j) by (auto; apply Nat.mod_upper_bound; lia). rewrite !nxt_mod by lia.
      destruct i as [|[|[|[|i]]]]; [| | | |lia].
      * left. exists (b + j). split; [lia|]. split; [auto|]. left. reflexivity.
      * right. exists (nxt (b + j)). split; [auto|]. split; [right; now rewrite PN|]. reflexivity.
      * left. exists (b + j). split; [lia|]. split; [auto|]. right. change ((2 + 1) mod 4) with 3. cbn [nth]. unfold Up. rewrite key_sym. f_equal; lia.
      * right. exists (b + j). split; [unfold post; lia|]. split; [auto|]. change ((3 + 1) mod 4) with 0. cbn [nth]. unfold Vert. rewrite key_sym. f_equal; lia.
    + replace (4 + j) with (4 + na + (j - na)) by lia. set (i' := j - na) in *. assert (Li : i' < na) by lia.
      assert (WB : wall (nr + i') = 4 + na + i').
      { unfold wall. rewrite (proj2 (Nat.ltb_ge (nr + i') nr)), (proj2 (Nat.ltb_lt (nr + i') (nr + na))) by lia. lia. }
      assert (NX : nxt (nr + i') = nr + i' + 1) by (unfold nxt; now rewrite (proj2 (Nat.eqb_neq _ nn)) by lia).
      rewrite !(T5 nr na Hr Ha i') by (auto; apply Nat.mod_upper_bound; lia).
      destruct i as [|[|[|[|i]]]]; [| | | |lia].
      * left. exists (nr + i'). split; [lia|]. split; [auto|]. left. unfold Low. rewrite NX. reflexivity.
      * right. exists (nr + i' + 1). split; [unfold post; lia|]. split; [right; unfold prev; rewrite (proj2 (Nat.eqb_neq _ 0)) by lia; replace (nr + i' + 1 - 1) with (nr + i') by lia; exact WB|].
        change ((1 + 1) mod 4) with 2. cbn [nth]. unfold Vert. f_equal; lia.
      * left. exists (nr + i'). split; [lia|]. split; [auto|]. right. change ((2 + 1) mod 4) with 3. cbn [nth]. unfold Up. rewrite NX, key_sym. f_equal; lia.
      * right. exists (nr + i'). split; [unfold post; lia|]. split; [auto|]. change ((3 + 1) mod 4) with 0. cbn [nth]. unfold Vert. rewrite key_sym. f_equal; lia.
Qed.

Lemma at_pos f s i : f < 4 + 2 * na -> i < nth f (flen nr na) 0 -> s = side_key (T nr na f i) (T nr na f ((i + 1) mod nth f (flen nr na) 0)) -> In s (polygon_sides (FAC f)).
Proof. intros Hf Hi ->. rewrite sides_in, (facet_len nr na Hr Ha f Hf). exists i. split; [auto|]. reflexivity. Qed.

Lemma sides_facet f s : f < 4 + 2 * na -> side_of f s -> In s (polygon_sides (FAC f)).
Proof.
  intros Hf [(-> & k & Hk & ->)|[(-> & k & Hk & ->)|[(k & Hk & W & S')|(k & Hk & W & ->)]]].
  - apply (at_pos 0 _ k Hf Hk). change (nth 0 (flen nr na) 0) with nn. rewrite nxt_mod by auto. rewrite !T0 by (auto using nxt_lt). reflexivity.
  - apply (at_pos 1 _ k Hf Hk). change (nth 1 (flen nr na) 0) with nn. rewrite nxt_mod by auto. rewrite !T1 by (auto using nxt_lt). reflexivity.
  - revert W. unfold wall. destruct (Nat.ltb_spec k nr) as [A|A]; [|destruct (Nat.ltb_spec k (nr + na)) as [B|B]; [|destruct (Nat.ltb_spec k b) as [C|C]]]; intros <-.
    + assert (NX : nxt k = k + 1) by (unfold nxt; now rewrite (proj2 (Nat.eqb_neq _ nn)) by lia). destruct S' as [-> | ->].
      * apply (at_pos 2 _ k); [lia|change (nth 2 (flen nr na) 0) with (2 * (nr + 1)); lia|]. change (nth 2 (flen nr na) 0) with (2 * (nr + 1)). rewrite Nat.mod_small by lia. rewrite !T2a by lia. unfold Low. now rewrite NX.
      * apply (at_pos 2 _ (nr + 1 + nr - (k + 1))); [lia|change (nth 2 (flen nr na) 0) with (2 * (nr + 1)); lia|]. change (nth 2 (flen nr na) 0) with (2 * (nr + 1)). rewrite Nat.mod_small by lia.
        replace (nr + 1 + nr - (k + 1) + 1) with (nr + 1 + nr - k) by lia. rewrite !T2b by lia. unfold Up. rewrite NX. apply key_sym.
    + set (i' := k - nr). assert (Li : i' < na) by lia. assert (NX : nxt k = k + 1) by (unfold nxt; now rewrite (proj2 (Nat.eqb_neq _ nn)) by lia).
      assert (L4 : nth (4 + na + i') (flen nr na) 0 = 4) by (replace (4 + na + i') with (4 + (na + i')) by lia; apply nth4; lia). destruct S' as [-> | ->].
      * apply (at_pos _ _ 0); [lia|lia|]. rewrite L4. change ((0 + 1) mod 4) with 1. rewrite !(T5 nr na Hr Ha i') by lia. cbn [nth]. unfold Low. rewrite NX. f_equal; lia.
      * apply (at_pos _ _ 2); [lia|lia|]. rewrite L4. change ((2 + 1) mod 4) with 3. rewrite !(T5 nr na Hr Ha i') by lia. cbn [nth]. unfold Up. rewrite NX, key_sym. f_equal; lia.
    + assert (NX : nxt k = k + 1) by (unfold nxt; now rewrite (proj2 (Nat.eqb_neq _ nn)) by lia). destruct S' as [-> | ->].
      * apply (at_pos 3 _ (b - (k + 1))); [lia|change (nth 3 (flen nr na) 0) with (2 * (nr + 1)); lia|]. change (nth 3 (flen nr na) 0) with (2 * (nr + 1)). rewrite Nat.mod_small by lia. rewrite !T3a by lia.
        unfold Low. rewrite NX, key_sym. f_equal; lia.
      * apply (at_pos 3 _ (nr + 1 + nr - (b - k))); [lia|change (nth 3 (flen nr na) 0) with (2 * (nr + 1)); lia|]. change (nth 3 (flen nr na) 0) with (2 * (nr + 1)). rewrite Nat.mod_small by lia.
        replace (nr + 1 + nr - (b - k) + 1) with (nr + 1 + nr - (b - k - 1)) by lia. rewrite !T3b by lia. unfold Up. rewrite NX. f_equal; lia.
    + set (j := k - b). assert (Lj : j < na) by lia. assert (L4 : nth (4 + j) (flen nr na) 0 = 4) by (apply nth4; lia). destruct S' as [-> | ->].
      * apply (at_pos _ _ 0); [lia|lia|]. rewrite L4. change ((0 + 1) mod 4) with 1. rewrite !(T4 nr na j) by lia. cbn [nth]. unfold Low. rewrite nxt_mod by lia. replace (b + j) with k by lia. reflexivity.
      * apply (at_pos _ _ 2); [lia|lia|]. rewrite L4. change ((2 + 1) mod 4) with 3. rewrite !(T4 nr na j) by lia. cbn [nth]. unfold Up. rewrite nxt_mod by lia. replace (b + j) with k by lia. rewrite key_sym. f_equal; lia.
  - pose proof (post_lt k Hk) as Lk. destruct W as [W|W].
    + revert W. unfold wall. unfold post in Hk. destruct (Nat.ltb_spec k nr) as [A|A]; [|destruct (Nat.ltb_spec k (nr + na)) as [B|B]; [|destruct (Nat.ltb_spec k b) as [C|C]]]; intros <-.
      * assert (k = 0) as -> by lia. apply (at_pos 2 _ (nr + 1 + nr)); [lia|change (nth 2 (flen nr na) 0) with (2 * (nr + 1)); lia|]. change (nth 2 (flen nr na) 0) with (2 * (nr + 1)).
        replace (nr + 1 + nr + 1) with (2 * (nr + 1)) by lia. rewrite Nat.mod_same by lia. rewrite T2a with (i := 0) by lia. replace (nr + 1 + nr) with (nr + 1 + nr - 0) by lia. rewrite T2b by lia. unfold Vert. apply key_sym.
      * set (i' := k - nr). assert (Li : i' < na) by lia. assert (L4 : nth (4 + na + i') (flen nr na) 0 = 4) by (replace (4 + na + i') with (4 + (na + i')) by lia; apply nth4; lia).
        apply (at_pos _ _ 3); [lia|lia|]. rewrite L4. change ((3 + 1) mod 4) with 0. rewrite !(T5 nr na Hr Ha i') by lia. cbn [nth]. unfold Vert. rewrite key_sym. f_equal; lia.
      * assert (k = nr + na) as -> by lia. apply (at_pos 3 _ nr); [lia|change (nth 3 (flen nr na) 0) with (2 * (nr + 1)); lia|]. change (nth 3 (flen nr na) 0) with (2 * (nr + 1)). rewrite Nat.mod_small by lia.
        rewrite T3a by lia. replace (nr + 1) with (nr + 1 + nr - nr) at 1 by lia. rewrite T3b by lia. unfold Vert. f_equal; lia.
      * set (j := k - b). assert (Lj : j < na) by lia. assert (L4 : nth (4 + j) (flen nr na) 0 = 4) by (apply nth4; lia).
        apply (at_pos _ _ 3); [lia|lia|]. rewrite L4. change ((3 + 1) mod 4) with 0. rewrite !(T4 nr na j) by lia. cbn [nth]. unfold Vert. rewrite key_sym. f_equal; lia.
    + revert W. unfold wall. pose proof (prev_lt k Lk) as Lp. assert (NP : nxt (prev k) = k) by (unfold prev, nxt; destruct (Nat.eqb_spec k 0) as [->|]; [destruct (Nat.eqb_spec (nn - 1 + 1) nn); lia|destruct (Nat.eqb_spec (k - 1 + 1) nn); lia]).
      assert (PK : prev k = k - 1 /\ k <> 0 \/ k = 0 /\ prev k = nn - 1) by (unfold prev; destruct (Nat.eqb_spec k 0); lia). unfold post in Hk.
      set (q := prev k) in *. clearbody q. destruct (Nat.ltb_spec q nr) as [A|A]; [|destruct (Nat.ltb_spec q (nr + na)) as [B|B]; [|destruct (Nat.ltb_spec q b) as [C|C]]]; intros <-.
      * assert (k = nr) as -> by lia. apply (at_pos 2 _ nr); [lia|change (nth 2 (flen nr na) 0) with (2 * (nr + 1)); lia|]. change (nth 2 (flen nr na) 0) with (2 * (nr + 1)).
        rewrite Nat.mod_small by lia. rewrite T2a by lia. replace (nr + 1) with (nr + 1 + nr - nr) at 1 by lia. rewrite T2b by lia. reflexivity.
      * set (i' := q - nr). assert (Li : i' < na) by lia. assert (L4 : nth (4 + na + i') (flen nr na) 0 = 4) by (replace (4 + na + i') with (4 + (na + i')) by lia; apply nth4; lia).
        apply (at_pos _ _ 1); [lia|lia|]. rewrite L4. change ((1 + 1) mod 4) with 2. rewrite !(T5 nr na Hr Ha i') by lia. cbn [nth]. unfold Vert. f_equal; lia.
      * assert (k = b) as -> by lia. apply (at_pos 3 _ (nr + 1 + nr)); [lia|change (nth 3 (flen nr na) 0) with (2 * (nr + 1)); lia|]. change (nth 3 (flen nr na) 0) with (2 * (nr + 1)).
        replace (nr + 1 + nr + 1) with (2 * (nr + 1)) by lia. rewrite Nat.mod_same by lia. rewrite T3a with (i := 0) by lia. replace (nr + 1 + nr) with (nr + 1 + nr - 0) by lia. rewrite T3b by lia. unfold Vert. rewrite key_sym. f_equal; lia.
      * set (j := q - b). assert (Lj : j < na) by lia. assert (L4 : nth (4 + j) (flen nr na) 0 = 4) by (apply nth4; lia).
        apply (at_pos _ _ 1); [lia|lia|]. rewrite L4. change ((1 + 1) mod 4) with 2. rewrite !(T4 nr na j) by lia. cbn [nth]. rewrite nxt_mod by lia. replace (b + j) with q by lia. rewrite NP. reflexivity.
Qed.

Lemma seq_rev_nodup a c k : a + k <= c -> NoDup (seq a k ++ rev (seq c k)) /\ NoDup (rev (seq a k) ++ seq c k).
Proof.
  intros H. assert (N : forall u v, NoDup u -> NoDup v -> (forall x, In x u -> ~ In x v) -> NoDup (u ++ v : list nat)).
  { induction u as [|x u IH]; intros v Nu Nv D; [auto|]. cbn [app]. inversion Nu; subst. constructor.
    - rewrite in_app_iff. intros [Z|Z]; [auto|]. apply (D x); [now left|auto].
    - apply IH; auto. intros y Hy. apply D. now right. }
  split; apply N; try apply seq_NoDup; try (apply NoDup_rev, seq_NoDup).
  - intros x Hx Hy. apply in_rev, in_seq in Hy. apply in_seq in Hx. lia.
  - intros x Hx Hy. apply in_rev, in_seq in Hx. apply in_seq in Hy. lia.
Qed.
Lemma facet_nodup f : f < 4 + 2 * na -> NoDup (FAC f).
Proof.
  intros Hf. unfold ring_facet. destruct f as [|[|[|[|j]]]].
  - apply seq_NoDup.
  - apply seq_NoDup.
  - apply seq_rev_nodup. lia.
  - apply seq_rev_nodup. lia.
  - destruct (Nat.ltb_spec j na) as [L|L].
    + rewrite nxt_mod by lia. pose proof (nxt_lt (b + j) ltac:(lia)). assert (nxt (b + j) <> b + j) by (unfold nxt; destruct (Nat.eqb_spec (b + j + 1) nn); lia).
      do 4 (apply NoDup_cons; [cbn [In]; lia|]); apply NoDup_nil.
    + do 4 (apply NoDup_cons; [cbn [In]; lia|]); apply NoDup_nil.
Qed.

Lemma ring_closed : closed_surface (ring_facets nr na).
Proof.
  unfold ring_facets. split.
  - intros f Hf. apply in_map_iff in Hf. destruct Hf as (i & <- & Hi). apply in_seq in Hi. apply sides_nodup; [apply facet_nodup; lia|].
    rewrite (facet_len nr na Hr Ha i) by lia. destruct (Nat.lt_ge_cases i 4) as [L|L].
    + destruct i as [|[|[|[|i]]]]; try lia; unfold flen; cbn [nth app]; lia.
    + replace i with (4 + (i - 4)) by lia. rewrite nth4 by lia. lia.
  - rewrite map_length, seq_length. intros i s Hi.
    assert (NF : forall k, k < 4 + 2 * na -> nth k (map FAC (seq 0 (4 + 2 * na))) [] = FAC k).
    { intros k Hk. rewrite (nth_indep _ [] (FAC 0)) by (rewrite map_length, seq_length; auto). now rewrite map_nth, seq_nth by auto. }
    rewrite NF by auto. intros HS. apply facet_sides in HS; [|auto].
    assert (G : forall x y, x <> y -> x < 4 + 2 * na -> y < 4 + 2 * na -> side_of x s -> side_of y s -> (forall k, side_of k s -> k = x \/ k = y) -> (i = x \/ i = y) ->
      exists j, j <> i /\ j < 4 + 2 * na /\ In s (polygon_sides (nth j (map FAC (seq 0 (4 + 2 * na))) [])) /\
        forall k, k < 4 + 2 * na -> In s (polygon_sides (nth k (map FAC (seq 0 (4 + 2 * na))) [])) -> k = i \/ k = j).
    { intros x y Nxy Lx Ly Sx Sy U Hxy. exists (if Nat.eqb i x then y else x).
      assert (U' : forall k, k < 4 + 2 * na -> In s (polygon_sides (nth k (map FAC (seq 0 (4 + 2 * na))) [])) -> k = x \/ k = y).
      { intros k Lk Hk. rewrite NF in Hk by auto. apply facet_sides in Hk; auto. }
      destruct (Nat.eqb_spec i x) as [->|Nx].
      - split; [auto|]. split; [auto|]. split; [rewrite NF by auto; now apply sides_facet|auto].
      - assert (i = y) as -> by tauto. split; [auto|]. split; [auto|]. split; [rewrite NF by auto; now apply sides_facet|]. intros k Lk Hk. destruct (U' k Lk Hk); auto. }
    assert (LowC : forall k, k < nn -> s = Low k -> exists x y, x <> y /\ x < 4 + 2 * na /\ y < 4 + 2 * na /\ side_of x s /\ side_of y s /\ (forall f, side_of f s -> f = x \/ f = y)).
    { intros k Hk E. exists 0, (wall k). pose proof (wall_range k Hk). split; [lia|]. split; [lia|]. split; [lia|]. split; [left; eauto|]. split; [right; right; left; eauto 6|].
      intros f [(-> & _)|[(_ & k' & Hk' & E')|[(k' & Hk' & W & [E'|E'])|(k' & Hk' & _ & E')]]]; [auto| | | |].
      - exfalso. apply (low_up k k'); congruence.
      - right. rewrite E in E'. apply low_inj in E'; auto. now subst.
      - exfalso. apply (low_up k k'); congruence.
      - exfalso. apply (low_vert k k'); auto using post_lt; congruence. }
    assert (UpC : forall k, k < nn -> s = Up k -> exists x y, x <> y /\ x < 4 + 2 * na /\ y < 4 + 2 * na /\ side_of x s /\ side_of y s /\ (forall f, side_of f s -> f = x \/ f = y)).
    { intros k Hk E. exists 1, (wall k). pose proof (wall_range k Hk). split; [lia|]. split; [lia|]. split; [lia|]. split; [right; left; eauto|]. split; [right; right; left; eauto 6|].
      intros f [(_ & k' & Hk' & E')|[(-> & _)|[(k' & Hk' & W & [E'|E'])|(k' & Hk' & _ & E')]]]; [|auto| | |].
      - exfalso. apply (low_up k' k); congruence.
      - exfalso. apply (low_up k' k); congruence.
      - right. rewrite E in E'. apply up_inj in E'; auto. now subst.
      - exfalso. apply (up_vert k k'); auto using post_lt; congruence. }
    assert (VertC : forall k, post k -> s = Vert k -> exists x y, x <> y /\ x < 4 + 2 * na /\ y < 4 + 2 * na /\ side_of x s /\ side_of y s /\ (forall f, side_of f s -> f = x \/ f = y)).
    { intros k Hk E. exists (wall (prev k)), (wall k). pose proof (post_lt k Hk). pose proof (wall_range k ltac:(auto)). pose proof (wall_range (prev k) ltac:(now apply prev_lt)).
      split; [now apply post_walls|]. split; [lia|]. split; [lia|]. split; [right; right; right; eauto 6|]. split; [right; right; right; eauto 6|].
      intros f [(_ & k' & Hk' & E')|[(_ & k' & Hk' & E')|[(k' & Hk' & W & [E'|E'])|(k' & Hk' & W & E')]]].
      - exfalso. apply (low_vert k' k); congruence.
      - exfalso. apply (up_vert k' k); congruence.
      - exfalso. apply (low_vert k' k); congruence.
      - exfalso. apply (up_vert k' k); congruence.
      - rewrite E in E'. apply vert_inj in E'; auto using post_lt. subst k'. destruct W; auto. }
    assert (exists x y, x <> y /\ x < 4 + 2 * na /\ y < 4 + 2 * na /\ side_of x s /\ side_of y s /\ (forall f, side_of f s -> f = x \/ f = y)) as (x & y & A1 & A2 & A3 & A4 & A5 & A6).
    { destruct HS as [(_ & k & Hk & E)|[(_ & k & Hk & E)|[(k & Hk & _ & [E|E])|(k & Hk & _ & E)]]]; eauto. }
    apply (G x y); auto.
Qed.
End Closed.
