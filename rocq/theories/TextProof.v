(* Lexical facts: white space, words, lines, layout. *)
From Coq Require Import String Ascii List Arith NArith ZArith Bool Relations Lia.
From Verif Require Import Base BaseFacts Kind MeshModel TextModel TextSpec.
Import ListNotations.
Open Scope N_scope.

Lemma space_white c : is_space c = true <-> white c.
Proof.
  unfold is_space, white. split.
  - rewrite !orb_true_iff, !andb_true_iff, !N.eqb_eq, !N.leb_le. cbn [In]. intros H. lia.
  - cbn [In]. intros H. repeat (destruct H as [<-|H]; [reflexivity|]). destruct H.
Qed.
Lemma space_false c : is_space c = false <-> ~ white c.
Proof. rewrite <- space_white. destruct (is_space c); split; congruence. Qed.

(* ---- words ---- *)
Lemma words_white cur s : Forall white s -> s <> [] -> forall b, words_from cur (s ++ b) = (match cur with [] => [] | _ => [rev cur] end) ++ words_from [] b.
Proof.
  intros H. revert cur. induction H as [|c s Hc Hs IH]; intros cur N b; [congruence|].
  apply space_white in Hc. cbn [app words_from]. rewrite Hc.
  assert (E : words_from [] (s ++ b) = words_from [] b).
  { destruct s as [|d s]; [reflexivity|]. rewrite IH by congruence. reflexivity. }
  destruct cur; rewrite E; reflexivity.
Qed.
Lemma words_lead s b : Forall white s -> words_from [] (s ++ b) = words_from [] b.
Proof. intros H. destruct s; [reflexivity|]. rewrite words_white by (auto; congruence). reflexivity. Qed.
Lemma words_word cur w b : Forall (fun c => ~ white c) w -> words_from cur (w ++ b) = words_from (rev w ++ cur) b.
Proof.
  intros H. revert cur. induction H as [|c w Hc Hw IH]; intros cur; [reflexivity|].
  apply space_false in Hc. cbn [app words_from rev]. rewrite Hc, IH, <- app_assoc. reflexivity.
Qed.
Lemma words_cut cur a s b : Forall white s -> s <> [] -> words_from cur (a ++ s ++ b) = words_from cur a ++ words_from [] b.
Proof.
  intros H N. revert cur. induction a as [|c a IH]; intros cur; cbn [app].
  - rewrite words_white by auto. reflexivity.
  - cbn [words_from]. destruct (is_space c); [destruct cur|]; rewrite IH; reflexivity.
Qed.
Lemma words_trail a s : Forall white s -> split_whitespace (a ++ s) = split_whitespace a.
Proof.
  intros H. destruct s as [|c s]; [rewrite app_nil_r; reflexivity|].
  unfold split_whitespace. rewrite <- (app_nil_r (c :: s)), words_cut by (auto; congruence). apply app_nil_r.
Qed.
Lemma words_spells ws l : spells ws l -> split_whitespace l = ws.
Proof.
  unfold split_whitespace. induction 1 as [s Hs|s w ws l Hs [Hw1 Hw2] Hl Hsp IH].
  - rewrite <- (app_nil_r s), words_lead by auto. reflexivity.
  - rewrite words_lead, words_word, app_nil_r by auto.
    assert (N : rev w <> []) by (intros E; apply Hw1; rewrite <- (rev_involutive w), E; reflexivity).
    destruct Hl as [->|[c [r [-> Hc]]]].
    + cbn in *. subst ws. destruct (rev w) eqn:E; [congruence|]. rewrite <- E, rev_involutive. reflexivity.
    + apply space_white in Hc. cbn [words_from] in *. rewrite Hc in *. subst ws.
      destruct (rev w) eqn:E; [congruence|]. rewrite <- E, rev_involutive. reflexivity.
Qed.
Lemma spells_lead s ws l : Forall white s -> spells ws l -> spells ws (s ++ l).
Proof.
  intros H K. inversion K; subst.
  - apply spells_end. apply Forall_app; auto.
  - rewrite app_assoc. apply spells_word; auto. apply Forall_app; auto.
Qed.
Lemma spells_words_cur cur l : Forall (fun c => ~ white c) cur -> spells (words_from cur l) (rev cur ++ l).
Proof.
  revert cur. induction l as [|c l IH]; intros cur Hc; cbn [words_from].
  - rewrite app_nil_r. destruct cur as [|d cur]; [apply spells_end; constructor|].
    rewrite <- (app_nil_r (rev (d :: cur))). change (rev (d :: cur) ++ []) with ([] ++ rev (d :: cur) ++ []) .
    rewrite app_nil_r at 1. apply spells_word; [constructor| |left; reflexivity|apply spells_end; constructor].
    split; [|apply Forall_rev; auto]. cbn [rev]. destruct (rev cur); discriminate.
  - destruct (is_space c) eqn:E.
    + assert (Hs : spells (words_from [] l) (c :: l)).
      { change (c :: l) with ([c] ++ [] ++ l). apply spells_lead; [constructor; [apply space_white; auto|constructor]|]. apply (IH []). constructor. }
      destruct cur as [|d cur]; [exact Hs|].
      change (rev (d :: cur) ++ c :: l) with ([] ++ rev (d :: cur) ++ c :: l).
      apply spells_word; [constructor| |right; exists c, l; split; [reflexivity|apply space_white; auto]|exact Hs].
      split; [|apply Forall_rev; auto]. cbn [rev]. destruct (rev cur); discriminate.
    + replace (rev cur ++ c :: l) with (rev (c :: cur) ++ l) by (cbn [rev]; rewrite <- app_assoc; reflexivity).
      apply IH. constructor; auto. apply space_false; auto.
Qed.
Lemma spells_words l : spells (split_whitespace l) l.
Proof. apply (spells_words_cur [] l). constructor. Qed.

(* ---- the data on a line ---- *)
Definition line_row (l : text) : list (list text) :=
  match split_whitespace l with
  | [] => []
  | w :: ws => match w with [] => [] | c :: _ => if c =? 35 then [] else [w :: ws] end
  end.
Lemma trim_start_eq l : exists s, l = s ++ trim_start l /\ Forall white s.
Proof.
  induction l as [|c l [s [E H]]]; [exists []; split; [reflexivity|constructor]|]. cbn [trim_start].
  destruct (is_space c) eqn:S.
  - exists (c :: s). split; [cbn; congruence|]. constructor; auto. apply space_white; auto.
  - exists []. split; [reflexivity|constructor].
Qed.
Lemma trim_start_hd l c r : trim_start l = c :: r -> ~ white c.
Proof.
  induction l as [|d l IH]; cbn [trim_start]; [discriminate|].
  destruct (is_space d) eqn:S; [auto|]. intros H. injection H as -> ->. apply space_false; auto.
Qed.
Lemma drop_nl_eq l : exists s, l = s ++ drop_nl l /\ Forall white s.
Proof.
  induction l as [|c l [s [E H]]]; [exists []; split; [reflexivity|constructor]|]. cbn [drop_nl].
  destruct (N.eqb_spec c nl) as [->|S].
  - exists (nl :: s). split; [cbn; congruence|]. constructor; auto. right; left; reflexivity.
  - exists []. split; [reflexivity|constructor].
Qed.
Lemma trim_end_eq l : exists s, l = trim_end_nl l ++ s /\ Forall white s.
Proof.
  destruct (drop_nl_eq (rev l)) as [s [E H]]. exists (rev s). split; [|apply Forall_rev; auto].
  unfold trim_end_nl. rewrite <- rev_app_distr, <- E, rev_involutive. reflexivity.
Qed.
Lemma words_word_hd c r : ~ white c -> exists w ws, split_whitespace (c :: r) = (c :: w) :: ws.
Proof.
  intros H. pose proof (spells_words (c :: r)) as S.
  destruct (split_whitespace (c :: r)) as [|w ws].
  - inversion S; subst. inversion H0; contradiction.
  - inversion S as [|s w0 ws0 l Hs [Hw1 Hw2] Hl Hr E1 E2]; subst.
    destruct s as [|d s]; [|cbn in E2; injection E2 as -> _; inversion Hs; contradiction].
    destruct w as [|d w]; [congruence|]. cbn in E2. injection E2 as -> _. eauto.
Qed.
Lemma data_of_row l : (match data_of l with Some d => [d] | None => [] end) = line_row l.
Proof.
  unfold data_of, line_row.
  destruct (trim_start_eq l) as [s [E Hs]]. destruct (trim_end_eq (trim_start l)) as [u [E' Hu]].
  set (x := trim_end_nl (trim_start l)) in *.
  assert (W : split_whitespace l = split_whitespace x).
  { rewrite E, E'. unfold split_whitespace at 1. rewrite words_lead by auto. apply words_trail; auto. }
  rewrite W. destruct x as [|c r] eqn:X; [reflexivity|].
  assert (Hc : ~ white c).
  { apply trim_start_hd with l (r ++ u). rewrite E'. reflexivity. }
  destruct (words_word_hd c r Hc) as [w [ws ->]]. unfold hash. destruct (c =? 35); reflexivity.
Qed.
Lemma data_of_some l d : data_of l = Some d -> exists w ws, d = w :: ws.
Proof.
  intros H. pose proof (data_of_row l) as R. rewrite H in R. unfold line_row in R.
  destruct (split_whitespace l) as [|w ws]; [discriminate|]. destruct w as [|c w]; [discriminate|].
  destruct (c =? 35); [discriminate|]. injection R as ->. eauto.
Qed.
Lemma line_row_eq l l' : split_whitespace l = split_whitespace l' -> line_row l = line_row l'.
Proof. unfold line_row. intros ->. reflexivity. Qed.
Lemma line_row_ignored l : ignored l -> line_row l = [].
Proof.
  intros [s [r [-> [Hs Hr]]]]. unfold line_row. unfold split_whitespace. rewrite words_lead by auto.
  destruct Hr as [->|[r' ->]]; [reflexivity|].
  destruct (words_word_hd 35 r') as [w [ws E]].
  { apply space_false. reflexivity. }
  unfold split_whitespace in E. rewrite E. reflexivity.
Qed.
Lemma line_row_spells w ws l : spells (w :: ws) l -> (forall r, w <> 35 :: r) -> line_row l = [w :: ws].
Proof.
  intros H K. unfold line_row. rewrite (words_spells _ _ H). inversion H as [|s w0 ws0 l0 Hs [Hw _]]; subst.
  destruct w as [|c w]; [congruence|]. destruct (N.eqb_spec c 35) as [->|]; [elim (K w); reflexivity|reflexivity].
Qed.
Lemma line_row_cases l : (ignored l /\ line_row l = []) \/
  exists w ws, spells (w :: ws) l /\ (forall r, w <> 35 :: r) /\ line_row l = [w :: ws].
Proof.
  unfold line_row. pose proof (spells_words l) as S. destruct (split_whitespace l) as [|w ws].
  - left. split; [|reflexivity]. inversion S; subst. exists l, []. rewrite app_nil_r. auto.
  - destruct w as [|c w].
    { inversion S as [|s w0 ws0 l0 Hs [Hw _]]; subst. congruence. }
    destruct (N.eqb_spec c 35) as [->|N].
    + left. split; [|reflexivity]. inversion S as [|s w0 ws0 l0 Hs Hw Hl Hsp]; subst.
      exists s, ((35 :: w) ++ l0). split; [reflexivity|]. split; [auto|]. right. cbn. eauto.
    + right. exists (c :: w), ws. split; [exact S|]. split; [congruence|reflexivity].
Qed.

(* ---- lines ---- *)
Fixpoint pieces (cur t : text) : list text :=
  match t with
  | [] => [rev cur]
  | c :: t' => if c =? 10 then rev cur :: pieces [] t' else pieces (c :: cur) t'
  end.
Definition rows_of (t : text) : list (list text) := flat_map line_row (lines t).
Lemma strip_cr_words l : split_whitespace (strip_cr l) = split_whitespace l.
Proof.
  unfold strip_cr. destruct (rev l) as [|c r] eqn:E; [reflexivity|].
  destruct (N.eqb_spec c cr) as [->|]; [|reflexivity].
  rewrite <- (rev_involutive l), E. cbn [rev]. symmetry. apply words_trail. constructor; [|constructor].
  apply space_white. reflexivity.
Qed.
Lemma rows_pieces cur t : flat_map line_row (lines_from cur t) = flat_map line_row (pieces cur t).
Proof.
  revert cur. induction t as [|c t IH]; intros cur; cbn [lines_from pieces].
  - destruct cur; [reflexivity|]. reflexivity.
  - unfold nl. destruct (c =? 10); [|apply IH]. cbn [flat_map]. rewrite IH.
    f_equal. apply line_row_eq, strip_cr_words.
Qed.
Lemma pieces_line l t : ~ In 10 l -> forall cur, pieces cur (l ++ t) = pieces (rev l ++ cur) t.
Proof.
  induction l as [|c l IH]; intros N cur; [reflexivity|]. cbn [app pieces rev].
  destruct (N.eqb_spec c 10) as [->|]; [elim N; left; reflexivity|].
  rewrite IH by (intros H; apply N; right; auto). rewrite <- app_assoc. reflexivity.
Qed.
Lemma text_lines_pieces ls t : text_lines ls t -> pieces [] t = ls.
Proof.
  induction 1 as [l N|l ls t N H IH].
  - rewrite <- (app_nil_r l) at 1. rewrite pieces_line by auto. cbn. rewrite app_nil_r, rev_involutive. reflexivity.
  - rewrite pieces_line by auto. cbn [pieces]. rewrite app_nil_r, rev_involutive, IH. reflexivity.
Qed.
Lemma pieces_text_lines cur t : ~ In 10 cur -> text_lines (pieces cur t) (rev cur ++ t).
Proof.
  revert cur. induction t as [|c t IH]; intros cur N; cbn [pieces].
  - rewrite app_nil_r. apply tl_last. rewrite <- in_rev. auto.
  - destruct (N.eqb_spec c 10) as [->|C].
    + apply tl_cons; [rewrite <- in_rev; auto|]. apply (IH []). intros [].
    + replace (rev cur ++ c :: t) with (rev (c :: cur) ++ t) by (cbn [rev]; rewrite <- app_assoc; reflexivity).
      apply IH. intros [->|H]; auto.
Qed.
Lemma line_rows_eq ls rows : line_rows ls rows -> rows = flat_map line_row ls.
Proof.
  induction 1 as [|l ls rows I H IH|l ls w ws rows S K H IH]; cbn [flat_map]; [reflexivity| |].
  - rewrite (line_row_ignored _ I). exact IH.
  - rewrite (line_row_spells _ _ _ S K). cbn. congruence.
Qed.
Lemma line_rows_of ls : line_rows ls (flat_map line_row ls).
Proof.
  induction ls as [|l ls IH]; cbn [flat_map]; [constructor|].
  destruct (line_row_cases l) as [[I ->]|[w [ws [S [K ->]]]]]; cbn [app]; [apply lr_skip|apply lr_row]; auto.
Qed.
Lemma reads_iff t rows : reads t rows <-> rows = rows_of t.
Proof.
  unfold rows_of, lines. rewrite rows_pieces. split.
  - intros [ls [L R]]. rewrite (text_lines_pieces _ _ L). apply line_rows_eq; auto.
  - intros ->. exists (pieces [] t). split; [apply (pieces_text_lines [] t); intros []|apply line_rows_of].
Qed.

(* ---- layout ---- *)
Definition prows (t : text) : list (list text) := flat_map line_row (pieces [] t).
Lemma pieces_cut cur a b : pieces cur (a ++ 10 :: b) = pieces cur a ++ pieces [] b.
Proof.
  revert cur. induction a as [|c a IH]; intros cur; cbn [app pieces]; [reflexivity|].
  destruct (c =? 10); rewrite IH; reflexivity.
Qed.
Lemma prows_cut a b : prows (a ++ 10 :: b) = prows a ++ prows b.
Proof. unfold prows. rewrite pieces_cut. apply flat_map_app. Qed.
Lemma prows_line l : ~ In 10 l -> prows l = line_row l.
Proof.
  intros N. unfold prows. rewrite <- (app_nil_r l) at 1. rewrite pieces_line by auto. cbn [pieces flat_map].
  rewrite !app_nil_r, rev_involutive. reflexivity.
Qed.
(* every text is the end of a line followed by the next lines *)
Lemma first_line b : exists l r, ~ In 10 l /\ at_line_end r /\ b = l ++ r.
Proof.
  induction b as [|c b [l [r [N [E ->]]]]]; [exists [], []; split; [intros []|split; [left; auto|auto]]|].
  destruct (N.eq_dec c 10) as [->|C].
  - exists [], (10 :: l ++ r). split; [intros []|]. split; [right; eauto|reflexivity].
  - exists (c :: l), r. split; [intros [H|H]; auto|]. split; auto.
Qed.
Lemma last_line a : exists r l, ~ In 10 l /\ at_line_start r /\ a = r ++ l.
Proof.
  destruct (first_line (rev a)) as [l [r [N [E H]]]]. exists (rev r), (rev l).
  split; [rewrite <- in_rev; auto|]. split.
  - destruct E as [->|[b' ->]]; [left; reflexivity|right; exists (rev b'); reflexivity].
  - rewrite <- rev_app_distr, <- H, rev_involutive. reflexivity.
Qed.
(* only the line that changes matters *)
Lemma prows_middle r l b : at_line_start r -> ~ In 10 l -> at_line_end b ->
  exists A B, forall l', ~ In 10 l' -> prows (r ++ l' ++ b) = A ++ line_row l' ++ B.
Proof.
  intros Hr _ Hb.
  assert (K : exists B, forall l', ~ In 10 l' -> prows (l' ++ b) = line_row l' ++ B).
  { destruct Hb as [->|[b' ->]].
    - exists []. intros l' N. rewrite !app_nil_r. apply prows_line; auto.
    - exists (prows b'). intros l' N. rewrite prows_cut, prows_line by auto. reflexivity. }
  destruct K as [B K]. destruct Hr as [->|[a' ->]].
  - exists [], B. intros l' N. apply K; auto.
  - exists (prows a'), B. intros l' N. rewrite <- app_assoc. cbn [app]. rewrite prows_cut, K by auto. reflexivity.
Qed.
Lemma prows_same_line a b l l' : ~ In 10 l -> ~ In 10 l' ->
  (forall x y, split_whitespace (x ++ l ++ y) = split_whitespace (x ++ l' ++ y)) -> prows (a ++ l ++ b) = prows (a ++ l' ++ b).
Proof.
  intros N N' W. destruct (last_line a) as [r [x [Nx [Hr ->]]]]. destruct (first_line b) as [y [z [Ny [Hz ->]]]].
  destruct (prows_middle r [] z Hr (fun H => H) Hz) as [A [B K]].
  assert (forall u, ~ In 10 u -> prows ((r ++ x) ++ u ++ y ++ z) = A ++ line_row (x ++ u ++ y) ++ B) as G.
  { intros u Nu. rewrite <- (K (x ++ u ++ y)).
    - rewrite !app_assoc. reflexivity.
    - rewrite !in_app_iff. tauto. }
  rewrite !G by auto. rewrite (line_row_eq _ _ (W x y)). reflexivity.
Qed.
Lemma prows_nil : prows [] = [].
Proof. reflexivity. Qed.
Lemma layout_prows t t' : layout_step t t' -> prows t = prows t'.
Proof.
  intros H. destruct H as [a l b Ha I N|a s s' b [Hs Ns] [Hs' Ns'] E E'|a s b Ha [Hs Ns]|a s b Hb [Hs Ns]|a].
  - assert (L : prows (l ++ 10 :: b) = prows b).
    { rewrite prows_cut, prows_line, line_row_ignored by auto. reflexivity. }
    destruct Ha as [->|[a' ->]]; [symmetry; exact L|].
    rewrite <- !app_assoc. cbn [app]. rewrite (prows_cut a' b), (prows_cut a' (l ++ 10 :: b)), L. reflexivity.
  - apply prows_same_line; auto. intros x y. unfold split_whitespace. rewrite !words_cut by auto. reflexivity.
  - destruct (first_line b) as [y [z [Ny [Hz ->]]]].
    destruct (prows_middle a [] z Ha (fun H => H) Hz) as [A [B K]].
    rewrite K by auto. rewrite (app_assoc s), K by (rewrite in_app_iff; tauto).
    do 2 f_equal. apply line_row_eq. symmetry. apply words_lead; auto.
  - destruct (last_line a) as [r [x [Nx [Hr ->]]]].
    destruct (prows_middle r [] b Hr (fun H => H) Hb) as [A [B K]].
    rewrite <- !app_assoc. rewrite K by auto. rewrite (app_assoc x), K by (rewrite in_app_iff; tauto).
    do 2 f_equal. apply line_row_eq. symmetry. apply words_trail; auto.
  - rewrite prows_cut, prows_nil, app_nil_r. reflexivity.
Qed.
Lemma same_layout_rows t t' : same_layout t t' -> rows_of t = rows_of t'.
Proof.
  intros H. unfold rows_of, lines. rewrite !rows_pieces. change (prows t = prows t').
  induction H as [x y H|x|x y H IH|x y z H1 IH1 H2 IH2]; [apply layout_prows; auto|reflexivity|auto|congruence].
Qed.
