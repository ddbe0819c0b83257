(* Printing: the text of a mesh denotes the mesh. *)
From Coq Require Import String Ascii List Arith NArith ZArith Bool Lia.
From Verif Require Import Base BaseFacts Kind MeshModel TextModel TextSpec TextProof TextProof2 TextProof3.
Import ListNotations.
Open Scope N_scope.

Definition join : list text -> text :=
  fix go (ws : list text) : text := match ws with [] => [] | [w] => w | w :: r => w ++ [sp] ++ go r end.
Lemma line_of_join ws : line_of ws = join ws ++ [10].
Proof. reflexivity. Qed.
Lemma join_spells ws : Forall is_word ws -> spells ws (join ws).
Proof.
  induction 1 as [|w ws W F IH]; [apply spells_end; constructor|]. destruct ws as [|v ws].
  - cbn [join]. rewrite <- (app_nil_r w) at 2. change (w ++ []) with ([] ++ w ++ []) . apply spells_word; [constructor|auto|left; reflexivity|].
    apply spells_end. constructor.
  - change (join (w :: v :: ws)) with ([] ++ w ++ sp :: join (v :: ws)). 
    assert (S : white sp) by (apply space_white; reflexivity).
    apply spells_word; [constructor|auto|right; exists sp, (join (v :: ws)); split; [reflexivity|exact S]|].
    change (sp :: join (v :: ws)) with ([sp] ++ join (v :: ws)). apply spells_lead; [constructor; [exact S|constructor]|exact IH].
Qed.
Lemma word_no_nl w : is_word w -> ~ In 10 w.
Proof. intros [_ F] H. rewrite Forall_forall in F. apply (F _ H). right; left; reflexivity. Qed.
Lemma join_no_nl ws : Forall is_word ws -> ~ In 10 (join ws).
Proof.
  induction 1 as [|w ws W F IH]; [intros []|]. apply word_no_nl in W. destruct ws as [|v ws]; [exact W|].
  change (join (w :: v :: ws)) with (w ++ [sp] ++ join (v :: ws)). rewrite !in_app_iff. intros [H|[[H|[]]|H]]; auto. discriminate.
Qed.
Lemma prows_row w ws rest : Forall is_word (w :: ws) -> (forall r, w <> 35 :: r) -> prows (line_of (w :: ws) ++ rest) = (w :: ws) :: prows rest.
Proof.
  intros F H. rewrite line_of_join, <- app_assoc. cbn [app]. rewrite prows_cut, prows_line by (apply join_no_nl; auto).
  rewrite (line_row_spells w ws) by (auto; apply join_spells; auto). reflexivity.
Qed.
Lemma prows_rows {A} (g : A -> list text) (xs : list A) rest :
  Forall (fun a => exists w ws, g a = w :: ws /\ Forall is_word (w :: ws) /\ (forall r, w <> 35 :: r)) xs ->
  prows (flat_map (fun a => line_of (g a)) xs ++ rest) = map g xs ++ prows rest.
Proof.
  induction 1 as [|a xs [w [ws [E [F N]]]] H IH]; [reflexivity|]. cbn [flat_map map app]. rewrite <- app_assoc, E, prows_row by auto.
  rewrite IH. reflexivity.
Qed.
Lemma prows_blank rest : prows ([nl] ++ rest) = prows rest.
Proof. change ([nl] ++ rest) with ([] ++ 10 :: rest). rewrite prows_cut. reflexivity. Qed.
Lemma prows_comment s rest : prows (txt s) = [] -> prows (txt s ++ [nl] ++ rest) = prows rest.
Proof. intros H. change ([nl] ++ rest) with (10 :: rest). rewrite prows_cut, H. reflexivity. Qed.
Lemma reads_prows t rows : prows t = rows -> reads t rows.
Proof. intros <-. apply reads_iff. unfold prows, rows_of, lines. rewrite rows_pieces. reflexivity. Qed.

Definition medge_words (e : Z * nat * nat) : list text := let '(mk, p1, p2) := e in [fmt_i32 mk; fmt_nat p1; fmt_nat p2].
Definition mface_words (e : Z * nat * nat * nat * option nat) : list text :=
  let '(mk, p1, p2, p3, p4) := e in
  match p4 with
  | None => [fmt_i32 mk; fmt_nat p1; fmt_nat p2; fmt_nat p3]
  | Some q => [fmt_i32 mk; fmt_nat p1; fmt_nat p2; fmt_nat p3; fmt_nat q]
  end.
Definition cell_words (c : cell) : list text :=
  fmt_nat (c_id c) :: fmt_i32 (c_marker c) :: txt (kind_to_string (c_kind c)) :: map fmt_nat (c_points c).

Section Print.
Context {T : Type}.
Variables (zero : T) (fmt_f : T -> text) (parse_f : text -> option T).
Definition point_words (p : point T) : list text := fmt_nat (pt_id p) :: fmt_i32 (pt_marker p) :: map fmt_f (pt_coords p).

Lemma print_points nd ps : (nd = 2 \/ nd = 3)%nat -> Forall (fun p => List.length (pt_coords p) = nd) ps -> forall acc,
  foldM (fun (acc : text) p => let! l := fmt_point fmt_f nd p in Ok (acc ++ l)) ps acc = Ok (acc ++ flat_map (fun p => line_of (point_words p)) ps).
Proof.
  intros D F. induction F as [|p ps L F IH]; intros acc; [cbn; rewrite app_nil_r; reflexivity|]. cbn [foldM flat_map].
  assert (E : fmt_point fmt_f nd p = Ok (line_of (point_words p))).
  { unfold fmt_point, point_words. destruct p as [i mk cs]. cbn [pt_id pt_marker pt_coords] in *.
    destruct D as [-> | ->].
    - destruct cs as [|x [|y [|? ?]]]; try discriminate. reflexivity.
    - destruct cs as [|x [|y [|z [|? ?]]]]; try discriminate. reflexivity. }
  rewrite E. cbn [bind]. rewrite IH, app_assoc. reflexivity.
Qed.

Variable m : mesh T.
Hypothesis PR : printable fmt_f parse_f m.
Definition sizes_words : list text := map fmt_nat [ndim m; List.length (points m); List.length (cells m); List.length (marked_edges m); List.length (marked_faces m)].
Definition mesh_words : list (list text) :=
  sizes_words :: map point_words (points m) ++ map cell_words (cells m) ++ map medge_words (marked_edges m) ++ map mface_words (marked_faces m).

Lemma coords_len : Forall (fun p => List.length (pt_coords p) = ndim m) (points m).
Proof. apply Forall_forall. intros p H. apply In_nth_error in H. destruct H as [i H]. apply (pr_point _ _ _ PR) in H. tauto. Qed.
Lemma nats_words ns : Forall is_word (map fmt_nat ns).
Proof. apply Forall_forall. intros w H. apply in_map_iff in H. destruct H as [n [<- _]]. apply fmt_nat_word. Qed.
Theorem to_text_reads : exists t, to_text fmt_f m = Ok t /\ reads t mesh_words.
Proof.
  unfold to_text. rewrite (print_points _ _ (pr_ndim _ _ _ PR) coords_len). cbn [bind]. rewrite (app_nil_l (flat_map _ (points m))). eexists. split; [reflexivity|].
  apply reads_prows.
  change (flat_map fmt_cell (cells m)) with (flat_map (fun c => line_of (cell_words c)) (cells m)).
  rewrite (prows_comment "# header") by reflexivity.
  rewrite (prows_comment "# ndim npoint ncell nmarked_edge nmarked_face") by reflexivity.
  unfold mesh_words. change (line_of (map fmt_nat ?l)) with (line_of sizes_words).
  change (map fmt_nat [ndim m; List.length (points m); List.length (cells m); List.length (marked_edges m); List.length (marked_faces m)]) with sizes_words.
  unfold sizes_words. cbn [map]. rewrite prows_row; [|apply (nats_words [_; _; _; _; _])|apply fmt_nat_nohash].
  f_equal. rewrite prows_blank. rewrite (prows_comment "# points"), (prows_comment "# id marker x y {z}") by reflexivity.
  rewrite prows_rows.
  2:{ apply Forall_forall. intros p H. apply In_nth_error in H. destruct H as [i H]. apply (pr_point _ _ _ PR) in H.
      do 2 eexists. split; [reflexivity|]. split; [|apply fmt_nat_nohash]. constructor; [apply fmt_nat_word|]. constructor; [apply fmt_i32_word|].
      destruct H as [_ [_ [_ F]]]. apply Forall_forall. intros w W. apply in_map_iff in W. destruct W as [x [<- X]].
      rewrite Forall_forall in F. apply F in X. tauto. }
  f_equal. rewrite prows_blank. rewrite (prows_comment "# cells"), (prows_comment "# id marker kind points") by reflexivity.
  rewrite prows_rows.
  2:{ apply Forall_forall. intros c _. do 2 eexists. split; [reflexivity|]. split; [|apply fmt_nat_nohash].
      constructor; [apply fmt_nat_word|]. constructor; [apply fmt_i32_word|]. constructor; [apply kind_word|]. apply nats_words. }
  f_equal.
  match goal with |- prows ((if _ then ?a else _) ++ _) = _ => assert (E : forall b, prows ((if (0 <? List.length (marked_edges m))%nat then a else []) ++ b) = map medge_words (marked_edges m) ++ prows b) end.
  { intros b. destruct (Nat.ltb_spec 0 (List.length (marked_edges m))) as [L|L].
    - rewrite <- (app_assoc [nl]), prows_blank. rewrite <- (app_assoc (txt "# marked edges")), <- (app_assoc [nl]), (prows_comment "# marked edges") by reflexivity.
      rewrite <- (app_assoc (txt "# marker p1 p2")), <- (app_assoc [nl]), (prows_comment "# marker p1 p2") by reflexivity.
      transitivity (prows (flat_map (fun e => line_of (medge_words e)) (marked_edges m) ++ b)).
      + f_equal. f_equal. clear. induction (marked_edges m) as [|[[mk p] q] l IH]; [reflexivity|]. cbn [flat_map]. rewrite IH. reflexivity.
      + apply prows_rows. apply Forall_forall. intros [[mk p] q] _. do 2 eexists. split; [reflexivity|]. split; [|apply fmt_i32_nohash].
        repeat (constructor; [apply fmt_i32_word || apply fmt_nat_word|]). constructor.
    - destruct (marked_edges m); [reflexivity|cbn in L; lia]. }
  rewrite E. f_equal. clear E.
  destruct (Nat.ltb_spec 0 (List.length (marked_faces m))) as [L|L].
  - rewrite prows_blank, (prows_comment "# marked faces"), (prows_comment "# marker p1 p2 p3 {p4}") by reflexivity.
    transitivity (prows (flat_map (fun e => line_of (mface_words e)) (marked_faces m) ++ [])).
    + f_equal. rewrite app_nil_r. clear. induction (marked_faces m) as [|[[[[mk p] q] r] o] l IH]; [reflexivity|]. cbn [flat_map]. rewrite IH. destruct o; reflexivity.
    + rewrite prows_rows; [apply app_nil_r|]. apply Forall_forall. intros [[[[mk p] q] r] o] _. destruct o.
      all: do 2 eexists; (split; [reflexivity|]); (split; [|apply fmt_i32_nohash]).
      all: repeat (constructor; [apply fmt_i32_word || apply fmt_nat_word|]); constructor.
  - destruct (marked_faces m); [reflexivity|cbn in L; lia].
Qed.

Lemma forall2_map {A B} (R : B -> A -> Prop) (g : A -> B) xs : Forall (fun a => R (g a) a) xs -> Forall2 R (map g xs) xs.
Proof. induction 1; constructor; auto. Qed.
Lemma nth_ids {A} (id : A -> nat) xs : (forall i a, nth_error xs i = Some a -> id a = i) -> map id xs = seq 0 (List.length xs).
Proof.
  assert (G : forall k, (forall i a, nth_error xs i = Some a -> id a = (k + i)%nat) -> map id xs = seq k (List.length xs)).
  { induction xs as [|a xs IH]; intros k H; [reflexivity|]. cbn [map List.length seq]. f_equal.
    - rewrite (H 0%nat a eq_refl). lia.
    - apply IH. intros i b E. rewrite (H (S i) b E). lia. }
  intros H. apply G. exact H.
Qed.
Theorem mesh_words_denote : denotes zero parse_f mesh_words m.
Proof.
  pose proof (pr_sizes _ _ _ PR) as Z. unfold mesh_words, denotes.
  exists sizes_words, (map point_words (points m)), (map cell_words (cells m)), (map medge_words (marked_edges m)), (map mface_words (marked_faces m)), [].
  split; [rewrite app_nil_r; reflexivity|].
  split.
  { inversion Z as [|? ? Z1 Z']; subst. inversion Z' as [|? ? Z2 Z'']; subst. inversion Z'' as [|? ? Z3 Z3']; subst. inversion Z3' as [|? ? Z4 _]; subst.
    do 6 eexists. split; [reflexivity|]. split; [|auto 8 using fmt_nat_numeral].
    apply fmt_nat_numeral. destruct (pr_ndim _ _ _ PR) as [-> | ->]; reflexivity. }
  split.
  { apply forall2_map, Forall_forall. intros p H. apply In_nth_error in H. destruct H as [i H]. apply (pr_point _ _ _ PR) in H as H'.
    destruct H' as [Hid [Hmk [Hl Hc]]]. do 3 eexists. split; [reflexivity|]. split.
    { apply fmt_nat_numeral. rewrite Hid. assert (i < List.length (points m))%nat by (apply nth_error_Some; congruence).
      inversion Z; subst. lia. }
    split; [apply fmt_i32_numeral; auto|]. destruct (pr_ndim _ _ _ PR) as [D|D]; rewrite D in *.
    - right. destruct (pt_coords p) as [|x [|y [|? ?]]]; try discriminate.
      inversion Hc as [|? ? [X _] Hc']; subst. inversion Hc' as [|? ? [Y _] _]; subst.
      split; [discriminate|]. split; [lia|]. do 4 eexists. split; [reflexivity|]. split; [exact X|]. split; [exact Y|]. reflexivity.
    - left. destruct (pt_coords p) as [|x [|y [|z [|? ?]]]]; try discriminate.
      inversion Hc as [|? ? [X _] Hc']; subst. inversion Hc' as [|? ? [Y _] Hc'']; subst. inversion Hc'' as [|? ? [W _] _]; subst.
      split; [reflexivity|]. do 6 eexists. split; [reflexivity|]. split; [exact X|]. split; [exact Y|]. split; [exact W|]. reflexivity. }
  split. { apply nth_ids. intros i p H. apply (pr_point _ _ _ PR) in H. tauto. }
  split.
  { apply forall2_map, Forall_forall. intros c H. apply In_nth_error in H. destruct H as [i H]. apply (pr_cell _ _ _ PR) in H as H'.
    destruct H' as [Hid [Hmk [Hl Hc]]]. do 3 eexists. split; [reflexivity|]. split.
    { apply fmt_nat_numeral. rewrite Hid. assert (i < List.length (cells m))%nat by (apply nth_error_Some; congruence).
      inversion Z as [|? ? Z1 Z']; subst. inversion Z'; subst. lia. }
    split; [apply fmt_i32_numeral; auto|]. split; [rewrite map_length; auto|]. apply forall2_map. eapply Forall_impl; [|exact Hc].
    intros q Q. apply fmt_nat_numeral. exact Q. }
  split. { apply nth_ids. intros i p H. apply (pr_cell _ _ _ PR) in H. tauto. }
  split.
  { apply forall2_map, Forall_forall. intros [[mk p] q] H. apply (pr_medge _ _ _ PR) in H. destruct H as [A [B C]].
    do 3 eexists. split; [reflexivity|]. split; [apply fmt_i32_numeral; auto|]. split; apply fmt_nat_numeral; auto. }
  split.
  { apply forall2_map, Forall_forall. intros [[[[mk p] q] r] o] H. apply (pr_mface _ _ _ PR) in H. destruct H as [A [B [C [D E]]]].
    unfold mface_row, mface_words. destruct o as [s|].
    - do 5 eexists. split; [reflexivity|]. split; [apply fmt_i32_numeral; auto|]. split; [apply fmt_nat_numeral; auto|].
      split; [apply fmt_nat_numeral; auto|]. split; [apply fmt_nat_numeral; auto|]. right. do 2 eexists. split; [reflexivity|].
      specialize (E s eq_refl). change (2 ^ 64 - 1) with 18446744073709551615 in E. split; [apply fmt_nat_numeral; change (2 ^ 64) with 18446744073709551616; lia|].
      change (2 ^ 64 - 1) with 18446744073709551615. lia.
    - do 5 eexists. split; [reflexivity|]. split; [apply fmt_i32_numeral; auto|]. split; [apply fmt_nat_numeral; auto|].
      split; [apply fmt_nat_numeral; auto|]. split; [apply fmt_nat_numeral; auto|]. left. auto. }
  split; [intros H; elim (pr_points _ _ _ PR H)|intros H; elim (pr_cells _ _ _ PR H)].
Qed.
Theorem round_trip : exists t, to_text fmt_f m = Ok t /\ from_text zero parse_f t = Ok m.
Proof.
  destruct to_text_reads as [t [E R]]. exists t. split; [exact E|]. apply (from_text_iff zero parse_f t _ m R), mesh_words_denote.
Qed.
Theorem file_round_trip : exists t, write_file fmt_f m = Ok t /\ read_file zero parse_f t = Ok m.
Proof.
  destruct to_text_reads as [t [E R]]. exists t. split.
  - unfold write_file. pose proof (pr_cells _ _ _ PR) as C. destruct (cells m); [congruence|]. exact E.
  - apply (read_file_iff zero parse_f t _ m R), mesh_words_denote.
Qed.
End Print.

(* what a parsed mesh looks like *)
Section Parsed.
Context {T : Type}.
Variables (zero : T) (parse_f : text -> option T).
Lemma forall2_right {A B} (R : A -> B -> Prop) l xs : Forall2 R l xs -> Forall (fun b => exists a, In a l /\ R a b) xs.
Proof. 
  induction 1 as [|a b l xs H F IH]; constructor; [exists a; cbn; auto|].
  eapply Forall_impl; [|exact IH]. intros c [d [D1 D2]]. exists d. cbn. auto.
Qed.
Lemma forall2_len {A B} (R : A -> B -> Prop) l xs : Forall2 R l xs -> List.length l = List.length xs.
Proof. induction 1; cbn; congruence. Qed.
Lemma forall2_bound ws ps : Forall2 usize_numeral ws ps -> Forall (fun q => N.of_nat q < 2 ^ 64) ps.
Proof. induction 1 as [|? ? ? ? [_ H]]; constructor; auto. Qed.
Lemma map_ids_nth {A} (id : A -> nat) xs i a : map id xs = seq 0 (List.length xs) -> nth_error xs i = Some a -> id a = i.
Proof.
  intros H E. assert (L : (i < List.length xs)%nat) by (apply nth_error_Some; congruence).
  assert (K : nth_error (map id xs) i = Some (id a)) by (apply map_nth_error; auto). rewrite H in K.
  apply (nth_error_nth _ _ 0%nat) in K. rewrite seq_nth in K by auto. lia.
Qed.
Theorem denotes_valid rows (m : mesh T) : denotes zero parse_f rows m ->
  Forall (fun n => N.of_nat n < 2 ^ 64) [ndim m; List.length (points m); List.length (cells m); List.length (marked_edges m); List.length (marked_faces m)] /\
  (forall i p, nth_error (points m) i = Some p ->
     pt_id p = i /\ (-(2 ^ 31) <= pt_marker p < 2 ^ 31)%Z /\ List.length (pt_coords p) = ndim m) /\
  (forall i c, nth_error (cells m) i = Some c ->
     c_id c = i /\ (-(2 ^ 31) <= c_marker c < 2 ^ 31)%Z /\ List.length (c_points c) = kind_nnode (c_kind c) /\ Forall (fun q => N.of_nat q < 2 ^ 64) (c_points c)) /\
  (forall mk p q, In (mk, p, q) (marked_edges m) -> (-(2 ^ 31) <= mk < 2 ^ 31)%Z /\ N.of_nat p < 2 ^ 64 /\ N.of_nat q < 2 ^ 64) /\
  (forall mk p q r o, In (mk, p, q, r, o) (marked_faces m) ->
    (-(2 ^ 31) <= mk < 2 ^ 31)%Z /\ N.of_nat p < 2 ^ 64 /\ N.of_nat q < 2 ^ 64 /\ N.of_nat r < 2 ^ 64 /\
    forall s, o = Some s -> N.of_nat s < 2 ^ 64 - 1).
Proof.
  intros [hdr [P [C [E [F [rest [_ [HS [FP [SP [FC [SC [FE [FF _]]]]]]]]]]]]]]. split; [|split; [|split; [|split]]].
  - destruct HS as [a [b [c [d [e [x [_ [[_ A] [[_ B] [[_ C'] [[_ D] [_ E']]]]]]]]]]]]. repeat (constructor; [assumption|]). constructor.
  - intros i p H. split; [eapply map_ids_nth; eauto|]. apply nth_error_In in H. apply forall2_right in FP. rewrite Forall_forall in FP.
    destruct (FP _ H) as [row [_ [a [b [ws [_ [_ [[_ M] K]]]]]]]]. split; [exact M|].
    destruct K as [[-> [? [? [? [? [? [? [_ [_ [_ [_ ->]]]]]]]]]]]|[N [L [? [? [? [? [_ [_ [_ ->]]]]]]]]]]; [reflexivity|].
    cbn [List.length]. rewrite repeat_length. lia.
  - intros i c H. split; [eapply map_ids_nth; eauto|]. apply nth_error_In in H. apply forall2_right in FC. rewrite Forall_forall in FC.
    destruct (FC _ H) as [row [_ [a [b [ws [_ [_ [[_ M] [L K]]]]]]]]]. split; [exact M|]. split; [|eapply forall2_bound; eauto].
    rewrite <- L. symmetry. eapply forall2_len; eauto.
  - intros mk p q H. apply forall2_right in FE. rewrite Forall_forall in FE. destruct (FE _ H) as [row [_ [a [b [c [_ [[_ A] [[_ B] [_ C']]]]]]]]].
    cbn [fst snd] in *. auto.
  - intros mk p q r o H. apply forall2_right in FF. rewrite Forall_forall in FF.
    destruct (FF _ H) as [row [_ [a [b [c [d [ws [_ [[_ A] [[_ B] [[_ C'] [[_ D] K]]]]]]]]]]]]. repeat (split; [assumption|]).
    intros s ->. destruct K as [[_ K]|[f [x [_ [[_ K] K']]]]]; [discriminate|].
    change (2 ^ 64) with 18446744073709551616 in *. change (18446744073709551616 - 1) with 18446744073709551615 in *. lia.
Qed.
Theorem parsed_printable fmt_f t (m : mesh T) : from_text zero parse_f t = Ok m ->
  (ndim m = 2 \/ ndim m = 3)%nat -> points m <> [] -> cells m <> [] ->
  (forall p x, In p (points m) -> In x (pt_coords p) -> parse_f (fmt_f x) = Some x /\ is_word (fmt_f x)) -> printable fmt_f parse_f m.
Proof.
  intros H D P C X. destruct (reads_total t) as [rows R]. apply (from_text_iff zero parse_f t rows m R) in H.
  destruct (denotes_valid _ _ H) as [V1 [V2 [V3 [V4 V5]]]]. constructor; auto.
  - inversion V1; auto.
  - intros i p E. destruct (V2 i p E) as [A [B L]]. repeat (split; [assumption|]). apply Forall_forall. intros x I. apply (X p x); auto. eapply nth_error_In; eauto.
Qed.
End Parsed.
