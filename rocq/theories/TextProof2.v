(* Numerals and rows: the parse functions recognise exactly the rows of the grammar. *)
From Coq Require Import String Ascii List Arith NArith ZArith Bool Lia.
From Verif Require Import Base BaseFacts Kind MeshModel TextModel TextSpec TextProof.
Import ListNotations.
Open Scope N_scope.

(* ---- numerals ---- *)
Lemma parse_digits_snoc t c acc : parse_digits acc (t ++ [c]) =
  match parse_digits acc t with Some n => if (48 <=? c) && (c <=? 57) then Some (n * 10 + (c - 48)) else None | None => None end.
Proof.
  revert acc. induction t as [|d t IH]; intros acc; cbn [app parse_digits]; [reflexivity|].
  destruct ((48 <=? d) && (d <=? 57)); [apply IH|reflexivity].
Qed.
Lemma decimal_parse t n : decimal t n -> t <> [] /\ parse_digits 0 t = Some n.
Proof.
  induction 1 as [d H|t n d H [N IH] Hd].
  - split; [discriminate|]. cbn [parse_digits]. replace (48 <=? 48 + d) with true by (symmetry; apply N.leb_le; lia).
    replace (48 + d <=? 57) with true by (symmetry; apply N.leb_le; lia). cbn [andb]. f_equal. lia.
  - split; [destruct t; discriminate|]. rewrite parse_digits_snoc, IH.
    replace (48 <=? 48 + d) with true by (symmetry; apply N.leb_le; lia).
    replace (48 + d <=? 57) with true by (symmetry; apply N.leb_le; lia). cbn [andb]. f_equal. lia.
Qed.
Lemma parse_decimal t : forall n, t <> [] -> parse_digits 0 t = Some n -> decimal t n.
Proof.
  induction t as [|c t IH] using rev_ind; intros n N H; [congruence|].
  rewrite parse_digits_snoc in H. destruct (parse_digits 0 t) as [k|] eqn:E; [|discriminate].
  destruct (48 <=? c) eqn:A; [|discriminate]. destruct (c <=? 57) eqn:B; [|discriminate]. cbn [andb] in H.
  apply N.leb_le in A. apply N.leb_le in B. injection H as <-.
  replace c with (48 + (c - 48)) at 1 by lia. destruct t as [|d t].
  - cbn in E. injection E as <-. change (0 * 10 + (c - 48)) with (c - 48). apply dec_one. lia.
  - replace (k * 10 + (c - 48)) with (10 * k + (c - 48)) by lia. apply dec_snoc; [apply IH; [discriminate|auto]|lia].
Qed.
Lemma parse_unsigned_iff t n : parse_unsigned t = Some n <-> decimal t n.
Proof.
  unfold parse_unsigned. split.
  - destruct t; [discriminate|]. intros H. apply parse_decimal; [discriminate|auto].
  - intros H. destruct (decimal_parse _ _ H) as [N E]. destruct t; [congruence|auto].
Qed.
Lemma decimal_digits t n : decimal t n -> Forall (fun c => 48 <= c <= 57) t.
Proof. induction 1; [constructor; [lia|constructor]|]. apply Forall_app. split; auto. constructor; [lia|constructor]. Qed.
Lemma decimal_hd c r n : decimal (c :: r) n -> 48 <= c <= 57.
Proof. intros H. apply decimal_digits in H. inversion H; auto. Qed.
Lemma decimal_cons t n : decimal t n -> exists c r, t = c :: r /\ 48 <= c <= 57.
Proof. intros H. destruct (decimal_parse _ _ H) as [N _]. destruct t as [|c r]; [congruence|]. exists c, r. split; auto. eapply decimal_hd; eauto. Qed.
Lemma parse_usize_iff t n : parse_usize t = Some n <-> unsigned64 t n.
Proof.
  unfold parse_usize, unsigned64, USIZE_MAX. change (2 ^ 64) with 18446744073709551616.
  set (ds := match t with [] => [] | c :: r => if c =? plus_sign then r else t end).
  assert (K : forall k, decimal ds k <-> (decimal t k \/ exists r, t = 43 :: r /\ decimal r k)).
  { intros k. unfold ds. destruct t as [|c r].
    - split; [auto|]. intros [H|[r [H _]]]; [auto|discriminate].
    - unfold plus_sign. destruct (N.eqb_spec c 43) as [->|Nc].
      + split; [eauto|]. intros [H|[r' [H H']]]; [apply decimal_hd in H; lia|congruence].
      + split; [auto|]. intros [H|[r' [H H']]]; [auto|congruence]. }
  rewrite <- K. rewrite <- parse_unsigned_iff. destruct (parse_unsigned ds) as [k|].
  - destruct (N.leb_spec k 18446744073709551615); split; intros H'.
    + injection H' as <-. split; [auto|lia].
    + destruct H' as [H1 _]. exact H1.
    + discriminate.
    + destruct H' as [H1 H2]. injection H1 as <-. lia.
  - split; [discriminate|]. intros [H _]. discriminate.
Qed.
Lemma usize_tok_iff t n : usize_tok t = Some n <-> usize_numeral t n.
Proof.
  unfold usize_tok, to_nat_opt, usize_numeral. rewrite <- parse_usize_iff. destruct (parse_usize t) as [k|]; cbn [option_map].
  - split; intros H; injection H; intros E; [rewrite <- E, N2Nat.id; reflexivity|rewrite E, Nat2N.id; reflexivity].
  - split; discriminate.
Qed.
Lemma parse_i32_iff t z : parse_i32 t = Some z <-> i32_numeral t z.
Proof.
  unfold parse_i32, i32_numeral. change (2 ^ 31)%Z with 2147483648%Z.
  set (v := match t with [] => None | c :: r => if c =? plus_sign then _ else _ end).
  assert (K : forall k, v = Some k <-> exists n, k = Z.of_N n /\ (decimal t n \/ exists r, t = 43 :: r /\ decimal r n) \/
             k = (- Z.of_N n)%Z /\ exists r, t = 45 :: r /\ decimal r n).
  { intros k. unfold v. destruct t as [|c r].
    - split; [discriminate|]. intros [n [[_ [H|[r [H _]]]]|[_ [r [H _]]]]]; try discriminate.
      apply decimal_cons in H. destruct H as [? [? [H _]]]. discriminate.
    - unfold plus_sign, minus_sign. destruct (N.eqb_spec c 43) as [->|Nc]; [|destruct (N.eqb_spec c 45) as [->|Nm]].
      + split.
        * destruct (parse_unsigned r) as [n|] eqn:E; [|discriminate]. apply parse_unsigned_iff in E. cbn [option_map].
          intros H. injection H as <-. exists n. left. split; eauto.
        * intros [n [[-> [H|[r' [H H']]]]|[-> [r' [H H']]]]]; [apply decimal_hd in H; lia| |discriminate].
          injection H as ->. apply parse_unsigned_iff in H'. rewrite H'. reflexivity.
      + split.
        * destruct (parse_unsigned r) as [n|] eqn:E; [|discriminate]. apply parse_unsigned_iff in E. cbn [option_map].
          intros H. injection H as <-. exists n. right. split; eauto.
        * intros [n [[-> [H|[r' [H H']]]]|[-> [r' [H H']]]]]; [apply decimal_hd in H; lia|discriminate|].
          injection H as ->. apply parse_unsigned_iff in H'. rewrite H'. reflexivity.
      + split.
        * destruct (parse_unsigned (c :: r)) as [n|] eqn:E; [|discriminate]. apply parse_unsigned_iff in E. cbn [option_map].
          intros H. injection H as <-. exists n. left. split; eauto.
        * intros [n [[-> [H|[r' [H H']]]]|[-> [r' [H H']]]]]; [|congruence|congruence].
          apply parse_unsigned_iff in H. rewrite H. reflexivity. }
  rewrite <- K. destruct v as [k|].
  - destruct (Z.leb_spec (-2147483648) k), (Z.leb_spec k 2147483647); cbn [andb]; split; intros H';
      try discriminate; try (destruct H' as [H1 H2]; injection H1 as <-; reflexivity || lia).
    injection H' as <-. split; [reflexivity|lia].
  - split; [discriminate|]. intros [H _]. discriminate.
Qed.

(* printing of numerals *)
Lemma digits_acc f n acc : digits f n acc = digits f n [] ++ acc.
Proof.
  revert n acc. induction f as [|f IH]; intros n acc; cbn [digits]; [reflexivity|].
  destruct (n / 10 =? 0); [reflexivity|]. rewrite IH, (IH _ [_]), <- app_assoc. reflexivity.
Qed.
Lemma digits_decimal f : forall n, (0 < f)%nat -> n < 2 ^ N.of_nat f -> decimal (digits f n []) n.
Proof.
  induction f as [|f IH]; intros n F H; [lia|]. cbn [digits].
  assert (M : n mod 10 < 10) by (apply N.mod_lt; lia).
  assert (D : n = 10 * (n / 10) + n mod 10) by (apply N.div_mod; lia).
  destruct (N.eqb_spec (n / 10) 0) as [E|E].
  - rewrite D at 2. rewrite E. change (10 * 0 + n mod 10) with (n mod 10). apply dec_one; auto.
  - rewrite digits_acc. rewrite D at 3. apply dec_snoc; auto.
    rewrite Nat2N.inj_succ, N.pow_succ_r' in H.
    assert (n / 10 < 2 ^ N.of_nat f) by (apply N.div_lt_upper_bound; lia).
    destruct f as [|f]; [change (2 ^ N.of_nat 0) with 1 in *; lia|]. apply IH; [lia|auto].
Qed.
Lemma fmt_usize_decimal n : decimal (fmt_usize n) n.
Proof.
  unfold fmt_usize. apply digits_decimal; [lia|].
  assert (S : n < 2 ^ N.of_nat (N.size_nat n)).
  { destruct n as [|p]; [reflexivity|]. replace (N.of_nat (N.size_nat (N.pos p))) with (N.size (N.pos p)); [apply N.size_gt|].
    cbn [N.size N.size_nat]. induction p as [p IH|p IH|]; cbn [Pos.size Pos.size_nat]; [| |reflexivity];
      rewrite Nat2N.inj_succ, <- IH; reflexivity. }
  rewrite Nat2N.inj_succ, N.pow_succ_r'. lia.
Qed.
Lemma fmt_nat_numeral n : N.of_nat n < 2 ^ 64 -> usize_numeral (fmt_nat n) n.
Proof. intros H. split; [left; apply fmt_usize_decimal|auto]. Qed.
Lemma fmt_i32_numeral z : (-(2 ^ 31) <= z < 2 ^ 31)%Z -> i32_numeral (fmt_i32 z) z.
Proof.
  intros H. split; [|auto]. unfold fmt_i32. destruct z as [|p|p].
  - exists 0. left. split; [reflexivity|]. left. apply fmt_usize_decimal.
  - exists (N.pos p). left. split; [reflexivity|]. left. apply fmt_usize_decimal.
  - exists (N.pos p). right. split; [reflexivity|]. exists (fmt_usize (N.pos p)). split; [reflexivity|]. apply fmt_usize_decimal.
Qed.
Lemma ascii_word t : t <> [] -> Forall (fun c => 33 <= c <= 127) t -> is_word t.
Proof.
  intros N H. split; auto. eapply Forall_impl; [|exact H]. intros c Hc W. unfold white in W. cbn [In] in W. cbv beta in Hc. clear H N. repeat (destruct W as [W|W]; [subst c; lia|]). destruct W.
Qed.
Lemma decimal_word t n : decimal t n -> is_word t.
Proof.
  intros H. apply ascii_word; [apply decimal_parse in H; tauto|].
  eapply Forall_impl; [|exact (decimal_digits _ _ H)]. intros c Hc; cbv beta in Hc; lia.
Qed.
Lemma fmt_nat_word n : is_word (fmt_nat n).
Proof. eapply decimal_word. apply fmt_usize_decimal. Qed.
Lemma fmt_i32_word z : is_word (fmt_i32 z).
Proof.
  unfold fmt_i32. destruct z; try (eapply decimal_word; apply fmt_usize_decimal).
  apply ascii_word; [discriminate|]. constructor; [unfold minus_sign; lia|].
  eapply Forall_impl; [|exact (decimal_digits _ _ (fmt_usize_decimal _))]. intros c Hc; cbv beta in Hc; lia.
Qed.
Lemma kind_word k : is_word (txt (kind_to_string k)).
Proof. apply ascii_word; destruct k; try discriminate; repeat (constructor; [cbv; split; discriminate|]); constructor. Qed.
Lemma fmt_nat_nohash n r : fmt_nat n <> 35 :: r.
Proof. intros E. pose proof (fmt_usize_decimal (N.of_nat n)) as D. change (decimal (fmt_nat n) (N.of_nat n)) in D. rewrite E in D. apply decimal_hd in D. lia. Qed.
Lemma fmt_i32_nohash z r : fmt_i32 z <> 35 :: r.
Proof.
  unfold fmt_i32. destruct z; try discriminate; intros E;
    match type of E with fmt_usize ?n = _ => pose proof (fmt_usize_decimal n) as D; rewrite E in D; apply decimal_hd in D; lia end.
Qed.

(* ---- kinds ---- *)
Lemma as_string_txt s : as_string (txt s) = Some s.
Proof.
  induction s as [|a s IH]; [reflexivity|]. change (txt (String a s)) with (N_of_ascii a :: txt s). cbn [as_string].
  replace (N_of_ascii a <? 256) with true by (symmetry; apply N.ltb_lt, N_ascii_bounded).
  rewrite IH. cbn [option_map]. rewrite ascii_N_embedding. reflexivity.
Qed.
Lemma as_string_inv t s : as_string t = Some s -> t = txt s.
Proof.
  revert s. induction t as [|c t IH]; intros s; cbn [as_string].
  - intros H. injection H as <-. reflexivity.
  - destruct (N.ltb_spec c 256) as [L|]; [|discriminate]. destruct (as_string t) as [s'|]; [|discriminate]. cbn [option_map].
    intros H. injection H as <-. change (txt (String (ascii_of_N c) s')) with (N_of_ascii (ascii_of_N c) :: txt s').
    rewrite N_ascii_embedding by auto. f_equal. apply IH; reflexivity.
Qed.
From Verif Require Import ShapesTables.
Lemma kind_of_token_iff t k : kind_of_token t = Ok k <-> t = txt (kind_to_string k).
Proof.
  unfold kind_of_token. split.
  - destruct (as_string t) as [s|] eqn:E; [|discriminate]. destruct (kind_from s) as [k'|] eqn:F; [|discriminate].
    intros H. injection H as <-. rewrite (as_string_inv _ _ E). f_equal. apply kind_from_inv; auto.
  - intros ->. rewrite as_string_txt, kind_from_to_string. reflexivity.
Qed.

(* ---- rows ---- *)
Lemma next_ok {A} data m1 (parse : text -> option A) m2 a rest :
  next data m1 parse m2 = Ok (a, rest) <-> exists v, data = v :: rest /\ parse v = Some a.
Proof.
  unfold next. split.
  - destruct data as [|v r]; [discriminate|]. unfold want. destruct (parse v) as [b|] eqn:E; [|discriminate].
    cbn [bind]. intros H. injection H as -> ->. eauto.
  - intros [v [-> E]]. rewrite E. reflexivity.
Qed.
Lemma want_ok {A} (o : option A) m a : want o m = Ok a <-> o = Some a.
Proof. unfold want. destruct o; split; congruence. Qed.
Lemma first_ok data v r : first_tok data = Ok (v, r) <-> data = v :: r.
Proof. unfold first_tok. destruct data; split; congruence. Qed.
Lemma no_more_ok data m u : no_more data m = Ok u <-> data = [].
Proof. unfold no_more. destruct data; [destruct u|]; split; congruence. Qed.
Lemma bind_iff {A B} (x : res A) (f : A -> res B) b : bind x f = Ok b <-> exists a, x = Ok a /\ f a = Ok b.
Proof. split; [apply bind_ok|]. intros [a [-> H]]. exact H. Qed.
Lemma pair_ex {A B} (P : A * B -> Prop) : (exists x, P x) <-> exists a b, P (a, b).
Proof. split; [intros [[a b] H]; eauto|intros [a [b H]]; eauto]. Qed.

Ltac step1 H := let a := fresh "a" in let E := fresh "E" in
  apply bind_ok in H; destruct H as [a [E H]];
  first [ (let v := fresh "v" in let r := fresh "r" in destruct a as [a r]; first
            [ apply next_ok in E; destruct E as [v [? E]]; subst
            | apply first_ok in E; subst ])
        | apply want_ok in E
        | apply no_more_ok in E; subst ].
Ltac toks := repeat match goal with
  | K : usize_tok _ = Some _ |- _ => apply usize_tok_iff in K
  | K : parse_i32 _ = Some _ |- _ => apply parse_i32_iff in K
  end.

Ltac run := repeat (progress (cbn [first_tok bind next want no_more negb]) || match goal with K : ?x = Some _ |- context [?x] => rewrite K end).

Lemma sizes_data_ok data s : sizes_data data = Ok s <->
  header_row data (s_ndim s) (s_npoint s) (s_ncell s) (s_medge s) (s_mface s).
Proof.
  unfold sizes_data, header_row. split.
  - intros H. repeat step1 H. injection H as <-. toks. cbn [s_ndim s_npoint s_ncell s_medge s_mface].
    do 6 eexists. split; [reflexivity|]. auto.
  - intros [a [b [c [d [e [x [-> [A [B [C [D E]]]]]]]]]]]. apply usize_tok_iff in A, B, C, D, E.
    run. destruct s. reflexivity.
Qed.

Lemma parse_ids_ok n : forall data ps rest, parse_ids n data = Ok (ps, rest) <->
  exists ws, data = ws ++ rest /\ List.length ws = n /\ Forall2 usize_numeral ws ps.
Proof.
  induction n as [|n IH]; intros data ps rest; cbn [parse_ids]; split.
  - intros H. injection H as <- <-. exists []. auto.
  - intros [ws [-> [L F]]]. destruct ws; [|discriminate]. inversion F. reflexivity.
  - intros H. step1 H. apply bind_ok in H. destruct H as [[qs rest'] [E' H]]. injection H as <- <-.
    apply IH in E'. destruct E' as [ws [-> [L F]]]. toks. exists (v :: ws). split; [reflexivity|]. split; [cbn; congruence|]. constructor; auto.
  - intros [ws [-> [L F]]]. destruct ws as [|w ws]; [discriminate|]. inversion F as [|? q ? qs W F']; subst.
    apply usize_tok_iff in W. cbn [app next]. rewrite W. cbn [want bind].
    assert (G : parse_ids n (ws ++ rest) = Ok (qs, rest)) by (apply IH; exists ws; auto).
    rewrite G. reflexivity.
Qed.
Lemma cell_data_ok cur data c : cell_data cur data = Ok c <-> cell_row data c /\ c_id c = cur.
Proof.
  unfold cell_data, cell_row. split.
  - intros H. step1 H. step1 H. destruct (Nat.eqb_spec a0 cur) as [->|]; cbn [negb] in H; [|discriminate].
    step1 H. step1 H. injection E1 as ->. apply bind_ok in H. destruct H as [k [K H]]. apply kind_of_token_iff in K. subst.
    apply bind_ok in H. destruct H as [[ps rest] [P H]]. apply parse_ids_ok in P. destruct P as [ws [-> [L F]]].
    step1 H. injection H as <-. toks. rewrite app_nil_r. cbn [c_id c_marker c_kind c_points]. split; [|reflexivity].
    do 3 eexists. split; [reflexivity|]. auto.
  - intros [[a [b [ws [-> [A [B [L F]]]]]]] I]. apply usize_tok_iff in A. apply parse_i32_iff in B.
    cbn [first_tok bind]. rewrite A. cbn [want bind]. rewrite I, Nat.eqb_refl. run.
    assert (K : kind_of_token (txt (kind_to_string (c_kind c))) = Ok (c_kind c)) by (apply kind_of_token_iff; reflexivity).
    rewrite K. cbn [bind]. assert (G : parse_ids (kind_nnode (c_kind c)) ws = Ok (c_points c, [])).
    { apply parse_ids_ok. exists ws. rewrite app_nil_r. auto. }
    rewrite G. cbn [bind no_more]. rewrite <- I. destruct c; reflexivity.
Qed.
Lemma marked_edge_ok data e : marked_edge_data data = Ok e <-> medge_row data e.
Proof.
  unfold marked_edge_data, medge_row. split.
  - intros H. do 5 step1 H. injection H as <-. toks. cbn [fst snd]. do 3 eexists. split; [reflexivity|]. auto.
  - intros [a [b [c [-> [A [B C]]]]]]. apply usize_tok_iff in B, C. apply parse_i32_iff in A.
    run. destruct e as [[? ?] ?]. reflexivity.
Qed.
Lemma fourth_ok t p4 : fourth t p4 <-> exists n, parse_usize t = Some n /\ p4_of n = p4.
Proof.
  unfold fourth, p4_of, usize_numeral, USIZE_MAX. change (2 ^ 64 - 1) with 18446744073709551615. destruct p4 as [q|].
  - rewrite <- parse_usize_iff. split.
    + intros [H N]. exists (N.of_nat q). split; auto. destruct (N.eqb_spec (N.of_nat q) 18446744073709551615); [congruence|]. rewrite Nat2N.id. reflexivity.
    + intros [n [H K]]. destruct (N.eqb_spec n 18446744073709551615); [discriminate|]. injection K as <-. rewrite N2Nat.id. auto.
  - rewrite <- parse_usize_iff. split.
    + intros H. eexists. split; [exact H|]. reflexivity.
    + intros [n [H K]]. destruct (N.eqb_spec n 18446744073709551615); [congruence|discriminate].
Qed.
Lemma marked_face_ok data e : marked_face_data data = Ok e <-> mface_row data e.
Proof.
  unfold marked_face_data, mface_row. destruct e as [[[[mk p1] p2] p3] p4]. split.
  - intros H. do 5 step1 H. apply bind_ok in H. destruct H as [q [Q H]]. injection H as -> -> -> -> ->. toks.
    do 5 eexists. split; [reflexivity|]. repeat (split; [assumption|]).
    match type of Q with match ?l with _ => _ end = _ => destruct l as [|w r] end; [left; injection Q as <-; auto|right]. apply bind_ok in Q. destruct Q as [n [W Q]]. apply want_ok in W.
    injection Q as <-. exists w, r. split; [reflexivity|]. apply fourth_ok. eauto.
  - intros [a [b [c [d [ws [-> [A [B [C [D F]]]]]]]]]]. apply usize_tok_iff in B, C, D. apply parse_i32_iff in A.
    run. destruct F as [[-> ->]|[f [x [-> F]]]]; [reflexivity|].
    apply fourth_ok in F. destruct F as [n [F <-]]. rewrite F. reflexivity.
Qed.

Section Coords.
Context {T : Type}.
Variables (zero : T) (parse_f : text -> option T).
Lemma repeat_set2 nd x y (c1 c2 : list T) : set (repeat zero nd) 0 x = Ok c1 -> set c1 1 y = Ok c2 ->
  (2 <= nd)%nat /\ c2 = x :: y :: repeat zero (nd - 2).
Proof.
  intros H1 H2. apply set_inv in H1. destruct H1 as [L1 ->]. apply set_inv in H2. destruct H2 as [L2 ->].
  rewrite upd_length, repeat_length in L2. destruct nd as [|[|nd]]; try lia. split; [lia|].
  cbn [Nat.sub]. rewrite Nat.sub_0_r. reflexivity.
Qed.
Lemma point_data_ok nd cur data p : point_data zero parse_f nd cur data = Ok p <-> point_row zero parse_f nd data p /\ pt_id p = cur.
Proof.
  unfold point_data, point_row, coord_words. split.
  - intros H. step1 H. step1 H. destruct (Nat.eqb_spec a0 cur) as [->|]; cbn [negb] in H; [|discriminate].
    step1 H. step1 H. apply bind_ok in H. destruct H as [c1 [S1 H]]. step1 H. apply bind_ok in H. destruct H as [c2 [S2 H]].
    destruct (repeat_set2 _ _ _ _ _ S1 S2) as [L ->].
    apply bind_ok in H. destruct H as [[cs rest] [K H]]. step1 H. injection H as <-. toks. cbn [pt_id pt_marker pt_coords].
    split; [|reflexivity]. do 3 eexists. split; [reflexivity|]. split; [eassumption|]. split; [eassumption|].
    destruct (Nat.eqb_spec nd 3) as [->|N].
    + left. split; [reflexivity|]. step1 K. apply bind_ok in K. destruct K as [c3 [S3 K]]. injection K as -> ->.
      apply set_inv in S3. destruct S3 as [_ ->]. do 6 eexists. split; [reflexivity|]. repeat (split; [eassumption|]). reflexivity.
    + right. split; [exact N|]. split; [exact L|]. injection K as <- ->. do 4 eexists. split; [reflexivity|]. repeat (split; [eassumption|]). reflexivity.
  - intros [[a [b [ws [-> [A [B C]]]]]] I]. apply usize_tok_iff in A. apply parse_i32_iff in B.
    cbn [first_tok bind]. rewrite A. cbn [want bind]. rewrite I, Nat.eqb_refl. run.
    destruct p as [i mk cs]. cbn [pt_id pt_marker pt_coords] in *. subst i.
    destruct C as [[-> [a' [b' [c' [x [y [z [-> [X [Y [Z ->]]]]]]]]]]]|[N [L [a' [b' [x [y [-> [X [Y ->]]]]]]]]]].
    + run. cbn [set repeat Nat.ltb Nat.leb List.length upd bind]. unfold set. cbn [repeat Nat.ltb Nat.leb List.length upd bind]. run. reflexivity.
    + destruct nd as [|[|nd]]; try lia. run. unfold set at 1. cbn [repeat Nat.ltb Nat.leb List.length upd bind]. run.
      unfold set at 1. cbn [Nat.ltb Nat.leb List.length upd bind]. destruct (Nat.eqb_spec (S (S nd)) 3); [congruence|].
      run. cbn [Nat.sub]. rewrite ?Nat.sub_0_r. reflexivity.
Qed.
End Coords.
