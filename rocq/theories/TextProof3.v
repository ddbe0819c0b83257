(* Meshes and texts: from_text accepts exactly the texts whose rows denote a mesh. *)
From Coq Require Import String Ascii List Arith NArith ZArith Bool Lia.
From Verif Require Import Base BaseFacts Kind MeshModel TextModel TextSpec TextProof TextProof2.
Import ListNotations.
Open Scope N_scope.

Definition lrows (ls : list text) : list (list text) := flat_map line_row ls.
Definition rmap {A B} (f : A -> B) (x : res A) : res B := let! a := x in Ok (f a).

Lemma with_data_row {A} (f : list text -> res A) l :
  (line_row l = [] /\ with_data f l = Ok None) \/
  exists d, line_row l = [d] /\ d <> [] /\ with_data f l = let! a := f d in Ok (Some a).
Proof.
  pose proof (data_of_row l) as R. unfold with_data. destruct (data_of l) as [d|] eqn:E; [right|left; auto].
  exists d. split; [auto|]. split; [|reflexivity]. destruct (data_of_some _ _ E) as [w [ws ->]]. discriminate.
Qed.

Fixpoint read_rows {A} (f : nat -> list text -> res A) (n : nat) (acc : list A) (rows : list (list text)) : res (list A * list (list text)) :=
  match rows with
  | [] => Ok (acc, [])
  | d :: rest => let! a := f (List.length acc) d in
      if (S (List.length acc) =? n)%nat then Ok (acc ++ [a], rest) else read_rows f n (acc ++ [a]) rest
  end.
Lemma read_items_rows {A} (f : nat -> list text -> res A) n ls : forall acc,
  rmap (fun q => (fst q, lrows (snd q))) (read_items (fun k => with_data (f k)) n acc ls) = read_rows f n acc (lrows ls).
Proof.
  induction ls as [|l ls IH]; intros acc; [reflexivity|]. cbn [read_items lrows flat_map].
  destruct (with_data_row (f (List.length acc)) l) as [[R ->]|[d [R [N ->]]]]; rewrite R; cbn [app bind]; [apply IH|].
  cbn [read_rows]. destruct (f (List.length acc) d) as [a| | |]; cbn [bind rmap]; try reflexivity.
  destruct (S (List.length acc) =? n)%nat; [reflexivity|]. apply IH.
Qed.
Definition all_rows {A} (f : nat -> list text -> res A) (n : nat) (msg : string) (rows : list (list text)) : res (list A * list (list text)) :=
  let! (items, rest) := read_rows f n [] rows in
  if negb (List.length items =? n)%nat then Err msg else Ok (items, rest).
Lemma read_all_rows {A} (f : nat -> list text -> res A) n msg ls :
  rmap (fun q => (fst q, lrows (snd q))) (read_all (fun k => with_data (f k)) n msg ls) = all_rows f n msg (lrows ls).
Proof.
  unfold read_all, all_rows. rewrite <- read_items_rows. destruct (read_items _ n [] ls) as [[xs r]| | |]; cbn [bind rmap fst snd]; try reflexivity.
  destruct (negb _); reflexivity.
Qed.
Definition sizes_rows (msg : string) (rows : list (list text)) : res (sizes * list (list text)) :=
  match rows with [] => Err msg | d :: rest => let! s := sizes_data d in Ok (s, rest) end.
Lemma read_sizes_rows msg ls :
  rmap (fun q => (fst q, lrows (snd q))) (read_sizes msg ls) = sizes_rows msg (lrows ls).
Proof.
  induction ls as [|l ls IH]; [reflexivity|]. cbn [read_sizes lrows flat_map]. unfold parse_sizes.
  destruct (with_data_row sizes_data l) as [[R ->]|[d [R [N ->]]]]; rewrite R; cbn [app bind]; [apply IH|].
  cbn [sizes_rows]. destruct (sizes_data d); reflexivity.
Qed.

Section Mesh.
Context {T : Type}.
Variables (zero : T) (parse_f : text -> option T).
Definition mesh_rows (msg : string) (rows : list (list text)) : res (mesh T) :=
  let! (s, rows) := sizes_rows msg rows in
  let! (pts, rows) := all_rows (point_data zero parse_f (s_ndim s)) (s_npoint s) "not all points have been found" rows in
  let! (cs, rows) := all_rows cell_data (s_ncell s) "not all cells have been found" rows in
  let! (mes, rows) := (if (0 <? s_medge s)%nat then all_rows (fun _ => marked_edge_data) (s_medge s) "not all marked edges have been found" rows else Ok ([], rows)) in
  let! (mfs, rows) := (if (0 <? s_mface s)%nat then all_rows (fun _ => marked_face_data) (s_mface s) "not all marked faces have been found" rows else Ok ([], rows)) in
  Ok (mkMesh (s_ndim s) pts cs mes mfs).
Lemma bind_rmap {A B C} (g : A -> B) (x : res A) (f : A -> res C) (h : B -> res C) :
  (forall a, f a = h (g a)) -> bind x f = bind (rmap g x) h.
Proof. intros H. destruct x; cbn; auto. Qed.
Lemma parse_mesh_rows msg t : parse_mesh zero parse_f msg t = mesh_rows msg (rows_of t).
Proof.
  unfold parse_mesh, mesh_rows. change (rows_of t) with (lrows (lines t)). rewrite <- read_sizes_rows.
  apply (bind_rmap (fun q => (fst q, lrows (snd q)))). intros [s ls]. cbn [fst snd].
  rewrite <- read_all_rows. apply (bind_rmap (fun q => (fst q, lrows (snd q)))). intros [pts ls2]. cbn [fst snd].
  rewrite <- read_all_rows. apply (bind_rmap (fun q => (fst q, lrows (snd q)))). intros [cs ls3]. cbn [fst snd].
  assert (K : forall A (f : nat -> list text -> res A) n m l, (if (0 <? n)%nat then all_rows f n m (lrows l) else Ok ([], lrows l)) =
     rmap (fun q => (fst q, lrows (snd q))) (if (0 <? n)%nat then read_all (fun k => with_data (f k)) n m l else Ok ([], l))).
  { intros A f n m l. destruct (0 <? n)%nat; [symmetry; apply read_all_rows|reflexivity]. }
  rewrite K. apply (bind_rmap (fun q => (fst q, lrows (snd q)))). intros [mes ls4]. cbn [fst snd].
  rewrite K. apply (bind_rmap (fun q => (fst q, lrows (snd q)))). intros [mfs ls5]. reflexivity.
Qed.

(* ---- items ---- *)
Inductive indexed {A} (f : nat -> list text -> res A) : nat -> list (list text) -> list A -> Prop :=
| ix_nil k : indexed f k [] []
| ix_cons k d a P xs : f k d = Ok a -> indexed f (S k) P xs -> indexed f k (d :: P) (a :: xs).
Lemma indexed_length {A} (f : nat -> list text -> res A) k P xs : indexed f k P xs -> List.length P = List.length xs.
Proof. induction 1; cbn; congruence. Qed.
Lemma read_rows_inv {A} (f : nat -> list text -> res A) n rows : forall acc xs rest, read_rows f n acc rows = Ok (xs, rest) ->
  exists P ys, rows = P ++ rest /\ xs = acc ++ ys /\ indexed f (List.length acc) P ys /\ (rest = [] \/ ys <> []).
Proof.
  induction rows as [|d rows IH]; intros acc xs rest; cbn [read_rows].
  - intros H. injection H as <- <-. exists [], []. split; [reflexivity|]. split; [symmetry; apply app_nil_r|]. split; [constructor|auto].
  - intros H. apply bind_ok in H. destruct H as [a [E H]]. destruct (Nat.eqb_spec (S (List.length acc)) n) as [N|N].
    + injection H as <- <-. exists [d], [a]. split; [reflexivity|]. split; [reflexivity|]. split; [|right; discriminate]. constructor; [auto|constructor].
    + apply IH in H. destruct H as [P [ys [-> [-> [I _]]]]]. exists (d :: P), (a :: ys). rewrite <- app_assoc.
      split; [reflexivity|]. split; [reflexivity|]. split; [|right; discriminate]. constructor; [auto|]. rewrite app_length in I. cbn in I. rewrite Nat.add_1_r in I. exact I.
Qed.
Lemma read_rows_fwd {A} (f : nat -> list text -> res A) n rest k P ys : indexed f k P ys -> forall acc, k = List.length acc ->
  (k + List.length ys = n)%nat -> (ys = [] -> rest = []) -> read_rows f n acc (P ++ rest) = Ok (acc ++ ys, rest).
Proof.
  induction 1 as [k|k d a P xs E I IH]; intros acc K N H.
  - rewrite H by reflexivity. rewrite !app_nil_r. reflexivity.
  - cbn [app read_rows]. rewrite <- K, E. cbn [bind]. cbn [List.length] in N. destruct (Nat.eqb_spec (S k) n) as [Z|Z].
    + assert (xs = []) by (destruct xs; [reflexivity|cbn in N; lia]). subst xs.
      apply indexed_length in I. destruct P; [reflexivity|discriminate].
    + rewrite IH.
      * rewrite <- app_assoc. reflexivity.
      * rewrite app_length. cbn. lia.
      * lia.
      * intros ->. cbn in N. lia.
Qed.
Lemma all_rows_iff {A} (f : nat -> list text -> res A) n msg rows xs rest : all_rows f n msg rows = Ok (xs, rest) <->
  exists P, rows = P ++ rest /\ indexed f 0 P xs /\ List.length xs = n /\ (xs = [] -> rest = []).
Proof.
  unfold all_rows. split.
  - intros H. apply bind_ok in H. destruct H as [[ys r] [E H]]. destruct (Nat.eqb_spec (List.length ys) n) as [N|N]; [|discriminate].
    injection H as -> ->. apply read_rows_inv in E. destruct E as [P [ys [-> [-> [I D]]]]]. exists P. repeat split; auto.
    cbn [app]. intros ->. destruct D; congruence.
  - intros [P [-> [I [N D]]]]. rewrite (read_rows_fwd f n rest 0 P xs I []) by auto. cbn [bind app]. rewrite N, Nat.eqb_refl. reflexivity.
Qed.
Lemma some_rows_iff {A} (f : nat -> list text -> res A) n msg rows xs rest :
  (if (0 <? n)%nat then all_rows f n msg rows else Ok ([], rows)) = Ok (xs, rest) <->
  exists P, rows = P ++ rest /\ indexed f 0 P xs /\ List.length xs = n.
Proof.
  destruct (Nat.ltb_spec 0 n) as [L|L].
  - rewrite all_rows_iff. split; [intros [P [A1 [A2 [A3 _]]]]; eauto|].
    intros [P [A1 [A2 A3]]]. exists P. repeat split; auto. intros ->. cbn in A3. lia.
  - split.
    + intros H. injection H as <- <-. exists []. repeat split; [constructor|cbn; lia].
    + intros [P [-> [I N]]]. destruct xs; [|cbn in N; lia]. apply indexed_length in I. destruct P; [reflexivity|discriminate].
Qed.
Lemma indexed_plain {A} (g : list text -> res A) (R : list text -> A -> Prop) k P xs : (forall d a, g d = Ok a <-> R d a) ->
  indexed (fun _ => g) k P xs <-> Forall2 R P xs.
Proof.
  intros H. split.
  - induction 1; constructor; auto. apply H; auto.
  - intros F. revert k. induction F; intros k; constructor; auto. apply H; auto.
Qed.
Lemma indexed_ids {A} (f : nat -> list text -> res A) (R : list text -> A -> Prop) (id : A -> nat) :
  (forall k d a, f k d = Ok a <-> R d a /\ id a = k) -> forall xs k P,
  indexed f k P xs <-> Forall2 R P xs /\ map id xs = seq k (List.length xs).
Proof.
  intros H. induction xs as [|a xs IH]; intros k P; split.
  - intros I. inversion I; subst. split; [constructor|reflexivity].
  - intros [F _]. inversion F; subst. constructor.
  - intros I. inversion I as [|? d ? P' ? E I']; subst. apply H in E. destruct E as [E1 E2]. apply IH in I'. destruct I' as [F S].
    split; [constructor; auto|]. cbn [map List.length seq]. congruence.
  - intros [F S]. inversion F as [|d ? P' ? E F']; subst. cbn [map List.length seq] in S. injection S as S1 S2.
    constructor; [apply H; auto|]. apply IH. auto.
Qed.

Lemma mesh_rows_iff msg rows m : mesh_rows msg rows = Ok m <-> denotes zero parse_f rows m.
Proof.
  unfold mesh_rows, denotes. split.
  - intros H. apply bind_ok in H. destruct H as [[s r1] [HS H]]. apply bind_ok in H. destruct H as [[pts r2] [HP H]].
    apply bind_ok in H. destruct H as [[cs r3] [HC H]]. apply bind_ok in H. destruct H as [[mes r4] [HE H]].
    apply bind_ok in H. destruct H as [[mfs r5] [HF H]]. injection H as <-. cbn [ndim points cells marked_edges marked_faces].
    unfold sizes_rows in HS. destruct rows as [|hdr rows]; [discriminate|]. apply bind_ok in HS. destruct HS as [s' [HS E]].
    injection E as -> ->. apply sizes_data_ok in HS.
    apply all_rows_iff in HP. destruct HP as [P [-> [IP [LP DP]]]].
    apply all_rows_iff in HC. destruct HC as [C [-> [IC [LC DC]]]].
    apply some_rows_iff in HE. destruct HE as [E [-> [IE LE]]].
    apply some_rows_iff in HF. destruct HF as [F [-> [IF LF]]].
    apply (indexed_ids _ (point_row zero parse_f (s_ndim s)) pt_id (fun k d a => point_data_ok zero parse_f (s_ndim s) k d a)) in IP.
    apply (indexed_ids _ cell_row c_id cell_data_ok) in IC.
    apply (indexed_plain _ medge_row 0 E mes marked_edge_ok) in IE. apply (indexed_plain _ mface_row 0 F mfs marked_face_ok) in IF.
    exists hdr, P, C, E, F, r5. split; [reflexivity|]. rewrite LP, LC, LE, LF. destruct IP as [IP1 IP2]. destruct IC as [IC1 IC2].
    rewrite LP in IP2. rewrite LC in IC2. auto 12.
  - intros [hdr [P [C [E [F [rest [-> [HS [FP [SP [FC [SC [FE [FF [DP DC]]]]]]]]]]]]]]].
    set (s := mkSizes (ndim m) (List.length (points m)) (List.length (cells m)) (List.length (marked_edges m)) (List.length (marked_faces m))).
    assert (HS' : sizes_data hdr = Ok s) by (apply sizes_data_ok; exact HS).
    cbn [sizes_rows]. rewrite HS'. cbn [bind].
    assert (HP : all_rows (point_data zero parse_f (s_ndim s)) (s_npoint s) "not all points have been found" (P ++ C ++ E ++ F ++ rest) = Ok (points m, C ++ E ++ F ++ rest)).
    { apply all_rows_iff. exists P. split; [reflexivity|]. split; [|auto].
      apply (indexed_ids _ (point_row zero parse_f (s_ndim s)) pt_id (fun k d a => point_data_ok zero parse_f (s_ndim s) k d a)). auto. }
    rewrite HP. cbn [bind].
    assert (HC : all_rows cell_data (s_ncell s) "not all cells have been found" (C ++ E ++ F ++ rest) = Ok (cells m, E ++ F ++ rest)).
    { apply all_rows_iff. exists C. split; [reflexivity|]. split; [|auto].
      apply (indexed_ids _ cell_row c_id cell_data_ok). auto. }
    rewrite HC. cbn [bind].
    match goal with |- bind ?x _ = _ => assert (HE : x = Ok (marked_edges m, F ++ rest)) end.
    { apply some_rows_iff. exists E. split; [reflexivity|]. split; [|reflexivity]. apply (indexed_plain _ medge_row 0 E _ marked_edge_ok). auto. }
    rewrite HE. cbn [bind].
    match goal with |- bind ?x _ = _ => assert (HF : x = Ok (marked_faces m, rest)) end.
    { apply some_rows_iff. exists F. split; [reflexivity|]. split; [|reflexivity]. apply (indexed_plain _ mface_row 0 F _ marked_face_ok). auto. }
    rewrite HF. cbn [bind]. destruct m; reflexivity.
Qed.

Theorem from_text_iff t rows m : reads t rows -> (from_text zero parse_f t = Ok m <-> denotes zero parse_f rows m).
Proof. intros R. apply reads_iff in R. subst rows. unfold from_text. rewrite parse_mesh_rows. apply mesh_rows_iff. Qed.
Theorem read_file_iff t rows m : reads t rows -> (read_file zero parse_f t = Ok m <-> denotes zero parse_f rows m).
Proof. intros R. apply reads_iff in R. subst rows. unfold read_file. rewrite parse_mesh_rows. apply mesh_rows_iff. Qed.
Theorem from_text_layout t t' : same_layout t t' -> from_text zero parse_f t = from_text zero parse_f t'.
Proof. intros H. unfold from_text. rewrite !parse_mesh_rows, (same_layout_rows _ _ H). reflexivity. Qed.
Theorem read_file_layout t t' : same_layout t t' -> read_file zero parse_f t = read_file zero parse_f t'.
Proof. intros H. unfold read_file. rewrite !parse_mesh_rows, (same_layout_rows _ _ H). reflexivity. Qed.
Theorem reads_total t : exists rows, reads t rows.
Proof. exists (rows_of t). apply reads_iff. reflexivity. Qed.
Theorem reads_unique t r r' : reads t r -> reads t r' -> r = r'.
Proof. rewrite !reads_iff. congruence. Qed.

(* ---- no panic ---- *)
Definition soft {A} (x : res A) : Prop := x <> Panic /\ x <> NoFuel.
Lemma soft_bind {A B} (x : res A) (f : A -> res B) : soft x -> (forall a, x = Ok a -> soft (f a)) -> soft (bind x f).
Proof. intros [H1 H2] H. destruct x; cbn; try congruence; [apply H; reflexivity|split; discriminate]. Qed.
Lemma soft_ok {A} (a : A) : soft (Ok a). Proof. split; discriminate. Qed.
Lemma soft_err {A} m : soft (@Err A m). Proof. split; discriminate. Qed.
Lemma soft_want {A} (o : option A) m : soft (want o m). Proof. destruct o; split; discriminate. Qed.
Lemma soft_next {A} d m1 (p : text -> option A) m2 : soft (next d m1 p m2).
Proof. unfold next. destruct d; [apply soft_err|]. apply soft_bind; [apply soft_want|]. intros. apply soft_ok. Qed.
Lemma soft_more d m : soft (no_more d m). Proof. destruct d; split; discriminate. Qed.
Lemma soft_first d : d <> [] -> soft (first_tok d). Proof. destruct d; [congruence|]. intros _. apply soft_ok. Qed.
Lemma soft_set {A} (l : list A) i x : (i < List.length l)%nat -> soft (set l i x).
Proof. intros H. rewrite set_ok by auto. apply soft_ok. Qed.
Ltac softly := repeat first [ apply soft_ok | apply soft_err | apply soft_want | apply soft_next | apply soft_more
   | (apply soft_first; assumption) | (apply soft_bind; [|intros ? ?]) | match goal with a : (_ * _)%type |- _ => destruct a end ].
Lemma sizes_soft d : d <> [] -> soft (sizes_data d).
Proof. intros N. unfold sizes_data. softly. Qed.
Lemma ids_soft n : forall d, soft (parse_ids n d).
Proof. induction n as [|n IH]; intros d; cbn [parse_ids]; softly. apply IH. Qed.
Lemma cell_soft k d : d <> [] -> soft (cell_data k d).
Proof.
  intros N. unfold cell_data. softly. destruct (negb _); softly. apply ids_soft.
Qed.
Lemma medge_soft d : d <> [] -> soft (marked_edge_data d).
Proof. intros N. unfold marked_edge_data. softly. Qed.
Lemma mface_soft d : d <> [] -> soft (marked_face_data d).
Proof. intros N. unfold marked_face_data. softly. destruct l2; softly. Qed.
Lemma point_soft nd k d : (2 <= nd)%nat -> d <> [] -> soft (point_data zero parse_f nd k d).
Proof.
  intros L N. unfold point_data. apply soft_bind; [apply soft_first; auto|]. intros [v r] _. softly. destruct (negb _); [softly|].
  apply soft_bind; [softly|]. intros [mk r1] _. apply soft_bind; [softly|]. intros [x r2] _.
  rewrite set_ok by (rewrite repeat_length; lia). cbn [bind]. apply soft_bind; [softly|]. intros [y r3] _.
  rewrite set_ok by (rewrite upd_length, repeat_length; lia). cbn [bind].
  apply soft_bind; [|intros [? ?] _; softly]. destruct (Nat.eqb_spec nd 3) as [->|]; [|softly].
  apply soft_bind; [softly|]. intros [z r4] _. rewrite set_ok by (rewrite !upd_length, repeat_length; lia). softly.
Qed.
Lemma read_rows_soft {A} (f : nat -> list text -> res A) n rows : Forall (fun d => d <> []) rows -> (forall k d, d <> [] -> soft (f k d)) ->
  forall acc, soft (read_rows f n acc rows).
Proof.
  intros F H. induction F as [|d rows N F IH]; intros acc; cbn [read_rows]; [apply soft_ok|].
  apply soft_bind; [apply H; auto|]. intros a _. destruct (_ =? n)%nat; [apply soft_ok|apply IH].
Qed.
Lemma all_rows_soft {A} (f : nat -> list text -> res A) n msg rows : Forall (fun d => d <> []) rows -> (forall k d, d <> [] -> soft (f k d)) ->
  soft (all_rows f n msg rows).
Proof.
  intros F H. unfold all_rows. apply soft_bind; [apply read_rows_soft; auto|]. intros [xs r] _. destruct (negb _); [apply soft_err|apply soft_ok].
Qed.
Lemma rows_nonempty t : Forall (fun d => d <> []) (rows_of t).
Proof.
  unfold rows_of. induction (lines t) as [|l ls IH]; cbn [flat_map]; [constructor|]. apply Forall_app. split; auto.
  destruct (line_row_cases l) as [[_ ->]|[w [ws [_ [_ ->]]]]]; [constructor|]. constructor; [discriminate|constructor].
Qed.
Lemma all_rows_suffix {A} (f : nat -> list text -> res A) n msg rows xs rest : all_rows f n msg rows = Ok (xs, rest) -> exists P, rows = P ++ rest.
Proof. intros H. apply all_rows_iff in H. destruct H as [P [H _]]. eauto. Qed.
Theorem from_text_soft t : ~ soft (from_text zero parse_f t) ->
  exists hdr rows nd np nc ne nf, reads t (hdr :: rows) /\ header_row hdr nd np nc ne nf /\ (nd < 2)%nat.
Proof.
  intros H. unfold from_text in H. rewrite parse_mesh_rows in H. pose proof (rows_nonempty t) as F. unfold mesh_rows in H.
  destruct (rows_of t) as [|hdr rows] eqn:E; [elim H; apply soft_err|]. inversion F as [|? ? N F']; subst. cbn [sizes_rows] in H.
  destruct (sizes_data hdr) as [s|m| |] eqn:HS; cbn [bind] in H;
    [|elim H; apply soft_err|elim (proj1 (sizes_soft _ N) HS)|elim (proj2 (sizes_soft _ N) HS)].
  destruct (le_lt_dec 2 (s_ndim s)) as [L|L].
  - exfalso. apply H. clear H. apply soft_bind.
    { apply all_rows_soft; auto. intros. apply point_soft; auto. }
    intros [pts r1] H1. apply all_rows_suffix in H1. destruct H1 as [P ->]. apply Forall_app in F'. destruct F' as [_ F'].
    apply soft_bind; [apply all_rows_soft; auto; intros; apply cell_soft; auto|].
    intros [cs r2] H2. apply all_rows_suffix in H2. destruct H2 as [C ->]. apply Forall_app in F'. destruct F' as [_ F'].
    apply soft_bind.
    { destruct (0 <? s_medge s)%nat; [|apply soft_ok]. apply all_rows_soft; auto. intros; apply medge_soft; auto. }
    intros [mes r3] H3. apply some_rows_iff in H3. destruct H3 as [G [-> _]]. apply Forall_app in F'. destruct F' as [_ F'].
    apply soft_bind; [|intros [? ?] _; apply soft_ok].
    destruct (0 <? s_mface s)%nat; [|apply soft_ok]. apply all_rows_soft; auto. intros; apply mface_soft; auto.
  - exists hdr, rows, (s_ndim s), (s_npoint s), (s_ncell s), (s_medge s), (s_mface s). split; [apply reads_iff; auto|]. split; [|exact L].
    apply sizes_data_ok; auto.
Qed.
End Mesh.
