From Coq Require Import String List Arith Bool ZArith QArith Lia Lqa Permutation Sorted.
From Verif Require Import Base BaseFacts Kind MeshModel MeshQueryModel MeshQuerySpec.
Import ListNotations.
Open Scope nat_scope.

(* a fold of checks succeeds iff every check does *)
Lemma foldM_unit {A} (f : unit -> A -> res unit) l :
  foldM f l tt = Ok tt <-> forall x, In x l -> f tt x = Ok tt.
Proof.
  induction l as [|a l IH]; simpl; [intuition|]. destruct (f tt a) as [[]| | |] eqn:E; simpl.
  - rewrite IH. intuition (subst; auto).
  - split; [discriminate|]. intros H. rewrite <- E. auto.
  - split; [discriminate|]. intros H. rewrite <- E. auto.
  - split; [discriminate|]. intros H. rewrite <- E. auto.
Qed.
Lemma in_indexed {A} (l : list A) : forall s i x,
  In (i, x) (combine (seq s (List.length l)) l) <-> s <= i /\ nth_error l (i - s) = Some x.
Proof.
  induction l as [|a l IH]; intros s i x; simpl.
  - split; [tauto|]. intros [_ H]. destruct (i - s); discriminate.
  - rewrite IH. split.
    + intros [H|[H1 H2]].
      * injection H as <- <-. rewrite Nat.sub_diag. auto.
      * replace (i - s) with (S (i - S s)) by lia. split; [lia|auto].
    + intros [H1 H2]. destruct (Nat.eq_dec i s) as [->|N].
      * rewrite Nat.sub_diag in H2. simpl in H2. left. congruence.
      * right. replace (i - s) with (S (i - S s)) in H2 by lia. split; [lia|auto].
Qed.
Lemma in_indexed0 {A} (l : list A) i x : In (i, x) (combine (seq 0 (List.length l)) l) <-> nth_error l i = Some x.
Proof. rewrite in_indexed, Nat.sub_0_r. intuition lia. Qed.

Section Gen.
Context {T : Type}.
Implicit Type m : mesh T.

Lemma check_iff m : check_ids_and_kind m = Ok tt <-> consistent m.
Proof.
  unfold check_ids_and_kind, consistent.
  destruct (foldM _ (combine (seq 0 (List.length (points m))) (points m)) tt) as [[]| | |] eqn:E1; simpl.
  - rewrite foldM_unit in E1.
    assert (P : forall i p, nth_error (points m) i = Some p -> pt_id p = i).
    { intros i p H. apply in_indexed0 in H. specialize (E1 _ H). simpl in E1.
      destruct (Nat.eqb_spec (pt_id p) i); simpl in E1; [auto|discriminate]. }
    rewrite foldM_unit. split.
    + intros H. split; auto. intros i c Hc. apply in_indexed0 in Hc. specialize (H _ Hc). simpl in H.
      destruct (Nat.eqb_spec (c_id c) i) as [E|]; simpl in H; [|discriminate].
      destruct (Nat.eqb_spec (List.length (c_points c)) (kind_nnode (c_kind c))) as [E'|]; simpl in H; [|discriminate].
      split; auto. split; auto. intros q Hq. rewrite foldM_unit in H. specialize (H _ Hq). simpl in H.
      destruct (Nat.leb_spec (List.length (points m)) q); [discriminate|auto].
    + intros [_ H] [i c] Hc. apply in_indexed0 in Hc. destruct (H _ _ Hc) as (E & E' & Hq). simpl.
      rewrite (proj2 (Nat.eqb_eq _ _) E), (proj2 (Nat.eqb_eq _ _) E'). simpl.
      apply foldM_unit. intros q Hi. apply Hq in Hi.
      destruct (Nat.leb_spec (List.length (points m)) q); [lia|auto].
  - split; [discriminate|]. intros [P _]. exfalso.
    assert (X : foldM (fun (_ : unit) (ip : nat * point T) =>
      if negb (pt_id (snd ip) =? fst ip) then Err "incorrect point id found; ids must be sequential" else Ok tt)
      (combine (seq 0 (List.length (points m))) (points m)) tt = Ok tt).
    { apply foldM_unit. intros [i p] H. apply in_indexed0, P in H. simpl. subst i. now rewrite Nat.eqb_refl. }
    rewrite E1 in X. discriminate.
  - split; [discriminate|]. intros [P _]. exfalso.
    assert (X : foldM (fun (_ : unit) (ip : nat * point T) =>
      if negb (pt_id (snd ip) =? fst ip) then Err "incorrect point id found; ids must be sequential" else Ok tt)
      (combine (seq 0 (List.length (points m))) (points m)) tt = Ok tt).
    { apply foldM_unit. intros [i p] H. apply in_indexed0, P in H. simpl. subst i. now rewrite Nat.eqb_refl. }
    rewrite E1 in X. discriminate.
  - split; [discriminate|]. intros [P _]. exfalso.
    assert (X : foldM (fun (_ : unit) (ip : nat * point T) =>
      if negb (pt_id (snd ip) =? fst ip) then Err "incorrect point id found; ids must be sequential" else Ok tt)
      (combine (seq 0 (List.length (points m))) (points m)) tt = Ok tt).
    { apply foldM_unit. intros [i p] H. apply in_indexed0, P in H. simpl. subst i. now rewrite Nat.eqb_refl. }
    rewrite E1 in X. discriminate.
Qed.

Lemma foldM_unit_err {A} (f : unit -> A -> res unit) l :
  (forall x, In x l -> f tt x = Ok tt \/ exists e, f tt x = Err e) ->
  foldM f l tt = Ok tt \/ exists e, foldM f l tt = Err e.
Proof.
  induction l as [|a l IH]; intros H; simpl; auto.
  destruct (H a (or_introl eq_refl)) as [->|(e & ->)]; simpl; eauto.
  apply IH. intros x Hx. apply H. simpl. auto.
Qed.
Lemma check_result m : check_ids_and_kind m = Ok tt \/ exists e, check_ids_and_kind m = Err e.
Proof.
  unfold check_ids_and_kind.
  match goal with |- context [bind (foldM ?f ?l tt) _] =>
    destruct (foldM_unit_err f l) as [E|(e & E)]; [|rewrite E..] end.
  - intros [i p] _. simpl. destruct (negb _); eauto.
  - simpl. apply foldM_unit_err. intros [i c] _. simpl.
    destruct (negb _); eauto. destruct (negb _); eauto.
    apply foldM_unit_err. intros q _. destruct (_ <=? _); eauto.
  - simpl. eauto.
Qed.

(* marked points *)
Definition pick (marker : Z) (filter : list T -> bool) (p : point T) : bool :=
  (Z.eqb (pt_marker p) marker) && filter (pt_coords p).
Lemma pick_iff marker filter m p : marked m marker filter p <-> In p (points m) /\ pick marker filter p = true.
Proof. unfold marked, pick. rewrite andb_true_iff, Z.eqb_eq. tauto. Qed.
Lemma picked_ids marker f (l : list (point T)) :
  flat_map (fun p => if (Z.eqb (pt_marker p) marker) && f (pt_coords p) then [pt_id p] else []) l
  = map pt_id (filter (pick marker f) l).
Proof.
  unfold pick. induction l as [|p l IH]; simpl; auto. destruct (_ && _); simpl; now rewrite IH.
Qed.

Lemma leb_sorted l : StronglySorted (fun a b => Nat.leb a b = true) l -> StronglySorted le l.
Proof.
  induction 1 as [|a l S IH F]; constructor; auto.
  eapply Forall_impl; [|exact F]. intros b. apply Nat.leb_le.
Qed.
Lemma isort_le l : StronglySorted le (isort Nat.leb l).
Proof.
  apply leb_sorted, isort_sorted.
  - intros a b. rewrite !Nat.leb_le. lia.
  - intros a b c. rewrite !Nat.leb_le. lia.
Qed.

Lemma search_marked_spec m marker f :
  (exists ids, search_marked_points m marker f = Ok ids /\ ids <> [] /\ StronglySorted le ids /\
     Permutation ids (map pt_id (filter (pick marker f) (points m)))) \/
  (search_marked_points m marker f = Err "cannot find at least one point with the given mark (and filter)" /\
   filter (pick marker f) (points m) = []).
Proof.
  unfold search_marked_points. rewrite picked_ids.
  destruct (filter (pick marker f) (points m)) as [|p l] eqn:E; [right; auto|left].
  simpl List.length. simpl Nat.eqb. eexists. split; [reflexivity|]. split; [|split].
  - intros H. apply (f_equal (@List.length nat)) in H. rewrite isort_length in H. discriminate.
  - apply isort_le.
  - apply isort_perm.
Qed.

Lemma marked_points_ok m marker f ids : search_marked_points m marker f = Ok ids ->
  StronglySorted le ids /\ (forall i, In i ids <-> exists p, marked m marker f p /\ pt_id p = i) /\
  (consistent m -> NoDup ids).
Proof.
  intros H. destruct (search_marked_spec m marker f) as [(ids' & H' & _ & So & P)|(H' & _)]; rewrite H in H'; [|discriminate].
  injection H' as <-. split; auto. split.
  - intros i. split.
    + intros Hi. apply (Permutation_in _ P) in Hi. apply in_map_iff in Hi as (p & E & Hp).
      apply filter_In in Hp. exists p. split; auto. now apply pick_iff.
    + intros (p & Hp & <-). apply pick_iff in Hp. apply (Permutation_in _ (Permutation_sym P)).
      apply in_map. now apply filter_In.
  - intros [C _]. apply (Permutation_NoDup (Permutation_sym P)).
    assert (G : forall s l, (forall i p, nth_error l i = Some p -> pt_id p = s + i) ->
      NoDup (map pt_id (filter (pick marker f) l)) /\ forall x, In x (map pt_id (filter (pick marker f) l)) -> s <= x).
    { intros s l. revert s. induction l as [|p l IH]; intros s Hl; simpl; [split; [constructor|tauto]|].
      assert (Ep : pt_id p = s). { rewrite (Hl 0 p eq_refl). lia. }
      destruct (IH (S s)) as [N L].
      { intros i q Hq. rewrite (Hl (S i) q Hq). lia. }
      destruct (pick marker f p); simpl.
      - split.
        + constructor; auto. intros Hin. apply L in Hin. lia.
        + intros x [<-|Hx]; [lia|]. apply L in Hx. lia.
      - split; auto. intros x Hx. apply L in Hx. lia. }
    apply (G 0). intros i p Hp. rewrite (C i p Hp). reflexivity.
Qed.
Lemma marked_points_err m marker f :
  (forall p, ~ marked m marker f p) <->
  search_marked_points m marker f = Err "cannot find at least one point with the given mark (and filter)".
Proof.
  destruct (search_marked_spec m marker f) as [(ids & H & N & S & P)|(H & E)]; rewrite H; split; try discriminate; auto.
  - intros Hn. destruct ids as [|i ids]; [congruence|].
    assert (Hi : In i (i :: ids)) by (simpl; auto). apply (Permutation_in _ P), in_map_iff in Hi as (p & _ & Hp).
    apply filter_In in Hp. destruct (Hn p). now apply pick_iff.
  - intros _ p Hp. apply pick_iff, filter_In in Hp. rewrite E in Hp. destruct Hp.
Qed.

Lemma first_marked_spec m marker f :
  (exists i p, search_first_marked_point m marker f = Ok (pt_id p) /\ nth_error (points m) i = Some p /\
     marked m marker f p /\ forall j q, j < i -> nth_error (points m) j = Some q -> ~ marked m marker f q) \/
  (search_first_marked_point m marker f = Err "cannot find at least one point with the given mark (and filter)" /\
   forall p, ~ marked m marker f p).
Proof.
  unfold search_first_marked_point.
  assert (G : forall l,
    (exists i p, first_marked l marker f = Ok (pt_id p) /\ nth_error l i = Some p /\ pick marker f p = true /\
       forall j q, j < i -> nth_error l j = Some q -> pick marker f q = false) \/
    (first_marked l marker f = Err "cannot find at least one point with the given mark (and filter)" /\
     forall p, In p l -> pick marker f p = false)).
  { induction l as [|p l IH]; simpl; [right; split; [auto|tauto]|].
    fold (pick marker f p). destruct (pick marker f p) eqn:E.
    - left. exists 0, p. repeat split; auto. intros j q L. lia.
    - destruct IH as [(i & q & H1 & H2 & H3 & H4)|(H1 & H2)].
      + left. exists (S i), q. repeat split; auto. intros [|j] q' L Hq'; simpl in Hq'.
        * congruence.
        * apply (H4 j q'); [lia|auto].
      + right. split; auto. intros q [<-|Hq]; auto. }
  destruct (G (points m)) as [(i & p & H1 & H2 & H3 & H4)|(H1 & H2)].
  - left. exists i, p. split; auto. split; auto. split.
    + apply pick_iff. split; auto. eapply nth_error_In; eauto.
    + intros j q L Hq Hm. apply pick_iff in Hm. rewrite (H4 j q L Hq) in Hm. destruct Hm. discriminate.
  - right. split; auto. intros p Hp. apply pick_iff in Hp as [Hp Hk]. rewrite (H2 p Hp) in Hk. discriminate.
Qed.

(* on a consistent mesh the first marked point is the head of the sorted list *)
Lemma first_is_head m marker f i ids : consistent m ->
  search_first_marked_point m marker f = Ok i -> search_marked_points m marker f = Ok ids ->
  In i ids /\ forall j, In j ids -> i <= j.
Proof.
  intros [C _] Hf Hs. destruct (first_marked_spec m marker f) as [(k & p & H1 & H2 & H3 & H4)|(H1 & _)];
    rewrite Hf in H1; [|discriminate]. injection H1 as ->.
  apply marked_points_ok in Hs as (_ & Hin & _). split.
  - apply Hin. eauto.
  - intros j Hj. apply Hin in Hj as (q & Hq & <-).
    destruct (Hq) as [Hq1 _]. apply In_nth_error in Hq1 as (jj & Hjj).
    rewrite (C _ _ H2), (C _ _ Hjj). destruct (Nat.lt_ge_cases jj k) as [L|L]; auto.
    destruct (H4 jj q L Hjj Hq).
Qed.

(* set_pad *)
Lemma foldM_collect {A B} (f : A -> res B) (g : A -> B) l : (forall x, In x l -> f x = Ok (g x)) ->
  forall acc, foldM (fun (acc : list B) x => let! y := f x in Ok (acc ++ [y])) l acc = Ok (acc ++ map g l).
Proof.
  induction l as [|a l IH]; intros H acc; simpl; [now rewrite app_nil_r|].
  rewrite H by (simpl; auto). simpl. rewrite IH by (intros; apply H; simpl; auto).
  now rewrite <- app_assoc.
Qed.
Lemma map_nth_seq {A} (l : list A) d : map (fun i => nth i l d) (seq 0 (List.length l)) = l.
Proof.
  induction l as [|a l IH]; simpl; auto. f_equal. rewrite <- seq_shift, map_map. exact IH.
Qed.
Lemma read_row (l : list T) n : n = List.length l ->
  foldM (fun (acc : list T) j => let! x := get l j in Ok (acc ++ [x])) (seq 0 n) [] = Ok l.
Proof.
  intros ->. destruct l as [|d l]; [reflexivity|].
  rewrite (foldM_collect (get (d :: l)) (fun i => nth i (d :: l) d)).
  - rewrite map_nth_seq. reflexivity.
  - intros i Hi. apply in_seq in Hi. apply get_ok. lia.
Qed.
Lemma set_pad_ok m c : consistent m -> coords_complete m -> In c (cells m) ->
  exists rows, set_pad m (c_kind c) (c_points c) = Ok rows /\ List.length rows = kind_nnode (c_kind c) /\
  forall a p pt, nth_error (c_points c) a = Some p -> nth_error (points m) p = Some pt -> nth_error rows a = Some (pt_coords pt).
Proof.
  intros [_ C] K Hc. apply In_nth_error in Hc as (i & Hi). destruct (C _ _ Hi) as (_ & L & R).
  unfold set_pad. rewrite L, Nat.eqb_refl. simpl.
  destruct (points m) as [|p0 ps] eqn:Ep.
  { assert (E0 : c_points c = []).
    { destruct (c_points c) as [|q l] eqn:E; auto. exfalso. specialize (R q (or_introl eq_refl)). simpl in R. lia. }
    rewrite E0 in *. exists []. simpl. simpl in L. split; auto. split; auto. intros a p pt H. destruct a; discriminate. }
  rewrite <- Ep in *.
  set (g := fun p => pt_coords (nth p (points m) p0)).
  assert (G : forall acc, foldM (fun (rows : list (list T)) p =>
      let! pt := get (points m) p in
      let! row := foldM (fun (acc : list T) j => let! x := get (pt_coords pt) j in Ok (acc ++ [x])) (seq 0 (ndim m)) [] in
      Ok (rows ++ [row])) (c_points c) acc = Ok (acc ++ map g (c_points c))).
  { clear L Hi. induction (c_points c) as [|q l IH]; intros acc; [simpl; now rewrite app_nil_r|].
    assert (Lq : q < List.length (points m)) by (apply R; simpl; auto).
    cbn [foldM]. rewrite (get_ok _ _ p0) by auto. cbn [bind].
    rewrite read_row. 2:{ symmetry. apply K. apply nth_In. auto. }
    cbn [bind]. rewrite IH.
    - simpl map. now rewrite <- app_assoc.
    - intros x Hx. apply R. simpl. auto. }
  rewrite G. simpl. eexists. split; [reflexivity|]. split; [now rewrite map_length|].
  intros a p pt Ha Hp. erewrite map_nth_error; eauto. unfold g. f_equal. f_equal.
  apply nth_error_nth. auto.
Qed.
End Gen.

(* limits *)
Definition coord_of (S : list (list Q)) (i : nat) : Q -> Prop :=
  fun x => exists c, In c S /\ nth_error c i = Some x.
Definition lim_ok (nd : nat) (S : list (list Q)) (lim : list (option Q) * list (option Q)) : Prop :=
  List.length (fst lim) = nd /\ List.length (snd lim) = nd /\
  forall i, i < nd ->
    match nth i (fst lim) None with
    | None => S = []
    | Some x => is_min (coord_of S i) x
    end /\
    match nth i (snd lim) None with
    | None => S = []
    | Some x => is_max (coord_of S i) x
    end.

Lemma omin_spec S c i x a : nth_error c i = Some x ->
  match a with None => S = [] | Some y => is_min (coord_of S i) y end ->
  match omin a x with None => S ++ [c] = [] | Some y => is_min (coord_of (S ++ [c]) i) y end.
Proof.
  intros Hx Ha. destruct a as [y|]; simpl.
  - destruct Ha as [(c' & Hc' & Hy) Hm]. destruct (Qle_bool y x) eqn:E.
    + apply Qle_bool_iff in E. split.
      * exists c'. split; auto. apply in_app_iff. auto.
      * intros z (d & Hd & Hz). apply in_app_iff in Hd as [Hd|[<-|[]]].
        -- apply Hm. exists d. auto.
        -- assert (z = x) by congruence. now subst.
    + assert (x <= y)%Q. { apply Qlt_le_weak, Qnot_le_lt. intros H. apply Qle_bool_iff in H. congruence. }
      split.
      * exists c. split; auto. apply in_app_iff. simpl. auto.
      * intros z (d & Hd & Hz). apply in_app_iff in Hd as [Hd|[<-|[]]].
        -- apply Qle_trans with y; auto. apply Hm. exists d. auto.
        -- assert (z = x) by congruence. subst. apply Qle_refl.
  - subst S. split.
    + exists c. split; simpl; auto.
    + intros z (d & [<-|[]] & Hz). assert (z = x) by congruence. subst. apply Qle_refl.
Qed.
Lemma omax_spec S c i x a : nth_error c i = Some x ->
  match a with None => S = [] | Some y => is_max (coord_of S i) y end ->
  match omax a x with None => S ++ [c] = [] | Some y => is_max (coord_of (S ++ [c]) i) y end.
Proof.
  intros Hx Ha. destruct a as [y|]; simpl.
  - destruct Ha as [(c' & Hc' & Hy) Hm]. destruct (Qle_bool x y) eqn:E.
    + apply Qle_bool_iff in E. split.
      * exists c'. split; auto. apply in_app_iff. auto.
      * intros z (d & Hd & Hz). apply in_app_iff in Hd as [Hd|[<-|[]]].
        -- apply Hm. exists d. auto.
        -- assert (z = x) by congruence. now subst.
    + assert (y <= x)%Q. { apply Qlt_le_weak, Qnot_le_lt. intros H. apply Qle_bool_iff in H. congruence. }
      split.
      * exists c. split; auto. apply in_app_iff. simpl. auto.
      * intros z (d & Hd & Hz). apply in_app_iff in Hd as [Hd|[<-|[]]].
        -- apply Qle_trans with y; auto. apply Hm. exists d. auto.
        -- assert (z = x) by congruence. subst. apply Qle_refl.
  - subst S. split.
    + exists c. split; simpl; auto.
    + intros z (d & [<-|[]] & Hz). assert (z = x) by congruence. subst. apply Qle_refl.
Qed.

Lemma grow_partial c nd lim : List.length c = nd -> List.length (fst lim) = nd -> List.length (snd lim) = nd ->
  forall n, n <= nd ->
  exists lim', grow_limits n lim c = Ok lim' /\ List.length (fst lim') = nd /\ List.length (snd lim') = nd /\
  forall i, i < nd ->
    nth i (fst lim') None = (if i <? n then omin (nth i (fst lim) None) (nth i c 0%Q) else nth i (fst lim) None) /\
    nth i (snd lim') None = (if i <? n then omax (nth i (snd lim) None) (nth i c 0%Q) else nth i (snd lim) None).
Proof.
  intros Lc L1 L2 n. induction n as [|n IH]; intros L.
  - exists lim. unfold grow_limits. simpl. auto.
  - destruct IH as (lim' & H & H1 & H2 & H3); [lia|]. unfold grow_limits in *.
    rewrite seq_S, foldM_app, H. cbn [bind foldM Nat.add].
    rewrite (get_ok c n 0%Q) by lia. cbn [bind].
    rewrite (get_ok _ n None) by lia. cbn [bind]. rewrite (get_ok _ n None) by lia. cbn [bind].
    rewrite set_ok by lia. cbn [bind]. rewrite set_ok by lia. cbn [bind].
    eexists. split; [reflexivity|]. cbn [fst snd]. rewrite !upd_length. repeat split; auto; intros;
      destruct (H3 i H0) as [Ha Hb]; rewrite nth_upd by lia;
      destruct (Nat.eqb_spec n i) as [<-|N].
    + rewrite (proj1 (H3 n H0)). rewrite Nat.ltb_irrefl.
      replace (n <? S n) with true by (symmetry; apply Nat.ltb_lt; lia). auto.
    + rewrite Ha. destruct (Nat.ltb_spec i n), (Nat.ltb_spec i (S n)); auto; lia.
    + rewrite (proj2 (H3 n H0)). rewrite Nat.ltb_irrefl.
      replace (n <? S n) with true by (symmetry; apply Nat.ltb_lt; lia). auto.
    + rewrite Hb. destruct (Nat.ltb_spec i n), (Nat.ltb_spec i (S n)); auto; lia.
Qed.

Lemma grow_ok nd S lim c : List.length c = nd -> lim_ok nd S lim ->
  exists lim', grow_limits nd lim c = Ok lim' /\ lim_ok nd (S ++ [c]) lim'.
Proof.
  intros Lc (L1 & L2 & H). destruct (grow_partial c nd lim Lc L1 L2 nd (Nat.le_refl _)) as (lim' & G & L1' & L2' & H').
  exists lim'. split; auto. split; auto. split; auto. intros i Li.
  destruct (H' i Li) as [-> ->]. destruct (H i Li) as [Ha Hb].
  replace (i <? nd) with true by (symmetry; now apply Nat.ltb_lt).
  assert (Ec : nth_error c i = Some (nth i c 0%Q)) by (apply nth_error_nth'; lia).
  split; [now apply omin_spec|now apply omax_spec].
Qed.
Lemma lim_init nd : lim_ok nd [] (repeat None nd, repeat None nd).
Proof.
  split; [apply repeat_length|]. split; [apply repeat_length|]. intros i Li. cbn [fst snd].
  assert (E : nth i (@repeat (option Q) None nd) None = None).
  { clear. revert i. induction nd; intros [|i]; simpl; auto. }
  now rewrite E.
Qed.

Definition bounds (nd : nat) (S : list (list Q)) (lim : list (option Q) * list (option Q)) : Prop :=
  List.length (fst lim) = nd /\ List.length (snd lim) = nd /\
  forall i, i < nd -> exists a b,
    nth_error (fst lim) i = Some (Some a) /\ is_min (coord_of S i) a /\
    nth_error (snd lim) i = Some (Some b) /\ is_max (coord_of S i) b.
Lemma lim_bounds nd S lim : S <> [] -> lim_ok nd S lim -> bounds nd S lim.
Proof.
  intros N (L1 & L2 & H). split; auto. split; auto. intros i Li. destruct (H i Li) as [Ha Hb].
  assert (E1 : nth_error (fst lim) i = Some (nth i (fst lim) None)) by (apply nth_error_nth'; lia).
  assert (E2 : nth_error (snd lim) i = Some (nth i (snd lim) None)) by (apply nth_error_nth'; lia).
  destruct (nth i (fst lim) None) as [a|]; [|tauto]. destruct (nth i (snd lim) None) as [b|]; [|tauto].
  exists a, b. auto.
Qed.

Lemma get_limits_spec (m : mesh Q) : coords_complete m -> points m <> [] ->
  exists lim, get_limits m = Ok lim /\ bounds (ndim m) (map pt_coords (points m)) lim.
Proof.
  intros K N. unfold get_limits.
  assert (G : forall l S lim, (forall p, In p l -> List.length (pt_coords p) = ndim m) -> lim_ok (ndim m) S lim ->
    exists lim', foldM (fun lim p => grow_limits (ndim m) lim (pt_coords p)) l lim = Ok lim' /\
                 lim_ok (ndim m) (S ++ map pt_coords l) lim').
  { induction l as [|p l IH]; intros S lim Hl H; simpl.
    - exists lim. rewrite app_nil_r. auto.
    - destruct (grow_ok (ndim m) S lim (pt_coords p)) as (lim' & -> & H'); auto.
      { apply Hl. simpl. auto. }
      cbn [bind]. destruct (IH (S ++ [pt_coords p]) lim') as (lim'' & E & H''); auto.
      { intros q Hq. apply Hl. simpl. auto. }
      exists lim''. split; auto. now rewrite <- app_assoc in H''. }
  destruct (G (points m) [] _ K (lim_init _)) as (lim & E & H). exists lim. split; auto.
  apply lim_bounds; auto. destruct (points m); simpl; congruence.
Qed.

Lemma bounding_box_spec (m : mesh Q) i c : consistent m -> coords_complete m -> nth_error (cells m) i = Some c ->
  c_points c <> [] ->
  exists lim, get_cell_bounding_box m i = Ok lim /\
  bounds (ndim m) (map (fun p => pt_coords (nth p (points m) (mkPoint 0 0%Z []))) (c_points c)) lim.
Proof.
  intros [_ C] K Hc N. destruct (C _ _ Hc) as (_ & _ & R). unfold get_cell_bounding_box.
  unfold get at 1. rewrite Hc. cbn [bind].
  set (g := fun p => pt_coords (nth p (points m) (mkPoint 0 0%Z []))).
  assert (G : forall l S lim, (forall p, In p l -> p < List.length (points m)) -> lim_ok (ndim m) S lim ->
    exists lim', foldM (fun lim p => let! pt := get (points m) p in grow_limits (ndim m) lim (pt_coords pt)) l lim = Ok lim' /\
                 lim_ok (ndim m) (S ++ map g l) lim').
  { induction l as [|p l IH]; intros S lim Hl H; simpl.
    - exists lim. rewrite app_nil_r. auto.
    - assert (Lp : p < List.length (points m)) by (apply Hl; simpl; auto).
      rewrite (get_ok _ _ (mkPoint 0 0%Z [])) by auto. cbn [bind]. fold (g p).
      destruct (grow_ok (ndim m) S lim (g p)) as (lim' & -> & H'); auto.
      { apply K. now apply nth_In. }
      cbn [bind]. destruct (IH (S ++ [g p]) lim') as (lim'' & E & H''); auto.
      { intros q Hq. apply Hl. simpl. auto. }
      exists lim''. split; auto. now rewrite <- app_assoc in H''. }
  destruct (G (c_points c) [] _ R (lim_init _)) as (lim & E & H). exists lim. split; auto.
  apply lim_bounds; auto. destruct (c_points c); simpl; congruence.
Qed.

Lemma new_zero_spec nd np nc k :
  match new_zero_homogeneous nd np nc k with
  | Ok m => (nd = 2 \/ nd = 3) /\ 2 <= np /\ 1 <= nc /\ kind_ndim k <= nd /\
            ndim m = nd /\ List.length (points m) = np /\ List.length (cells m) = nc /\
            consistent m /\ coords_complete m /\ (forall c, In c (cells m) -> c_kind c = k)
  | Err _ => ~ ((nd = 2 \/ nd = 3) /\ 2 <= np /\ 1 <= nc /\ kind_ndim k <= nd)
  | _ => False
  end.
Proof.
  unfold new_zero_homogeneous.
  destruct (Nat.ltb_spec nd 2), (Nat.ltb_spec 3 nd); simpl; try lia.
  destruct (Nat.ltb_spec np 2); try lia. destruct (Nat.ltb_spec nc 1); try lia.
  destruct (Nat.ltb_spec nd (kind_ndim k)); try lia.
  split; [lia|]. repeat (split; [lia|]). cbn [ndim points cells].
  rewrite !map_length, !seq_length. split; auto. split; auto. split; auto.
  assert (NS : forall n i (A : Type) (f : nat -> A) x, nth_error (map f (seq 0 n)) i = Some x -> i < n /\ x = f i).
  { intros n i A f x Hx. assert (L : i < n).
    { rewrite <- (seq_length n 0), <- (map_length f). apply nth_error_Some. congruence. }
    split; auto. assert (E : nth_error (seq 0 n) i = Some i).
    { rewrite (nth_error_nth' _ 0) by (rewrite seq_length; auto). now rewrite seq_nth. }
    rewrite (map_nth_error f _ _ E) in Hx. congruence. }
  split; [split|split]; cbn [points cells].
  - intros i p Hp. apply NS in Hp as [_ ->]. reflexivity.
  - intros i c Hc. apply NS in Hc as [_ ->]. cbn [c_id c_points c_kind]. rewrite repeat_length.
    split; auto. split; auto. intros q Hq. apply repeat_spec in Hq. subst. rewrite map_length, seq_length. lia.
  - intros p Hp. apply in_map_iff in Hp as (i & <- & _). cbn [pt_coords ndim]. apply repeat_length.
  - intros c Hc. apply in_map_iff in Hc as (i & <- & _). reflexivity.
Qed.

(* sorted points *)
Definition px (m : mesh Q) (j id : nat) : Q := nth j (pt_coords (nth id (points m) (mkPoint 0 0%Z []))) 0%Q.
Definition pz (m : mesh Q) (id : nat) : Q := if ndim m =? 3 then px m 2 id else 0%Q.

Lemma sorted_collect (m : mesh Q) keep ids : coords_complete m -> (ndim m = 2 \/ ndim m = 3) ->
  (forall i, In i ids -> i < List.length (points m)) ->
  let sel := filter (fun id => keep (px m 0 id) (px m 1 id) (pz m id)) ids in
  forall s, 
  foldM (fun (s : list nat * list Q * list Q * list Q) nid =>
      let '(k2id, xx, yy, zz) := s in
      let! p := get (points m) nid in
      let! x := get (pt_coords p) 0 in
      let! y := get (pt_coords p) 1 in
      let! z := (if ndim m =? 3 then get (pt_coords p) 2 else Ok 0%Q) in
      if (keep x y z : bool)
      then Ok (k2id ++ [nid], xx ++ [x], yy ++ [y], if ndim m =? 3 then zz ++ [z] else zz)
      else Ok s) ids s
  = let '(k2id, xx, yy, zz) := s in
    Ok (k2id ++ sel, xx ++ map (px m 0) sel, yy ++ map (px m 1) sel, if ndim m =? 3 then zz ++ map (pz m) sel else zz).
Proof.
  intros K D. cbv zeta. induction ids as [|id ids IH]; intros R [[[k2id xx] yy] zz].
  - simpl. rewrite !app_nil_r. destruct (ndim m =? 3); reflexivity.
  - assert (Li : id < List.length (points m)) by (apply R; simpl; auto).
    assert (Lc : List.length (pt_coords (nth id (points m) (mkPoint 0 0%Z []))) = ndim m) by (apply K, nth_In; auto).
    cbn [foldM]. rewrite (get_ok _ _ (mkPoint 0 0%Z [])) by auto. cbn [bind].
    rewrite (get_ok _ 0 0%Q) by lia. cbn [bind]. rewrite (get_ok _ 1 0%Q) by lia. cbn [bind].
    assert (Ez : (if ndim m =? 3 then get (pt_coords (nth id (points m) (mkPoint 0 0%Z []))) 2 else Ok 0%Q) = Ok (pz m id)).
    { unfold pz. destruct (Nat.eqb_spec (ndim m) 3); auto. apply get_ok. lia. }
    rewrite Ez. cbn [bind]. fold (px m 0 id). fold (px m 1 id).
    cbn [filter]. destruct (keep (px m 0 id) (px m 1 id) (pz m id)); cbn [bind];
      rewrite IH by (intros; apply R; simpl; auto); cbn [map]; rewrite <- ?app_assoc; cbn [app]; auto.
    destruct (ndim m =? 3); rewrite <- ?app_assoc; reflexivity.
Qed.

Lemma nth_map_in {A B} (f : A -> B) l i d e : i < List.length l -> nth i (map f l) d = f (nth i l e).
Proof. intros L. rewrite (nth_indep _ d (f e)) by (rewrite map_length; auto). apply map_nth. Qed.

Lemma sorted_map {A B} (R : A -> A -> Prop) (R' : B -> B -> Prop) (g : A -> B) l :
  (forall a b, In a l -> In b l -> R a b -> R' (g a) (g b)) -> StronglySorted R l -> StronglySorted R' (map g l).
Proof.
  intros H S. induction S as [|a l S IH F]; simpl; constructor.
  - apply IH. intros; apply H; simpl; auto.
  - apply Forall_map. rewrite Forall_forall in *. intros b Hb. apply H; simpl; auto.
Qed.

Section SortedPoints.
Variables (argsort3 : list Q -> list Q -> list Q -> list nat) (argsort2 : list Q -> list Q -> list nat).
Hypothesis A3 : argsort3_spec argsort3.
Hypothesis A2 : argsort2_spec argsort2.

Lemma get_sorted_spec (m : mesh Q) keep ids : coords_complete m -> (ndim m = 2 \/ ndim m = 3) ->
  (forall i, In i ids -> i < List.length (points m)) ->
  exists out, get_sorted_points 0%Q argsort3 argsort2 m ids keep = Ok out /\
  Permutation out (filter (fun id => keep (px m 0 id) (px m 1 id) (pz m id)) ids) /\
  StronglySorted (fun a b => lex3 (pz m a, px m 1 a, px m 0 a) (pz m b, px m 1 b, px m 0 b)) out.
Proof.
  intros K D R. unfold get_sorted_points.
  rewrite (sorted_collect m keep ids K D R). cbn [bind app].
  set (sel := filter _ ids).
  set (srt := if ndim m =? 3 then _ else _).
  assert (H : Permutation srt (seq 0 (List.length sel)) /\
    StronglySorted (fun i j => lex3 (pz m (nth i sel 0), px m 1 (nth i sel 0), px m 0 (nth i sel 0))
                                    (pz m (nth j sel 0), px m 1 (nth j sel 0), px m 0 (nth j sel 0))) srt).
  { subst srt. destruct (Nat.eqb_spec (ndim m) 3) as [E|E].
    - destruct (A3 (map (pz m) sel) (map (px m 1) sel) (map (px m 0) sel) (List.length sel)) as [P S];
        try apply map_length. split; auto.
      rewrite <- (map_id (argsort3 _ _ _)). eapply sorted_map; [|exact S].
      intros a b Ha Hb. apply (Permutation_in _ P), in_seq in Ha. apply (Permutation_in _ P), in_seq in Hb.
      cbv beta. rewrite !(nth_map_in (pz m) sel _ _ 0), !(nth_map_in (px m 0) sel _ _ 0), !(nth_map_in (px m 1) sel _ _ 0) by lia. auto.
    - destruct (A2 (map (px m 1) sel) (map (px m 0) sel) (List.length sel)) as [P S]; try apply map_length.
      split; auto.
      rewrite <- (map_id (argsort2 _ _)). eapply sorted_map; [|exact S].
      intros a b Ha Hb. apply (Permutation_in _ P), in_seq in Ha. apply (Permutation_in _ P), in_seq in Hb.
      cbv beta. rewrite !(nth_map_in (px m 0) sel _ _ 0), !(nth_map_in (px m 1) sel _ _ 0) by lia. intros L. right. cbn [fst snd].
      unfold pz. apply Nat.eqb_neq in E. rewrite E. split; [reflexivity|auto]. }
  destruct H as [P S].
  rewrite (foldM_collect (get sel) (fun i => nth i sel 0)).
  2:{ intros i Hi. apply (Permutation_in _ P), in_seq in Hi. apply get_ok. lia. }
  cbn [app]. eexists. split; [reflexivity|]. split.
  - rewrite (Permutation_map _ P). now rewrite map_nth_seq.
  - eapply sorted_map; [|exact S]. auto.
Qed.
End SortedPoints.
