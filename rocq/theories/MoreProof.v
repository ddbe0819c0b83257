(* Lookups with many edges and faces; the complete check; density and pattern of a graph. *)
From Coq Require Import String QArith Reals Qround List Arith Bool Lia Lqa Permutation Sorted.
From Verif Require Import Base BaseFacts Kind MeshModel GraphModel GraphSpec GraphVocab GraphProof GraphProof2 GraphProof3 MeshQueryModel MeshQuerySpec MeshQueryProof TopoModel TopoSpec TopoProof TopoFinal PadModel MoreModel.
Import ListNotations.
Local Open Scope list_scope.
Local Open Scope nat_scope.

(* stable sorting keeps the order within each cell *)
Lemma insert_stable c (x : nat * list nat) : forall l, filter (fun p => fst p =? c) (insert by_id x l) = filter (fun p => fst p =? c) (x :: l).
Proof.
  induction l as [|y t IH]; [reflexivity|]. cbn [insert]. unfold by_id at 1. destruct (Nat.leb_spec (fst x) (fst y)) as [L|L]; [reflexivity|].
  cbn [filter] in *. rewrite IH. destruct (Nat.eqb_spec (fst x) c), (Nat.eqb_spec (fst y) c); try reflexivity. lia.
Qed.
Lemma isort_stable c l : filter (fun p : nat * list nat => fst p =? c) (isort by_id l) = filter (fun p => fst p =? c) l.
Proof. induction l as [|x t IH]; [reflexivity|]. cbn [isort]. rewrite insert_stable. cbn [filter]. now rewrite IH. Qed.
Lemma isort_by_id l : StronglySorted le (map fst (isort by_id l)).
Proof.
  assert (X : StronglySorted (fun a b => by_id a b = true) (isort by_id l)).
  { apply isort_sorted; unfold by_id; intros; rewrite ?Nat.leb_le in *; lia. }
  induction X as [|a t X IH F]; cbn; constructor; [exact IH|]. rewrite Forall_forall in F |- *. intros y Hy. apply in_map_iff in Hy as (z & <- & Hz).
  apply F in Hz. unfold by_id in Hz. now apply Nat.leb_le.
Qed.

Section Many.
Context {X : Type}.
Variables (ids : X -> res (list nat)) (pairs : X -> res (list (nat * list nat))) (pts : X -> list nat).
Hypothesis H : forall x l, ids x = Ok l -> exists r, pairs x = Ok r /\ map fst r = l /\ forall cp, In cp r -> snd cp = pts x.

Definition turns (c : nat) (x : X) : list (list nat) := match ids x with Ok l => map (fun _ => pts x) (filter (Nat.eqb c) l) | _ => [] end.
Lemma one_many c x r : pairs x = Ok r -> (exists l, ids x = Ok l) -> map snd (filter (fun p => fst p =? c) r) = turns c x.
Proof.
  intros E (l & I). unfold turns. rewrite I. destruct (H x l I) as (r' & E' & M & P). assert (r' = r) by congruence. subst r' l. clear E E' I.
  induction r as [|[a b] t IH]; [reflexivity|]. cbn [map filter fst]. rewrite Nat.eqb_sym. destruct (Nat.eqb c a); cbn [map snd].
  - f_equal; [exact (P (a, b) (or_introl eq_refl))|apply IH; intros cp Hc; apply P; now right].
  - apply IH; intros cp Hc; apply P; now right.
Qed.
Lemma many_pairs xs : (forall x, In x xs -> exists l, ids x = Ok l) -> exists r, (let! ps := mapM pairs xs in Ok (isort by_id (List.concat ps))) = Ok r /\
  StronglySorted le (map fst r) /\
  (forall c ps, In (c, ps) r <-> exists x l, In x xs /\ ids x = Ok l /\ In c l /\ ps = pts x) /\
  forall c, map snd (filter (fun p => fst p =? c) r) = flat_map (turns c) xs.
Proof.
  intros A. assert (E : exists rs, mapM pairs xs = Ok rs /\ (forall c, map snd (filter (fun p => fst p =? c) (List.concat rs)) = flat_map (turns c) xs)).
  { induction xs as [|x t IH]; [exists []; split; reflexivity|]. destruct (A x (or_introl eq_refl)) as (l & I). destruct (H x l I) as (r & E & M & P).
    destruct IH as (rs & Er & F); [intros y Hy; apply A; now right|]. exists (r :: rs). cbn [mapM]. rewrite E. cbn [bind]. rewrite Er. split; [reflexivity|].
    intros c. cbn [List.concat flat_map]. rewrite filter_app, map_app, F, (one_many c x r E) by eauto. reflexivity. }
  destruct E as (rs & E & F). rewrite E. cbn [bind]. eexists. split; [reflexivity|]. split; [apply isort_by_id|].
  assert (Fl : forall c, map snd (filter (fun p => fst p =? c) (isort by_id (List.concat rs))) = flat_map (turns c) xs) by (intros c; rewrite isort_stable; apply F).
  split; [|exact Fl]. intros c ps. transitivity (In ps (flat_map (turns c) xs)).
  - rewrite <- Fl, in_map_iff. split.
    + intros I. exists (c, ps). split; [reflexivity|]. apply filter_In. split; [exact I|]. apply Nat.eqb_refl.
    + intros ([c' q] & <- & I). apply filter_In in I as (I & Eq). apply Nat.eqb_eq in Eq. cbn in Eq. now subst c'.
  - rewrite in_flat_map. split.
    + intros (x & Ix & I). unfold turns in I. destruct (A x Ix) as (l & El). rewrite El in I. apply in_map_iff in I as (c' & <- & I). apply filter_In in I as (I & Eq).
      apply Nat.eqb_eq in Eq. subst c'. exists x, l. auto.
    + intros (x & l & Ix & El & Ic & ->). exists x. split; [exact Ix|]. unfold turns. rewrite El. apply in_map_iff. exists c. split; [reflexivity|]. apply filter_In. split; [exact Ic|]. apply Nat.eqb_refl.
Qed.
End Many.

(* density *)
Lemma pairs_below n : List.length (list_prod (seq 0 n) (seq 0 n)) = n * n.
Proof. rewrite prod_length, seq_length. reflexivity. Qed.
Definition triangle (n : nat) : list (nat * nat) := flat_map (fun b => map (fun a => (a, b)) (seq 0 b)) (seq 0 n).
Lemma in_triangle n a b : In (a, b) (triangle n) <-> a < b /\ b < n.
Proof.
  unfold triangle. rewrite in_flat_map. split.
  - intros (b' & I & J). apply in_seq in I. apply in_map_iff in J as (a' & E & J). injection E as <- <-. apply in_seq in J. lia.
  - intros (L & M). exists b. split; [apply in_seq; lia|]. apply in_map_iff. exists a. split; [reflexivity|]. apply in_seq. lia.
Qed.
Lemma triangle_length n : 2 * List.length (triangle n) = n * (n - 1).
Proof.
  unfold triangle. induction n as [|n IH]; [reflexivity|]. rewrite seq_S, flat_map_app, app_length. cbn [flat_map]. rewrite app_nil_r, map_length, seq_length. nia.
Qed.
Lemma triangle_nodup n : NoDup (triangle n).
Proof.
  unfold triangle. induction n as [|n IH]; [constructor|]. rewrite seq_S, flat_map_app. cbn [flat_map]. rewrite app_nil_r.
  apply nodup_app; [exact IH|apply FinFun.Injective_map_NoDup; [intros x y E; congruence|apply seq_NoDup]|].
  intros [a b] I J. change (In (a, b) (triangle n)) in I. apply in_triangle in I. apply in_map_iff in J as (x & E & _). injection E as <- <-. lia.
Qed.
Lemma edges_below g : ready g -> incl (get_edges g) (triangle (nv g)).
Proof.
  intros R [a b] I. apply (proj2 (get_edges_spec g (r_nodup g R))) in I as (L & E). apply in_triangle. split; [exact L|].
  pose proof (r_bounds g R a) as B. rewrite Forall_forall in B. apply B. exact E.
Qed.
Lemma twice_triangle n t : 1 <= n -> 2 * t = n * (n - 1) -> (2 * inject_Z (Z.of_nat t) == inject_Z (Z.of_nat n) * (inject_Z (Z.of_nat n) - 1))%Q.
Proof.
  intros N L. change 2%Q with (inject_Z 2). change 1%Q with (inject_Z 1). unfold Qminus. rewrite <- inject_Z_opp, <- inject_Z_plus, <- !inject_Z_mult, inject_Z_injective.
  apply (f_equal Z.of_nat) in L. rewrite !Nat2Z.inj_mul, Nat2Z.inj_sub in L by exact N. lia.
Qed.
Lemma inj_nat a b : (inject_Z (Z.of_nat a) == inject_Z (Z.of_nat b))%Q -> b = a.
Proof. intros H. apply (proj1 (inject_Z_injective _ _)) in H. lia. Qed.
Lemma inj_nat0 b : (0 == inject_Z (Z.of_nat b))%Q -> b = 0.
Proof. apply (inj_nat 0). Qed.
Lemma density_value g : ready g -> nedge g = List.length (get_edges g) -> 2 <= nv g ->
  (density g * inject_Z (Z.of_nat (List.length (triangle (nv g)))) == inject_Z (Z.of_nat (List.length (get_edges g))))%Q /\ 0 < List.length (triangle (nv g)).
Proof.
  intros R E N. pose proof (triangle_length (nv g)) as L. assert (P : 0 < List.length (triangle (nv g))) by nia. split; [|exact P].
  unfold density. fold (nv g). rewrite E. assert (B : Qle_bool (inject_Z (Z.of_nat (nv g))) 1 = false).
  { destruct (Qle_bool _ _) eqn:B; [|reflexivity]. apply Qle_bool_iff in B. unfold Qle in B. cbn in B. lia. }
  rewrite B. set (e := inject_Z (Z.of_nat (List.length (get_edges g)))). set (n := inject_Z (Z.of_nat (nv g))) in *.
  assert (T2 : (2 * inject_Z (Z.of_nat (List.length (triangle (nv g)))) == n * (n - 1))%Q).
  { apply twice_triangle; lia. }
  assert (Nz : ~ (n * (n - 1) == 0)%Q). { rewrite <- T2. intros Z0. assert (Z1 : (inject_Z (Z.of_nat (List.length (triangle (nv g)))) == inject_Z 0)%Q) by (change (inject_Z 0) with 0%Q; lra). apply (proj1 (inject_Z_injective _ _)) in Z1. lia. }
  assert (X : (inject_Z (Z.of_nat (List.length (triangle (nv g)))) == n * (n - 1) / 2)%Q) by (rewrite <- T2; field).
  rewrite X. field. split; intros Z0; apply Nz; [assert (n == 1)%Q as -> by lra; reflexivity|rewrite Z0; reflexivity].
Qed.
Lemma density_spec g : ready g -> nedge g = List.length (get_edges g) ->
  (nv g <= 1 -> density g = 0%Q) /\
  (2 <= nv g -> (density g * (inject_Z (Z.of_nat (nv g)) * (inject_Z (Z.of_nat (nv g)) - 1)) == 2 * inject_Z (Z.of_nat (List.length (get_edges g))))%Q /\
    (0 <= density g <= 1)%Q /\
    ((density g == 1)%Q <-> forall a b, a < nv g -> b < nv g -> a <> b -> GraphVocab.edge g a b) /\
    ((density g == 0)%Q <-> forall a b, a <> b -> ~ GraphVocab.edge g a b)).
Proof.
  intros R E. split.
  - intros N. unfold density. fold (nv g). assert (B : Qle_bool (inject_Z (Z.of_nat (nv g))) 1 = true) by (apply Qle_bool_iff; unfold Qle; cbn; lia). now rewrite B.
  - intros N. destruct (density_value g R E N) as (V & P). pose proof (triangle_length (nv g)) as L.
    set (t := List.length (triangle (nv g))) in *. set (k := List.length (get_edges g)) in *.
    destruct (get_edges_spec g (r_nodup g R)) as (Nd & In'). pose proof (edges_below g R) as Ic. pose proof (NoDup_incl_length Nd Ic) as Le. fold k t in Le.
    assert (T0 : (0 < inject_Z (Z.of_nat t))%Q) by (unfold Qlt; cbn; lia).
    assert (K0 : (0 <= inject_Z (Z.of_nat k))%Q) by (unfold Qle; cbn; lia).
    assert (K1 : (inject_Z (Z.of_nat k) <= inject_Z (Z.of_nat t))%Q) by (unfold Qle; cbn; lia).
    split; [|split; [split|split]].
    + rewrite <- V. assert (T2 : (2 * inject_Z (Z.of_nat t) == inject_Z (Z.of_nat (nv g)) * (inject_Z (Z.of_nat (nv g)) - 1))%Q) by (apply twice_triangle; lia).
      rewrite <- T2. ring.
    + apply Qnot_lt_le. intros Lt. rewrite <- V in K0. assert (density g * inject_Z (Z.of_nat t) < 0)%Q by nra. lra.
    + apply Qnot_lt_le. intros Lt. rewrite <- V in K1. assert (inject_Z (Z.of_nat t) < density g * inject_Z (Z.of_nat t))%Q by nra. lra.
    + assert (D1 : (density g == 1)%Q <-> k = t).
      { split.
        - intros D. rewrite D, Qmult_1_l in V. apply inj_nat in V; exact V.
        - intros Kt. rewrite Kt in V. apply (Qmult_inj_r _ _ (inject_Z (Z.of_nat t))); [lra|]. rewrite V. ring. }
      rewrite D1. split.
      * intros Kt a b Ha Hb Ne. assert (Inc : incl (triangle (nv g)) (get_edges g)) by (apply NoDup_length_incl; auto; fold k t; lia).
        destruct (Nat.lt_total a b) as [Lt|[Eq|Gt]]; [|contradiction|].
        -- apply (In' a b), Inc, in_triangle. lia.
        -- apply (r_sym g R). apply (In' b a), Inc, in_triangle. lia.
      * intros A. apply Nat.le_antisymm; [exact Le|]. apply NoDup_incl_length; [apply triangle_nodup|]. intros [a b] I. apply in_triangle in I. apply In'. split; [lia|]. apply A; lia.
    + assert (D0 : (density g == 0)%Q <-> k = 0).
      { split.
        - intros D. rewrite D, Qmult_0_l in V. apply inj_nat0 in V; exact V.
        - intros Kt. rewrite Kt in V. apply (Qmult_inj_r _ _ (inject_Z (Z.of_nat t))); [lra|]. rewrite V. cbn. ring. }
      rewrite D0. unfold k. split.
      * intros Z0 a b Ne Ed. apply length_zero_iff_nil in Z0. destruct (Nat.lt_total a b) as [Lt|[Eq|Gt]]; [|contradiction|].
        -- assert (X : In (a, b) (get_edges g)) by (apply In'; auto). rewrite Z0 in X. destruct X.
        -- assert (X : In (b, a) (get_edges g)) by (apply In'; split; [lia|now apply (r_sym g R)]). rewrite Z0 in X. destruct X.
      * intros A. destruct (get_edges g) as [|[a b] l]; [reflexivity|]. exfalso. destruct (proj1 (In' a b) (or_introl eq_refl)) as (Lt & Ed). apply (A a b); [lia|exact Ed].
Qed.

(* the printed pattern *)
Lemma upd_ok l j s : j < List.length l -> exists l', upd l j s = Ok l' /\ List.length l' = List.length l /\ forall d i, nth i l' d = if i =? j then s else nth i l d.
Proof.
  intros L. unfold upd. apply Nat.ltb_lt in L as B. rewrite B. eexists. split; [reflexivity|]. split.
  - rewrite app_length. cbn [List.length]. rewrite firstn_length, skipn_length. lia.
  - intros d i. destruct (Nat.eqb_spec i j) as [->|Ne].
    + rewrite app_nth2; rewrite firstn_length, min_l by lia; [|lia]. now rewrite Nat.sub_diag.
    + destruct (Nat.lt_total i j) as [Lt|[Eq|Gt]]; [|contradiction|].
      * rewrite app_nth1 by (rewrite firstn_length; lia). rewrite <- (firstn_skipn j l) at 2. rewrite app_nth1 by (rewrite firstn_length; lia). reflexivity.
      * rewrite app_nth2; rewrite firstn_length, min_l by lia; [|lia]. destruct (i - j) as [|q] eqn:Q; [lia|]. cbn [nth].
        rewrite <- (firstn_skipn (S j) l) at 2. rewrite app_nth2; rewrite firstn_length, min_l by lia; [|lia]. f_equal. lia.
Qed.
Lemma marks_ok : forall row l, Forall (fun j => j < List.length l) row -> exists l', foldM (fun l j => upd l j "#"%string) row l = Ok l' /\ List.length l' = List.length l /\
  forall d i, nth i l' d = if existsb (Nat.eqb i) row then "#"%string else nth i l d.
Proof.
  induction row as [|j t IH]; intros l F; [exists l; auto|]. inversion F as [|? ? F1 F2]; subst. cbn [foldM].
  destruct (upd_ok l j "#" F1) as (l1 & -> & L1 & N1). cbn [bind]. destruct (IH l1) as (l' & E & L' & N'); [now rewrite L1|].
  exists l'. split; [exact E|]. split; [congruence|]. intros d i. rewrite N', N1. cbn [existsb]. destruct (Nat.eqb i j), (existsb (Nat.eqb i) t); reflexivity.
Qed.
Lemma nth_repeat_any {A} (x : A) n i : nth i (repeat x n) x = x.
Proof. revert i. induction n; intros [|i]; cbn; auto. Qed.
Lemma row_ok n i row : i < n -> Forall (fun j => j < n) row -> exists r, pattern_row n i row = Ok r /\ List.length r = n /\
  forall j, j < n -> nth j r "."%string = if existsb (Nat.eqb j) row then "#"%string else if j =? i then "D"%string else "."%string.
Proof.
  intros Hi F. unfold pattern_row. destruct (upd_ok (repeat "."%string n) i "D") as (l & -> & L & N); [now rewrite repeat_length|]. cbn [bind]. rewrite repeat_length in L.
  destruct (marks_ok row l) as (r & E & Lr & Nr); [now rewrite L|]. exists r. split; [exact E|]. split; [congruence|]. intros j Hj. rewrite Nr, N, nth_repeat_any. reflexivity.
Qed.
Lemma pattern_ok g : in_bounds (adjacency g) -> exists rows, non_zero_pattern g = Ok rows /\ List.length rows = nv g /\
  forall i, i < nv g -> exists r, nth_error rows i = Some r /\ List.length r = nv g /\
    forall j, j < nv g -> nth j r "."%string = if existsb (Nat.eqb j) (nth i (adjacency g) []) then "#"%string else if j =? i then "D"%string else "."%string.
Proof.
  intros B. unfold non_zero_pattern. fold (nv g).
  assert (X : forall adj k, k + List.length adj <= nv g -> (forall i, Forall (fun j => j < nv g) (nth i adj [])) ->
    exists rows, mapM (fun ir => pattern_row (nv g) (fst ir) (snd ir)) (combine (seq k (List.length adj)) adj) = Ok rows /\ List.length rows = List.length adj /\
    forall i, i < List.length adj -> exists r, nth_error rows i = Some r /\ List.length r = nv g /\
      forall j, j < nv g -> nth j r "."%string = if existsb (Nat.eqb j) (nth i adj []) then "#"%string else if j =? k + i then "D"%string else "."%string).
  { induction adj as [|row t IH]; intros k Hk F; [exists []; repeat split; cbn; intros; lia|]. cbn [List.length seq combine mapM fst snd] in *.
    destruct (row_ok (nv g) k row ltac:(lia) (F 0)) as (r & -> & Lr & Nr). cbn [bind].
    destruct (IH (S k) ltac:(lia) (fun i => F (S i))) as (rows & -> & Lrs & Nrs). cbn [bind]. exists (r :: rows). split; [reflexivity|]. split; [cbn; lia|].
    intros [|i] Hi.
    - exists r. split; [reflexivity|]. split; [exact Lr|]. intros j Hj. rewrite Nr, Nat.add_0_r by exact Hj. reflexivity.
    - destruct (Nrs i ltac:(lia)) as (r' & E & Lr' & N'). exists r'. split; [exact E|]. split; [exact Lr'|]. intros j Hj. rewrite N' by exact Hj. cbn [nth]. now rewrite Nat.add_succ_r. }
  exact (X (adjacency g) 0 (le_n _) B).
Qed.
Lemma slen_app s t : String.length (s ++ t)%string = String.length s + String.length t.
Proof. induction s; cbn; auto. Qed.
Lemma blanks_len n : String.length (blanks n) = n.
Proof. induction n; cbn; auto. Qed.
Lemma spaced_len r : Forall (fun s => String.length s = 1) r -> String.length (fold_right (fun s t => " " ++ s ++ t)%string EmptyString r) = 2 * List.length r.
Proof. induction 1 as [|s t H F IH]; [reflexivity|]. cbn [fold_right List.length]. rewrite !slen_app, IH, H. cbn. lia. Qed.
Lemma printed_ok g : in_bounds (adjacency g) -> exists rows lines, non_zero_pattern g = Ok rows /\ print_non_zero_pattern g = Ok lines /\
  List.length lines = nv g + 3 /\ (forall l, In l (tl lines) -> String.length l = 2 * nv g + 3) /\
  forall i r, nth_error rows i = Some r -> nth_error lines (S (S i)) = Some ("|" ++ fold_right (fun s t => " " ++ s ++ t) EmptyString r ++ " |")%string.
Proof.
  intros B. destruct (pattern_ok g B) as (rows & E & L & N). unfold print_non_zero_pattern. rewrite E. cbn [bind]. fold (nv g). exists rows. eexists. split; [reflexivity|]. split; [reflexivity|].
  split; [rewrite !app_length, map_length, L; cbn; lia|]. split.
  - cbn [app tl]. intros l [<-|I]; [rewrite !slen_app, blanks_len; cbn; lia|]. apply in_app_iff in I as [I|[<-|[]]]; [|rewrite !slen_app, blanks_len; cbn; lia].
    apply in_map_iff in I as (r & <- & I). apply In_nth_error in I as (i & I).
    assert (Hi : i < nv g) by (rewrite <- L; apply nth_error_Some; congruence). destruct (N i Hi) as (r' & E' & Lr & Nr). assert (r' = r) by congruence. subst r'.
    rewrite !slen_app, spaced_len, Lr; [cbn; lia|]. apply Forall_forall. intros s Is. apply (In_nth _ _ "."%string) in Is as (j & Hj & <-). rewrite Nr by lia.
    destruct (existsb _ _); [reflexivity|]. destruct (j =? i); reflexivity.
  - intros i r Hr. cbn [app nth_error]. rewrite nth_error_app1 by (rewrite map_length; apply nth_error_Some; congruence). now rewrite nth_error_map, Hr.
Qed.
