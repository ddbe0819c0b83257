(* Printed summaries of grids: proofs. *)
From Coq Require Import String List Arith Bool Reals ZArith Lra Lia Permutation Sorted.
From Verif Require Import Base BaseFacts Kind MeshModel MeshQuerySpec TopoModel TopoMaps TopoFeat4 SearchProof2 GeomModel GridModel GridSpec GridProof GridProof3
  GridCellsModel GridCellsSpec GridCellsProof GridCellsProof2 GridCellsProof3 GridReportModel GridReportSpec.
Import ListNotations.
Open Scope nat_scope.

(* no key twice, no id twice, no container empty *)
Definition tidy {C} (ids_of : C -> list nat) (cs : list (nat * C)) : Prop :=
  NoDup (map fst cs) /\ forall k c, In (k, c) cs -> NoDup (ids_of c) /\ ids_of c <> [].

Section Sh.
Variable sh : list nat -> list nat.
Variable shc : list (nat * list nat) -> list (nat * list nat).
Hypothesis SH : forall l, Permutation (sh l) l.
Hypothesis SHC : forall l, Permutation (shc l) l.

Lemma sh_in l x : In x (sh l) <-> In x l.
Proof. split; apply Permutation_in; [|apply Permutation_sym]; apply SH. Qed.
Lemma sh_nodup l : NoDup l -> NoDup (sh l).
Proof. apply Permutation_NoDup. apply Permutation_sym, SH. Qed.
Lemma sort_in l x : In x (isort Nat.leb (sh l)) <-> In x l.
Proof. rewrite isort_in. apply sh_in. Qed.
Lemma sort_lt l : NoDup l -> increasing (isort Nat.leb (sh l)).
Proof. intros H. apply isort_lt. now apply sh_nodup. Qed.
Lemma sort_len l : List.length (isort Nat.leb (sh l)) = List.length l.
Proof. rewrite isort_length. apply Permutation_length, SH. Qed.

Lemma rows_ok {C} (ids_of : C -> list nat) cs : tidy ids_of cs -> exists rows, report_rows sh ids_of cs = Ok rows /\ listing rows /\
  List.length rows = List.length cs /\
  (forall k, In k (map fst rows) <-> In k (map fst cs)) /\
  (forall k id, (exists ids, In (k, ids) rows /\ In id ids) <-> exists c, mget Nat.eqb cs k = Some c /\ In id (ids_of c)).
Proof.
  intros (N & T). unfold report_rows.
  set (ks := isort Nat.leb (sh (map fst cs))).
  set (f := fun k => (k, isort Nat.leb (sh (match mget Nat.eqb cs k with Some c => ids_of c | None => [] end)))).
  assert (IK : forall k, In k ks <-> In k (map fst cs)) by (intros k; apply sort_in).
  assert (E : mapM (fun k => let! c := unwrap (mget Nat.eqb cs k) in Ok (k, isort Nat.leb (sh (ids_of c)))) ks = Ok (map f ks)).
  { apply mapM_total. intros k Hk. apply IK in Hk. destruct (mget Nat.eqb cs k) as [c|] eqn:E.
    - cbn [unwrap bind]. unfold f. now rewrite E.
    - apply (mget_none Nat.eqb nat_eqb_eq) in E. contradiction. }
  exists (map f ks). split; [exact E|].
  assert (MF : map fst (map f ks) = ks) by (rewrite map_map; apply map_id).
  split; [split|].
  - rewrite MF. apply sort_lt. exact N.
  - intros k ids H. apply in_map_iff in H as (k' & H & Hk). unfold f in H. injection H as <- <-. apply IK in Hk.
    destruct (mget Nat.eqb cs k') as [c|] eqn:EC; [|apply (mget_none Nat.eqb nat_eqb_eq) in EC; contradiction].
    apply (mget_in Nat.eqb nat_eqb_eq) in EC. destruct (T k' c EC) as (T1 & T2). split; [apply sort_lt; exact T1|].
    intros Q. apply T2. apply length_zero_iff_nil. rewrite <- sort_len, Q. reflexivity.
  - split; [rewrite map_length; unfold ks; rewrite sort_len; apply map_length|]. split; [intros k; rewrite MF; apply IK|].
    intros k id. split.
    + intros (ids & H & I). apply in_map_iff in H as (k' & H & Hk). unfold f in H. injection H as <- <-. apply IK in Hk.
      destruct (mget Nat.eqb cs k') as [c|] eqn:EC; [|apply (mget_none Nat.eqb nat_eqb_eq) in EC; contradiction].
      exists c. split; auto. exact (proj1 (sort_in _ _) I).
    + intros (c & H & I). exists (isort Nat.leb (sh (ids_of c))). split; [|now apply sort_in].
      apply in_map_iff. exists k. split; [unfold f; now rewrite H|]. apply IK.
      apply (mget_in Nat.eqb nat_eqb_eq) in H. apply in_map_iff. exists (k, c). auto.
Qed.
Lemma unique_in rows id : In id (unique_items rows) <-> listed rows id.
Proof.
  unfold unique_items. rewrite (fold_sadd_in Nat.eqb nat_eqb_eq), in_flat_map. unfold listed. split.
  - intros [[]|((k, ids) & A & B)]. exists k, ids. auto.
  - intros (k & ids & A & B). right. exists (k, ids). auto.
Qed.
Lemma unique_nodup rows : NoDup (unique_items rows).
Proof. apply (fold_sadd_nodup Nat.eqb nat_eqb_eq). constructor. Qed.
Lemma same_count (l l' : list nat) : NoDup l -> NoDup l' -> (forall x, In x l <-> In x l') -> List.length l = List.length l'.
Proof. intros A B H. apply Permutation_length. apply NoDup_Permutation; auto. Qed.

(* ---- GridSearch ---- *)
Open Scope R_scope.
Definition kept (g : grid) : Prop := forall k c, In (k, c) (g_containers g) -> c <> [] /\ (k < grid_size (g_ndiv g))%nat.
Lemma keyof_lt g x cs : wf g -> locates g x cs -> (keyof g cs < grid_size (g_ndiv g))%nat.
Proof.
  intros W (L & Lc & H). unfold keyof. pose proof (wf_ndiv g W) as LN. destruct (wf_ndim g W) as [E|E]; rewrite E in *.
  - apply nlen2 in LN as (n0 & n1 & EN). apply nlen2 in Lc as (c0 & c1 & ->). rewrite EN in *.
    pose proof (H 0%nat ltac:(lia)) as (A & _). pose proof (H 1%nat ltac:(lia)) as (B & _). cbn [nth grid_size fold_right] in *. nia.
  - apply nlen3 in LN as (n0 & n1 & n2 & EN). apply nlen3 in Lc as (c0 & c1 & c2 & ->). rewrite EN in *.
    pose proof (H 0%nat ltac:(lia)) as (A & _). pose proof (H 1%nat ltac:(lia)) as (B & _). pose proof (H 2%nat ltac:(lia)) as (C & _). cbn [nth grid_size fold_right] in *.
    assert ((c0 + c1 * n0 < n0 * n1)%nat) by nia. assert ((c2 * (n0 * n1) + n0 * n1 <= n0 * n1 * n2)%nat) by nia. lia.
Qed.
Lemma key_lt g x k : wf g -> List.length x = g_ndim g -> grid_key g x = Ok (Some k) -> (k < grid_size (g_ndiv g))%nat.
Proof.
  intros W L E. destruct (inside_dec1 g x W) as [I|I].
  - destruct (proj1 (inside_iff g x W) I) as (cs & C). rewrite (key_loc g x cs W C) in E. injection E as <-. eapply keyof_lt; eauto.
  - rewrite (key_out g x W L I) in E. discriminate.
Qed.
Lemma mput_ne {V} (m : list (nat * V)) k v : mput Nat.eqb m k v <> [].
Proof. destruct m as [|(k', v') m]; cbn; [discriminate|]. destruct (Nat.eqb k' k); discriminate. Qed.
Lemma upd_kept g key id x : wf g -> kept g -> (key < grid_size (g_ndiv g))%nat -> kept (update_or_insert g key id x).
Proof.
  intros W K L k c H. cbn in H. cbn [g_ndiv update_or_insert]. apply mput_in in H; [|apply (wf_keys g W)].
  destruct H as [(-> & ->)|(_ & H)]; [split; auto; apply mput_ne|apply (K k c H)].
Qed.
Lemma halo_len g x hs y : wf g -> List.length x = g_ndim g -> halo g x = Ok hs -> In y hs -> List.length y = g_ndim g.
Proof.
  intros W L E I. unfold halo in E. destruct (wf_ndim g W) as [D|D]; rewrite D in *.
  - apply nlen2 in L as (a & b & ->). cbn in E. injection E as <-. cbn in I. repeat (destruct I as [<-|I]; [reflexivity|]). destruct I.
  - apply nlen3 in L as (a & b & c & ->). cbn in E. injection E as <-. cbn in I. repeat (destruct I as [<-|I]; [reflexivity|]). destruct I.
Qed.
Lemma insert_kept g id x g' : wf g -> kept g -> grid_insert g id x = Ok g' -> kept g'.
Proof.
  intros W K E. unfold grid_insert in E. destruct (List.length x =? g_ndim g)%nat eqn:L; [|discriminate]. apply Nat.eqb_eq in L. cbn [negb] in E.
  destruct (grid_key g x) as [[key|]| | |] eqn:EK; try discriminate. cbn [bind] in E.
  pose proof (key_lt g x key W L EK) as LK. pose proof (upd_wf g key id x W) as W1. pose proof (upd_kept g key id x W K LK) as K1.
  assert (D1 : g_ndim (update_or_insert g key id x) = g_ndim g) by reflexivity.
  set (g1 := update_or_insert g key id x) in *. clearbody g1.
  destruct (halo g1 x) as [hs| | |] eqn:EH; try discriminate. cbn [bind] in E.
  assert (HL : forall y, In y hs -> List.length y = g_ndim g1) by (intros y; apply (halo_len g1 x hs y W1); congruence).
  clear EH EK L W K LK D1.
  revert g1 W1 K1 E HL. induction hs as [|y hs IH]; intros g1 W1 K1 E HL; cbn [foldM] in E; [now injection E as <-|].
  destruct (grid_key g1 y) as [[kc|]| | |] eqn:EK; try discriminate; cbn [bind] in E.
  - destruct (kc =? key)%nat.
    + cbn [bind] in E. apply (IH g1); auto. intros z Hz. apply HL. right. exact Hz.
    + cbn [bind] in E. apply (IH (update_or_insert g1 kc id x)); auto.
      * apply upd_wf. exact W1.
      * apply upd_kept; auto. apply (key_lt g1 y kc); auto. apply HL. left. reflexivity.
      * intros z Hz. cbn [g_ndim update_or_insert]. apply HL. right. exact Hz.
  - apply (IH g1); auto. intros z Hz. apply HL. right. exact Hz.
Qed.
Lemma all_kept g0 : wf g0 -> g_containers g0 = [] -> forall h g, insert_all g0 h = Ok g -> kept g.
Proof.
  intros W0 E0 h. induction h as [|(id, x) h IH] using rev_ind; intros g E.
  - injection E as <-. intros k c H. rewrite E0 in H. destruct H.
  - unfold insert_all in E. rewrite foldM_app in E.
    match type of E with (bind ?r _ = _) => destruct r as [g1| | |] eqn:E1; try discriminate end. cbn [bind foldM fst snd] in E.
    pose proof (h_wf _ _ _ (insert_all_holds g0 W0 E0 h g1 E1)) as W1.
    destruct (grid_insert g1 id x) as [g2| | |] eqn:E2; try discriminate. injection E as <-. eapply insert_kept; eauto.
Qed.
Lemma last_exists (h : history) id : (exists x, In (id, x) h) -> exists x, last_insertion h id x.
Proof.
  induction h as [|(id', x') h IH] using rev_ind; intros (x & H); [destruct H|].
  destruct (Nat.eq_dec id' id) as [->|N].
  - exists x', h, []. split; auto.
  - destruct IH as (y & h1 & h2 & E & Q).
    + exists x. apply in_app_or in H as [H|[H|[]]]; auto. injection H as <- <-. congruence.
    + exists y, h1, (h2 ++ [(id', x')]). split; [rewrite E, <- app_assoc; reflexivity|]. rewrite map_app. intros I. apply in_app_or in I as [I|[I|[]]]; auto.
Qed.
Lemma cell_covers g x cs : wf g -> locates g x cs -> covers (g_ndiv g) (g_xmin g) (g_side g) (keyof g cs) x.
Proof.
  intros W (L & Lc & H). exists cs. rewrite (wf_ndiv g W). split; auto. split.
  - unfold keyof. nia.
  - intros i Hi. destruct (H i Hi) as (A & B & C). split; auto. destruct C as [C|(C1 & C2)]; [split; lra|].
    split; [lra|]. rewrite <- C1, plus_INR in C2. cbn [INR] in C2. lra.
Qed.

Lemma search_report g0 h g : wf g0 -> g_containers g0 = [] -> insert_all g0 h = Ok g ->
  exists rows ids, grid_report sh g = Ok (mkReport rows ids (List.length ids) (List.length rows) (g_ndiv g)) /\ listing rows /\ increasing ids /\
    (forall id, In id ids <-> exists x, In (id, x) h) /\
    (forall id, listed rows id <-> In id ids) /\
    (forall k, In k (map fst rows) -> (k < grid_size (g_ndiv g))%nat) /\
    (forall id x, last_insertion h id x -> exists k l, In (k, l) rows /\ In id l /\ covers (g_ndiv g) (g_xmin g) (g_side g) k x).
Proof.
  intros W0 E0 E. pose proof (insert_all_holds g0 W0 E0 h g E) as H. pose proof (all_kept g0 W0 E0 h g E) as K. destruct H as [W S F B O N].
  assert (T : tidy (map fst) (g_containers g)).
  { split; [apply (wf_keys g W)|]. intros k c I. split; [apply (wf_ids g W k c I)|]. destruct (K k c I) as (Q & _). destruct c; [contradiction|discriminate]. }
  destruct (rows_ok (map fst) (g_containers g) T) as (rows & ER & LR & LL & KR & IR).
  unfold grid_report. rewrite ER. cbn [bind].
  exists rows, (isort Nat.leb (sh (unique_items rows))). split; [rewrite sort_len, LL; reflexivity|]. split; auto.
  split; [apply sort_lt, unique_nodup|].
  assert (OWN : forall id x, last_insertion h id x -> exists k l, In (k, l) rows /\ In id l /\ covers (g_ndiv g) (g_xmin g) (g_side g) k x).
  { intros id x HL. assert (I0 : inside g0 x) by (apply (B id x); destruct HL as (h1 & h2 & -> & _); apply in_or_app; right; left; reflexivity).
    destruct (proj1 (inside_iff g0 x W0) I0) as (cs & C). destruct (O id x cs HL C) as (c & E1 & E2).
    destruct (proj2 (IR (keyof g0 cs) id)) as (l & I1 & I2).
    { exists c. split; auto. apply (mget_in Nat.eqb nat_eqb_eq) in E2. apply in_map_iff. exists (id, x). auto. }
    exists (keyof g0 cs), l. split; auto. split; auto. rewrite <- (same_keyof g0 g) by auto. apply cell_covers; auto. apply (same_locates g0 g); auto. }
  split.
  - intros id. rewrite sort_in, unique_in. split.
    + intros (k & l & I1 & I2). destruct (proj1 (IR k id)) as (c & E1 & E2); [exists l; auto|].
      destruct (mget Nat.eqb c id) as [x|] eqn:E3; [|apply (mget_none Nat.eqb nat_eqb_eq) in E3; contradiction].
      exists x. apply (F k). exists c. auto.
    + intros I. destruct (last_exists h id I) as (x & HL). destruct (OWN id x HL) as (k & l & I1 & I2 & _). exists k, l. auto.
  - split; [intros id; rewrite sort_in; symmetry; apply unique_in|]. split; [|exact OWN].
    intros k I. apply KR in I. apply in_map_iff in I as ((k', c) & <- & I). apply (K k' c I).
Qed.
End Sh.
