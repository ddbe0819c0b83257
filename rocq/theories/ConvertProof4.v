(* Proofs about the conversion of meshes: one cell, all cells *)
From Coq Require Import String Reals QArith Qreals List Arith Bool ZArith Lia Lra Permutation.
From Verif Require Import Base BaseFacts Kind ShapesModel ShapesProof ShapesTables MeshModel MeshQuerySpec TopoModel TopoSpec TopoMaps TopoProof TopoFeat TopoFeat4 TopoFeat5 PadModel PadSpec PadProof PadProof2 PadProof4 ConvertModel ConvertSpec ConvertProof ConvertProof2 ConvertProof3.
Import ListNotations.
Local Open Scope list_scope.
Local Open Scope nat_scope.

Section Loop.
Variable leb : R -> R -> bool.
Variable shuffle : emap -> emap.
Variable m : mesh R.
Variables source target : geokind.
Hypothesis C : consistent m.
Hypothesis K : coords_complete m.
Hypothesis D : ndim m = 2.
Hypothesis Ps : plane source.
Hypothesis Ec : kind_class target = kind_class source.
Hypothesis One : one_kind m source.
Variable ft : @features R.
Hypothesis Ft : features_new leb shuffle m true = Ok ft.
Variable n2e : list (option nat).
Hypothesis N2E : node_to_edge target = Ok n2e.

Notation nc := (ncorners source).
Notation tn := (kind_nnode target).
Notation ten := (kind_edge_nnode target).
Notation ncell := (List.length (cells m)).
Notation store := (store m source target).
Notation table := (table m source target).
Notation inv := (inv m source target).

Let Pt : plane target.
Proof. apply (class_facts source target Ps Ec). Qed.

Lemma fits_m : fits m.
Proof. intros c Hc. rewrite (One c Hc), D. destruct (plane_facts source Ps) as (-> & _). auto. Qed.

Lemma entry_upd rows k row c a : k < List.length rows ->
  entry (upd rows k row) c a = if c =? k then nth a row None else entry rows c a.
Proof.
  intros H. unfold entry. destruct (Nat.eqb_spec c k) as [->|N]; [rewrite nth_upd_same by auto; auto|rewrite nth_upd_other by auto; auto].
Qed.

Lemma convert_cell_ok k st : k < ncell -> inv k st ->
  exists st', convert_cell m ft source target n2e nc st k = Ok st' /\ inv (S k) st'.
Proof.
  intros Hk ((org & (SL & SN & SG & SC) & T1 & T2 & T3 & T4 & T5) & Lm & Zm & W & Kp & Sp).
  destruct (nth_error (cells m) k) as [cl|] eqn:Ecl; [|apply nth_error_None in Ecl; lia].
  assert (Hin : In cl (cells m)) by (eapply nth_error_In; eauto).
  assert (Ek : c_kind cl = source) by auto.
  destruct (plane_facts target Pt) as (_ & Hnt & _ & G2).
  destruct (class_facts source target Ps Ec) as (_ & ENC & _).
  unfold convert_cell. unfold get at 1. rewrite Ecl. cbn [bind].
  rewrite (proj2 (kind_eqb_eq _ _) Ek). cbn [negb].
  destruct (load_cell_ok m source C K D cl (v_pad st) Hin Ek W Kp Sp) as (p & -> & El & O). cbn [bind].
  destruct (edge_markers_ok m source target C D Ps Ec cl (v_marks st) Hin Ek Lm Zm) as (marks & -> & Lm' & Zm' & Hm). cbn [bind].
  rewrite (get_ok _ _ []) by lia. cbn [bind].
  destruct (foldM_from (corner_step m cl) (corner_inv m source target cl org) 0 nc (v_points st, v_corners st, nth k (v_rows st) [])) as (s1 & E1 & J).
  { exists []. rewrite app_nil_r. split; [split; auto|]. split; [apply T2; lia|]. split; [intros; lia|]. split.
    - intros b Hb. apply (T3 k b). lia.
    - intros; lia. }
  { intros a s [_ Ha] J. apply (corner_step_ok m source target C D Ps Ec One k cl Ecl org a s); auto. }
  rewrite E1. cbn [bind]. destruct s1 as [[pts corners] con1]. simpl in J.
  destruct J as (ext1 & St1 & L1 & A1 & B1 & U1).
  assert (X : exists con2 nbs, (if 2 <? ten then let! nbs := get_neighbors_2d m ft k in foldM (neighbor_step target (v_rows st)) nbs con1 else Ok con1) = Ok con2 /\
     nb_inv source target k (v_rows st) con1 nbs con2 /\
     (forall e n ne, 2 < ten -> (In (e, n, ne) nbs <-> shares m k e n ne)) /\ (ten = 2 -> nbs = [])).
  { assert (B0 : nb_inv source target k (v_rows st) con1 [] con1).
    { split; [auto|]. split; [auto|]. intros b Hb. rewrite B1 by lia. intros e n ne i []. }
    destruct (Nat.ltb_spec 2 ten) as [G|G].
    - destruct (neighbors_total leb shuffle m true ft k C fits_m D Ft Hk) as (nbs & En). rewrite En. cbn [bind].
      destruct (neighbors_iff leb shuffle m true ft k nbs C fits_m D Ft En) as [_ Nb].
      destruct (foldM_list (neighbor_step target (v_rows st)) (nb_inv source target k (v_rows st) con1) nbs [] con1 B0) as (con2 & E2 & Q2).
      + intros pre [[e n] ne] post s Hs Qs.
        apply (neighbor_step_ok m source target C D Ps Ec One k (v_rows st) org con1 pre s e n ne); auto.
        * split; auto.
        * apply Nb. simpl in Hs. rewrite Hs. apply in_or_app. right. left. reflexivity.
      + exists con2, nbs. split; [auto|]. split; [exact Q2|]. split; [intros; apply Nb|intros; lia].
    - exists con1, []. split; [auto|]. split; [auto|]. split; [lia|auto]. }
  destruct X as (con2 & nbs & -> & (L2 & A2 & B2) & Nb & Nb0). cbn [bind].
  assert (Old : forall c b, In (ONode c b) (org ++ ext1) -> c < k).
  { intros c b I. apply in_app_or in I as [I|I].
    - apply In_nth_error in I as (q & Hq). destruct (T5 q _ Hq) as (c' & a' & Hc' & _ & _ & -> & _). auto.
    - apply In_nth_error in I as (j & Hj). assert (j < List.length ext1) by (apply nth_error_Some; congruence).
      destruct (U1 (List.length org + j)) as (b' & o & _ & _ & V); [rewrite app_length; lia|].
      rewrite nth_error_app2 in V by lia. replace (List.length org + j - List.length org) with j in V by lia. congruence. }
  destruct (foldM_from (node_step target n2e marks) (node_inv m source target k cl corners (org ++ ext1) con2) nc (tn - nc) (pts, con2, p)) as (s3 & E3 & J3).
  { exists []. rewrite app_nil_r. split; [auto|]. split; [auto|]. split; [|split; [auto|split; [intros; lia|auto]]].
    intros b Hb. destruct (nth b con2 None) eqn:E; [auto|]. intros; lia. }
  { intros a s Ha J. apply (node_step_ok m source target C D Ps Ec One n2e N2E k cl Ecl corners (org ++ ext1) con2 marks a s); auto. lia. }
  rewrite E3. cbn [bind]. destruct s3 as [[pts3 con3] p3]. simpl in J3. replace (nc + (tn - nc)) with tn in J3 by lia.
  destruct J3 as (ext3 & St3 & L3 & A3 & B3 & U3 & El3 & O3).
  rewrite set_ok by lia. cbn [bind]. eexists. split; [reflexivity|].
  set (org' := (org ++ ext1) ++ ext3) in *.
  assert (Keep : forall q o, nth_error org q = Some o -> nth_error org' q = Some o)
    by (intros q o Hq; unfold org'; apply nth_error_left, nth_error_left; auto).
  assert (Keep1 : forall q o, nth_error (org ++ ext1) q = Some o -> nth_error org' q = Some o)
    by (intros q o Hq; unfold org'; apply nth_error_left; auto).
  assert (Cor : forall b, b < nc -> exists old q, nth_error (c_points cl) b = Some old /\ nth b con3 None = Some q /\ nth_error org' q = Some (OCorner old)).
  { intros b Hb. destruct (A1 b Hb) as (old & q & X & Y & Z). exists old, q. split; [auto|]. split; [|auto].
    specialize (A3 b ltac:(lia)). rewrite (A2 b Hb), Y in A3. auto. }
  split; [|simpl; split; [auto|split; [auto|]]].
  - exists org'. simpl. split; [exact St3|].
    split; [now rewrite upd_length|]. split; [|split; [|split]].
    + intros c Hc. destruct (Nat.eq_dec c k) as [->|N]; [rewrite nth_upd_same by lia; auto|rewrite nth_upd_other by lia; auto].
    + intros c a Hc. rewrite entry_upd by lia. destruct (Nat.eqb_spec c k); [lia|]. apply T3. lia.
    + intros c cl' a Hc Hcl Ha. rewrite entry_upd by lia. destruct (Nat.eqb_spec c k) as [->|N].
      * rewrite Ecl in Hcl. injection Hcl as <-. destruct (Nat.lt_ge_cases a nc) as [Hac|Hac].
        { destruct (Cor a Hac) as (old & q & X & Y & Z). exists q. split; [auto|]. split; [eauto|intros; lia]. }
        specialize (B2 a Hac). specialize (A3 a Ha). destruct (nth a con2 None) as [q|].
        { exists q. split; [auto|]. split; [intros; lia|]. intros _. right.
          destruct B2 as (e & n & ne & i & I & Hn & Hi & Ei & En). exists e, n, ne, i. split; [auto|].
          split; [apply Nb; auto; lia|]. split; [auto|]. split; [auto|].
          rewrite entry_upd by lia. destruct (Nat.eqb_spec n k); [lia|]. auto. }
        destruct (A3 Hac) as (q & X & Y). exists q. split; [auto|]. split; [intros; lia|]. intros _. left. split; [exact Y|].
        intros (e & n & ne & i & Hn & Sh & Hi & Ei). apply (B2 e n ne i); auto. apply Nb; auto. lia.
      * destruct (T4 c cl' a ltac:(lia) Hcl Ha) as (q & X & Y1 & Y2). exists q. split; [auto|]. split.
        { intros H. destruct (Y1 H) as (old & V & Z). eauto. }
        intros H. destruct (Y2 H) as [[V Z]|(e & n & ne & i & Hn & Sh & Hi & Ei & En)]; [left; auto|right].
        exists e, n, ne, i. do 4 (split; [auto|]). rewrite entry_upd by lia. destruct (Nat.eqb_spec n k); [lia|]. auto.
    + intros q o Hq. destruct (Nat.lt_ge_cases q (List.length org)) as [H1|H1].
      { unfold org' in Hq. rewrite <- app_assoc, nth_error_app1 in Hq by lia.
        destruct (T5 q o Hq) as (c & a & Hc & Ha & X & Y). exists c, a. split; [lia|]. split; [auto|]. split; [|auto].
        rewrite entry_upd by lia. destruct (Nat.eqb_spec c k); [lia|]. auto. }
      destruct (Nat.lt_ge_cases q (List.length (org ++ ext1))) as [H2|H2].
      { destruct (U1 q ltac:(lia)) as (b & old & Hb & X & Y). apply Keep1 in Y. rewrite Hq in Y. injection Y as ->.
        exists k, b. split; [lia|]. split; [lia|]. split; [|auto]. rewrite entry_upd, Nat.eqb_refl by lia.
        specialize (A3 b ltac:(lia)). rewrite (A2 b Hb), X in A3. auto. }
      destruct (U3 q) as (b & Hb & X & Y).
      { split; [lia|]. fold org'. apply nth_error_Some. congruence. }
      fold org' in Y. rewrite Hq in Y. injection Y as ->.
      exists k, b. split; [lia|]. split; [lia|]. split; [|auto]. rewrite entry_upd, Nat.eqb_refl by lia. auto.
  - destruct El3 as (W3 & K3 & S3 & _). split; [auto|]. split; [congruence|congruence].
Qed.

Lemma inv_0 p : pad_wf p -> p_kind p = source -> p_space p = 2 ->
  inv 0 (mkConv [] (repeat (repeat None tn) ncell) [] (repeat 0%Z (kind_nedge target)) p).
Proof.
  intros W Kp Sp. split; [|simpl; split; [apply repeat_length|split; [|auto]]].
  - exists []. split.
    + split; [auto|]. split; [constructor|]. split; [intros [|q] ? ?; discriminate|].
      intros old new. simpl. split; [discriminate|destruct new; discriminate].
    + assert (Row : forall c, c < ncell -> nth c (repeat (repeat (@None nat) tn) ncell) [] = repeat None tn).
      { intros c Hc. rewrite (nth_indep _ [] (repeat None tn)) by (rewrite repeat_length; auto). apply nth_repeat. }
      split; [apply repeat_length|]. simpl. split; [intros c Hc; rewrite Row by auto; apply repeat_length|].
      split; [|split; [intros; lia|intros [|q] ?; discriminate]].
      intros c a _. unfold entry. destruct (Nat.lt_ge_cases c ncell) as [H|H].
      * rewrite Row by auto. apply nth_repeat.
      * rewrite (nth_overflow (repeat _ _)) by (rewrite repeat_length; auto). destruct a; reflexivity.
  - intros _. apply Forall_forall. intros x Hx. apply repeat_spec in Hx. auto.
Qed.

Lemma mapM_some (l : list (option nat)) : (forall a, a < List.length l -> exists p, nth a l None = Some p) ->
  exists ps, mapM unwrap l = Ok ps /\ List.length ps = List.length l /\ forall a p, nth_error ps a = Some p <-> nth a l None = Some p.
Proof.
  induction l as [|o l IH]; intros H.
  - exists []. split; [auto|]. split; [auto|]. intros [|a] p; simpl; split; discriminate.
  - destruct IH as (ps & E & L & N).
    + intros a Ha. apply (H (S a)). simpl. lia.
    + destruct (H 0 ltac:(simpl; lia)) as (p & Hp). simpl in Hp. subst o. exists (p :: ps). simpl. rewrite E. simpl.
      split; [auto|]. split; [auto|]. intros [|a] q; simpl; [split; congruence|apply N].
Qed.

Lemma finish_ok (rows : list (list (option nat))) org : table ncell rows org ->
  exists cs, finish_cells m target rows = Ok cs /\ List.length cs = ncell /\
   forall c cl, nth_error (cells m) c = Some cl -> exists d, nth_error cs c = Some d /\
     c_id d = c /\ c_marker d = c_marker cl /\ c_kind d = target /\ List.length (c_points d) = tn /\
     forall a p, nth_error (c_points d) a = Some p <-> entry rows c a = Some p.
Proof.
  intros (T1 & T2 & _ & T4 & _). unfold finish_cells.
  assert (X : forall lo (cls : list cell) (rws : list (list (option nat))), List.length cls = List.length rws ->
    (forall c cl, nth_error cls c = Some cl -> List.length (nth c rws []) = tn /\ forall a, a < tn -> exists p, nth a (nth c rws []) None = Some p) ->
    exists cs, mapM (fun ic : nat * (cell * list (option nat)) =>
      let! ps := mapM unwrap (snd (snd ic)) in
      Ok (mkCell (fst ic) (c_marker (fst (snd ic))) target ps)) (combine (seq lo (List.length cls)) (combine cls rws)) = Ok cs /\
     List.length cs = List.length cls /\
     forall c cl, nth_error cls c = Some cl -> exists d, nth_error cs c = Some d /\
     c_id d = lo + c /\ c_marker d = c_marker cl /\ c_kind d = target /\ List.length (c_points d) = tn /\
     forall a p, nth_error (c_points d) a = Some p <-> nth a (nth c rws []) None = Some p).
  { intros lo cls. revert lo. induction cls as [|cl cls IH]; intros lo [|row rws] L H; try discriminate.
    - exists []. split; [auto|]. split; [auto|]. intros [|c] ?; discriminate.
    - destruct (H 0 cl eq_refl) as (Lr & Sr). simpl in Lr, Sr. rewrite <- Lr in Sr.
      destruct (mapM_some row Sr) as (ps & E & Lp & Np).
      destruct (IH (S lo) rws) as (cs & Ecs & Lcs & Hcs); [simpl in L; lia|intros c cl' Hc; apply (H (S c) cl' Hc)|].
      eexists. simpl. rewrite E. simpl. rewrite Ecs. simpl. split; [reflexivity|]. split; [simpl; lia|].
      intros [|c] cl' Hc; simpl in *.
      + injection Hc as <-. eexists. split; [reflexivity|]. simpl. split; [lia|]. split; [auto|]. split; [auto|]. split; [congruence|]. exact Np.
      + destruct (Hcs c cl' Hc) as (d & Hd & Id & Md). exists d. split; [auto|]. split; [lia|auto]. }
  apply (X 0 (cells m) rows); [auto|]. intros c cl Hc. assert (c < ncell) by (apply nth_error_Some; congruence).
  split; [auto|]. intros a Ha. destruct (T4 c cl a ltac:(auto) Hc Ha) as (p & Hp & _). eauto.
Qed.
End Loop.
