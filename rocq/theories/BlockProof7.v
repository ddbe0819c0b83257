(* One cell and its marks; the whole mesh. *)
From Coq Require Import String Reals QArith Qreals List Lia Lra Bool Arith ZArith Permutation Sorted.
From Verif Require Import Base BaseFacts TopoMaps Kind MeshModel TopoModel MeshQuerySpec ShapesModel ShapesSpec ShapesProof
  GeomModel GeomProof GridModel GridSpec PropGrid PadModel PadSpec PadProof PadProof2 PadProof4
  BlockModel BlockSpec BlockProof BlockProof2 BlockProof3 BlockProof4 BlockProof5 BlockProof6.
Import ListNotations.
Local Open Scope list_scope.
Local Open Scope R_scope.

Lemma kind_edges_nd nd k : (nd = 2 \/ nd = 3)%nat -> In k (targets nd) -> kind_nedge k = if (nd =? 2)%nat then 4%nat else 12%nat.
Proof. intros [-> | ->] H; simpl in H; repeat (destruct H as [<- |H]; [reflexivity|]); destruct H. Qed.
Lemma face_corner_nd k f j : In k (targets 3) -> (f < 6)%nat -> (j < 4)%nat -> (face_node_id k f j < 8)%nat.
Proof.
  intros H Hf Hj. simpl in H.
  repeat (destruct H as [<- |H]; [do 6 (destruct f as [|f]; [do 4 (destruct j as [|j]; [cbv; lia|]); lia|]); lia|]). destruct H.
Qed.
Section Cell.
Variables (b : block) (target edge_kind : geokind).
Variable sh : container -> container.
Variable shc : list (nat * nat) -> list (nat * nat).
Hypothesis Hsh : forall c, Permutation (sh c) c.
Hypothesis Hshc : forall l, Permutation (shc l) l.
Hypothesis W : wf_block b.
Hypothesis F : In target (targets (b_ndim b)).
Hypothesis Sp : spaced b target.
Hypothesis Ek : kind_edge_kind target = Some edge_kind.
Notation nd := (b_ndim b).
Notation nn := (kind_nnode target).
Notation ksi := (node_ksi b target).
Notation inv := (inv b target).
Notation cell_nodes := (cell_nodes b target).

Lemma node_get K idx pts m : cell_nodes K idx pts -> (m < nn)%nat -> exists q, get pts m = Ok q /\ nth_error pts m = Some q /\ nth_error K q = Some (ksi idx m).
Proof. intros [L H] Hm. destruct (H m Hm) as (q & Q1 & Q2). exists q. unfold get. rewrite Q1. auto. Qed.

(* what happens to a state while points are moved *)
Definition later (K : list (list R)) (st s : sub) : Prop :=
  same_rest st s /\ s_con s = s_con st /\ forall q, finished b target K st q -> finished b target K s q.
Lemma later_refl K st : later K st st. Proof. split; [repeat split|]. split; auto. Qed.
Lemma later_trans K s1 s2 s3 : later K s1 s2 -> later K s2 s3 -> later K s1 s3.
Proof. intros ((A1 & A2 & A3) & A4 & A5) ((B1 & B2 & B3) & B4 & B5). split; [repeat split; congruence|]. split; [congruence|auto]. Qed.
(* moving a list of points *)
Lemma moves_inv {A} D K st (f : sub -> A -> res sub) l (g : A -> nat) :
  (forall s x, In x l -> inv D K s -> exists y z, nth_error K (g x) = Some y /\ ~ keep b target y /\ List.length z = nd /\ (good b -> fin b target y z) /\
     f s x = let! l := move_point nd (s_points s) (g x) z in Ok (with_points s l)) ->
  inv D K st -> okerr False (foldM f l st) (fun s => inv D K s /\ later K st s /\ forall x, In x l -> finished b target K s (g x)).
Proof.
  intros H I.
  set (J := fun (done : list A) s => inv D K s /\ later K st s /\ forall x, In x done -> finished b target K s (g x)).
  apply (okerr_foldM False J f l []); [split; [exact I|split; [apply later_refl|intros x []]]|]. intros done x s Hx (I1 & Lt & Fn).
  destruct (H s x Hx I1) as (y & z & Q1 & Q2 & Q3 & Q4 & ->). destruct (move_inv b target W F D K s (g x) y z I1 Q1 Q2 Q3 Q4) as (l' & -> & I2 & Fx & Fo).
  simpl. split; [exact I2|]. split; [apply (later_trans K st s); auto; split; [repeat split|split; auto]|].
  intros x' Hx'. apply in_app_iff in Hx' as [Hx'|[<- |[]]]; auto.
Qed.

(* which nodes are at the ends of an edge with a moved point *)
Lemma con_pulled D K st idx e j' pid side : inv D K st -> valid_index b idx -> (e < kind_nedge target)%nat -> (j' < kind_edge_nnode target)%nat ->
  In (pid, side) (s_con st) -> nth_error K pid = Some (ksi idx (edge_node_id target e j')) -> on_side nd e side = Ok false ->
  pulled nd (block_map b) (con_of b) (projects b) (ksi idx (edge_node_id target e 0)) (ksi idx (edge_node_id target e 1)).
Proof.
  intros I V He Hj' Hcon Hpid Hon. destruct (edge_runs nd target edge_kind e (w_nd b W) F Ek He) as (d & Rn).
  assert (Hm : (edge_node_id target e j' < nn)%nat) by (apply (en_lt b target W F); auto).
  destruct (i_con _ _ _ _ _ I _ _ Hcon) as (x & X1 & _ & Hs & Cs & As & y & Ey). rewrite Hpid in X1. injection X1 as <-.
  pose proof (place_spec b _ W (node_ksi_length b target idx _) (node_clear b target W F Sp idx _ V Hm)) as Q. rewrite Ey in Q. destruct Q as [_ Q]. cbn [fst snd] in Q.
  destruct Q as (_ & _ & _ & _ & _ & _ & _ & Np).
  assert (Nb : ~ (at_side nd side (ksi idx (edge_node_id target e 0)) /\ at_side nd side (ksi idx (edge_node_id target e 1)))).
  { intros B. apply (edge_on_side b target edge_kind W F Sp Ek idx e side j' V He Hs Hj' As) in B. congruence. }
  assert (Hj : (j' = 0 \/ j' = 1)%nat).
  { destruct (Nat.eq_dec j' 0); auto. destruct (Nat.eq_dec j' 1); auto. exfalso.
    apply (at_side_node b target W F Sp) in As as [A1 A2]; auto. pose proof (r_mid _ _ _ _ _ Rn j' ltac:(lia)) as M. pose proof (per_pos target).
    assert (Hx : side_axis nd side <> d). { intros Q. rewrite Q in A2. unfold end_off in A2. destruct (side_high nd side); lia. }
    rewrite (r_const _ _ _ _ _ Rn) in A2 by (auto; apply side_axis_lt; auto; apply W). rewrite (r_off _ _ _ _ _ Rn side Hs Hx A2) in Hon. discriminate. }
  exists side, (ksi idx (edge_node_id target e j')). split; [split; auto|]. split; [destruct Hj as [-> | ->]; auto|]. auto.
Qed.
Lemma pulled_con D K st idx pts e : inv D K st -> cell_nodes K idx pts -> good b -> valid_index b idx -> (e < kind_nedge target)%nat ->
  pulled nd (block_map b) (con_of b) (projects b) (ksi idx (edge_node_id target e 0)) (ksi idx (edge_node_id target e 1)) ->
  exists pid side u, (u < kind_edge_nnode target)%nat /\ In (pid, side) (s_con st) /\ nth (edge_node_id target e u) pts 0%nat = pid /\ on_side nd e side = Ok false.
Proof.
  intros I N [Rg Ap] V He (s & x & Cs & Hx & As & Nb & Np). pose proof (ends_lt b target W F) as E2.
  assert (exists u, (u < 2)%nat /\ x = ksi idx (edge_node_id target e u)) as (u & Hu & ->) by (destruct Hx as [-> | ->]; [exists 0%nat|exists 1%nat]; auto).
  assert (Hm : (edge_node_id target e u < nn)%nat) by (apply (en_lt b target W F); auto; lia).
  destruct (node_get K idx pts _ N Hm) as (q & _ & Q1 & Q2). destruct (i_placed _ _ _ _ _ I _ (nth_error_In _ _ Q2)) as ([o y] & E).
  pose proof (place_moved b target W F Sp idx _ s o y Rg Ap V Hm E Cs As Np) as ->. pose proof (i_conv _ _ _ _ _ I q _ s y Q2 E) as Hin.
  destruct (edge_facts nd target (w_nd b W) F e He) as (_ & _ & _ & E4 & _). destruct (E4 s (proj1 Cs)) as (v & Ev).
  exists q, s, u. split; [lia|]. split; [auto|]. split; [apply nth_error_nth; auto|]. destruct v; [|exact Ev]. exfalso. apply Nb.
  apply (edge_on_side b target edge_kind W F Sp Ek idx e s u V He (proj1 Cs) ltac:(lia) As). exact Ev.
Qed.
Lemma interp_lin2 r : calc_interp Lin2 [r] = [(1 - r) / 2; (1 + r) / 2].
Proof. cbn. f_equal; [lra|]. f_equal. lra. Qed.
Lemma edge_ref_length k ek n : kind_edge_kind k = Some ek -> (n < kind_edge_nnode k)%nat -> List.length (reference_coords ek n) = 1%nat.
Proof. clear. intros E H. destruct k; try discriminate E; injection E as <-; vm_compute in H; repeat (destruct n as [|n]; [reflexivity|]); lia. Qed.
Lemma edge_ref j : (2 <= j < kind_edge_nnode target)%nat -> exists r, ref_coords edge_kind j = [r].
Proof.
  intros Hj. pose proof (edge_ref_length target edge_kind j Ek ltac:(lia)) as L.
  unfold ref_coords. destruct (reference_coords edge_kind j) as [|r [|r' l]]; try discriminate. exists (Q2R r). reflexivity.
Qed.

Lemma fix_edge_inv D K st idx pts pid side e : inv D K st -> cell_nodes K idx pts -> valid_index b idx -> has_constraints b = true ->
  In (pid, side) (s_con st) -> (e < kind_nedge target)%nat ->
  okerr False (fix_edge b target edge_kind pts pid side st e) (fun s => inv D K s /\ later K st s /\
    (on_side nd e side = Ok false -> forall u, (u < kind_edge_nnode target)%nat -> nth (edge_node_id target e u) pts 0%nat = pid ->
       forall j, (2 <= j < kind_edge_nnode target)%nat -> finished b target K s (nth (edge_node_id target e j) pts 0%nat))).
Proof.
  intros I N V HC Hcon He. unfold fix_edge.
  destruct (edge_facts nd target (w_nd b W) F e He) as (E1 & E2 & E3 & E4 & _).
  destruct (i_con _ _ _ _ _ I _ _ Hcon) as (x & X1 & Rg & Hs & _). destruct (E4 side Hs) as (v & Ev). rewrite Ev. cbn [bind].
  destruct v; [split; [exact I|split; [apply later_refl|discriminate]]|].
  assert (Pt : forall j, (j < kind_edge_nnode target)%nat -> edge_point target pts e j = Ok (nth (edge_node_id target e j) pts 0%nat) /\ nth_error K (nth (edge_node_id target e j) pts 0%nat) = Some (ksi idx (edge_node_id target e j))).
  { intros j Hj. destruct (node_get K idx pts _ N (E1 j Hj)) as (q & Q1 & Q2 & Q3). rewrite (nth_error_nth _ _ 0%nat Q2). auto. }
  set (g := fun j => nth (edge_node_id target e j) pts 0%nat) in *.
  assert (Em : mapM (edge_point target pts e) (seq 0 (kind_edge_nnode target)) = Ok (map g (seq 0 (kind_edge_nnode target)))).
  { apply mapM_total. intros j Hj. apply in_seq in Hj. apply Pt. lia. }
  rewrite Em. cbn [bind]. destruct (existsb (Nat.eqb pid) _) eqn:Ex; cbn [negb].
  2:{ split; [exact I|split; [apply later_refl|]]. intros _ u Hu Eu. exfalso. apply (proj2 (not_true_iff_false _) Ex). apply existsb_exists. exists pid. split; [|apply Nat.eqb_refl].
      apply in_map_iff. exists u. split; [exact Eu|apply in_seq; lia]. }
  apply existsb_exists in Ex as (q & Hq & Q). apply Nat.eqb_eq in Q. subst q. apply in_map_iff in Hq as (j' & Hj' & Hin). apply in_seq in Hin.
  assert (Kpid : nth_error K pid = Some (ksi idx (edge_node_id target e j'))) by (rewrite <- Hj'; apply Pt; lia).
  assert (P2 : (2 <= kind_edge_nnode target)%nat) by (rewrite (per_edge nd target (w_nd b W) F); pose proof (per_pos target); lia).
  destruct (Pt 0%nat ltac:(lia)) as (Ep0 & K0). destruct (Pt 1%nat ltac:(lia)) as (Ep1 & K1). fold (g 0%nat) in Ep0, K0. fold (g 1%nat) in Ep1, K1.
  destruct (aux_pad b target W D K st Lin2 [g 0%nat; g 1%nat] I) as (p & Ep & p' & Ep' & Wp & Op & Spc & Kp & Xp).
  { destruct (w_nd b W) as [Q|Q]; rewrite Q; cbv; lia. } { reflexivity. } { intros q [<- |[<- |[]]]; eauto. }
  rewrite Ep, Ep0, Ep1. cbn [bind]. rewrite Ep'. cbn [bind].
  assert (Has : forall u, (u < 2)%nat -> exists pt o, nth_error (s_points st) (g u) = Some pt /\ place b (ksi idx (edge_node_id target e u)) = Ok (o, pt_coords pt)).
  { intros u Hu. destruct (Pt u ltac:(lia)) as (_ & Ku). fold (g u) in Ku. assert (L : (g u < List.length (s_points st))%nat) by (rewrite (i_len _ _ _ _ _ I); apply nth_error_Some; congruence).
    destruct (nth_error (s_points st) (g u)) as [pt|] eqn:Ept; [|apply nth_error_None in Ept; lia]. exists pt.
    destruct (i_keep _ _ _ _ _ I (g u) pt _ Ept Ku) as (o & Eo); [right; right; left; exists idx, (edge_node_id target e u); destruct u as [|[|u]]; auto; lia|]. exists o. auto. }
  destruct (Has 0%nat ltac:(lia)) as (pt0 & o0 & Q0 & Pl0). destruct (Has 1%nat ltac:(lia)) as (pt1 & o1 & Q1 & Pl1).
  eapply okerr_mono; [apply (moves_inv D K st _ (seq 2 (kind_edge_nnode target - 2)) g)|auto|].
  2: exact I.
  - intros s j Hj Is. apply in_seq in Hj. destruct (Pt j ltac:(lia)) as (Eq & Kq). fold (g j) in Eq, Kq.
    destruct (pad_coords_ok p' (ref_coords edge_kind j) Wp Op) as (z & p2 & Ez & Lz & Xz & _). rewrite Spc in Ez, Lz, Xz.
    assert (Nk : ~ keep b target (ksi idx (edge_node_id target e j))) by (apply (mid_not_keep b target W F Sp D K st idx e j j' pid side); auto; lia).
    exists (ksi idx (edge_node_id target e j)), z. split; [auto|]. split; [exact Nk|]. split; [auto|]. split; [|rewrite Eq; cbn [bind]; rewrite Ez; reflexivity].
    intros [_ Ap]. apply (fin_edge b target edge_kind W F Sp Ek); auto; [lia|].
    assert (Fr : free nd (con_of b) (ksi idx (edge_node_id target e j))).
    { destruct (free_or b (ksi idx (edge_node_id target e j))) as [(s' & Cs' & As')|Fr]; [|exact Fr]. exfalso. apply Nk. right; right; right. split; auto. split; auto. exists s'. split; [apply Cs'|]. split; [apply Cs'|exact As']. }
    split; [intros H; contradiction|]. split; [intros _ _|intros _ Np; exfalso; apply Np; apply (con_pulled D K st idx e j' pid side); auto; lia].
    destruct (edge_runs nd target edge_kind e (w_nd b W) F Ek He) as (d & Rn).
    exists (param target e d j), (pt_coords pt0), (pt_coords pt1). split; [apply (frac_iff b target edge_kind W F e d j); auto; lia|].
    split; [apply (place_settled b target W F Sp idx _ o0); auto; apply E1; lia|]. split; [apply (place_settled b target W F Sp idx _ o1); auto; apply E1; lia|].
    split; [exact Lz|]. intros i Hi. rewrite (Xz i Hi). destruct (edge_ref j ltac:(lia)) as (r & Er). pose proof (r_ref _ _ _ _ _ Rn j ltac:(lia)) as Rr. rewrite Er in Rr |- *. cbn [nth] in Rr.
    unfold pos. rewrite Kp, interp_lin2. change (kind_nnode Lin2) with 2%nat. unfold sum_n. cbn [seq map fold_right nth].
    rewrite (Xp 0%nat (g 0%nat) pt0 i), (Xp 1%nat (g 1%nat) pt1 i) by auto. unfold param. rewrite <- Rr. unfold sum. cbn [fold_right]. lra.
  - intros s (I1 & Lt & Fn). split; [exact I1|]. split; [exact Lt|]. intros _ u Hu Eu j Hj. apply Fn. apply in_seq. lia.
Qed.

Lemma nth_firstn_err {A} (l : list A) n m : (m < n)%nat -> nth_error (firstn n l) m = nth_error l m.
Proof. revert n m. induction l as [|x l IH]; intros [|n] [|m] H; try lia; auto. simpl. apply IH. lia. Qed.
Definition after_check (k : geokind) : bool :=
  match serendipity k with Some s => forallb (fun i => (kind_nnode s <=? interior_node k i)%nat) (seq 0 (kind_n_interior_nodes k)) | None => true end.
Lemma after_checked k : after_check k = true. Proof. clear. destruct k; vm_compute; reflexivity. Qed.
Lemma interior_after ser i : serendipity target = Some ser -> (i < kind_n_interior_nodes target)%nat -> (kind_nnode ser <= interior_node target i)%nat.
Proof.
  clear. intros Es Hi. pose proof (after_checked target) as C. unfold after_check in C. rewrite Es, forallb_forall in C. apply Nat.leb_le, C, in_seq. lia.
Qed.
Lemma fix_interior_inv D K st idx pts : inv D K st -> cell_nodes K idx pts -> valid_index b idx -> has_constraints b = true -> (2 <= per target)%nat ->
  (forall m, (m < nn)%nat -> (forall i, (i < kind_n_interior_nodes target)%nat -> m <> interior_node target i) -> finished b target K st (nth m pts 0%nat)) ->
  okerr False (fix_interior b target pts st) (fun s => inv D K s /\ later K st s /\
    forall i, (i < kind_n_interior_nodes target)%nat -> finished b target K s (nth (interior_node target i) pts 0%nat)).
Proof.
  intros I N V HC Hp Fr. unfold fix_interior.
  destruct (kind_n_interior_nodes target =? 0)%nat eqn:Ez; [apply Nat.eqb_eq in Ez; split; [exact I|split; [apply later_refl|intros; lia]]|].
  apply Nat.eqb_neq in Ez. destruct (interior_serendipity nd target 0 (w_nd b W) F ltac:(lia)) as (ser & Es & Ef). rewrite Es.
  destruct (serendipity_facts nd target (w_nd b W) F ser Es) as (S1 & S2). pose proof N as [Lp Np].
  replace (List.length pts <? kind_nnode ser)%nat with false by (symmetry; apply Nat.ltb_ge; lia).
  destruct (aux_pad b target W D K st ser (firstn (kind_nnode ser) pts) I) as (p & Ep & p' & Ep' & Wp & Op & Spc & Kp & Xp).
  { lia. } { rewrite firstn_length. lia. }
  { intros q Hq. assert (Hq' : In q pts) by (rewrite <- (firstn_skipn (kind_nnode ser) pts); apply in_app_iff; auto).
    apply In_nth_error in Hq' as (m & Hm). destruct (Np m) as (q' & Q1 & Q2); [rewrite <- Lp; apply nth_error_Some; congruence|]. exists (ksi idx m). congruence. }
  rewrite Ep. cbn [bind]. rewrite Ep'. cbn [bind].
  assert (Pt : forall m, (m < nn)%nat -> nth_error pts m = Some (nth m pts 0%nat) /\ nth_error K (nth m pts 0%nat) = Some (ksi idx m) /\ exists pt, nth_error (s_points st) (nth m pts 0%nat) = Some pt).
  { intros m Hm. destruct (node_get K idx pts m N Hm) as (q & _ & Q2 & Q3). rewrite (nth_error_nth _ _ 0%nat Q2). split; [auto|]. split; [auto|].
    assert (L : (q < List.length (s_points st))%nat) by (rewrite (i_len _ _ _ _ _ I); apply nth_error_Some; congruence).
    destruct (nth_error (s_points st) q) as [pt|] eqn:Ept; [eauto|apply nth_error_None in Ept; lia]. }
  eapply okerr_mono; [apply (moves_inv D K st _ (seq 0 (kind_n_interior_nodes target)) (fun i => nth (interior_node target i) pts 0%nat))|auto|].
  2: exact I.
  - intros s i Hi Is. apply in_seq in Hi. destruct (interior_facts nd target (w_nd b W) F i ltac:(lia)) as (M & O).
    destruct (node_get K idx pts _ N M) as (q & Eq & Q2 & Kq). rewrite (nth_error_nth _ _ 0%nat Q2).
    destruct (pad_coords_ok p' (ref_coords target (interior_node target i)) Wp Op) as (z & p2 & Ez' & Lz & Xz & _). rewrite Spc in Ez', Lz, Xz.
    exists (ksi idx (interior_node target i)), z. split; [auto|]. split; [apply interior_not_keep; auto; lia|]. split; [auto|]. split; [|rewrite Ez'; cbn [bind]; rewrite Eq; reflexivity].
    intros G. apply (fin_inside b target edge_kind W F Sp Ek); auto; [lia|]. split; [intros _|intros No; exfalso; apply has_constraints_iff in HC as (s' & A); auto; apply (No s' A)].
    split; [exact Lz|]. rewrite Ef. exists (fun n => match nth_error (s_points st) (nth n pts 0%nat) with Some pt => pt_coords pt | None => [] end). split.
    + intros n Hn. destruct (Pt n ltac:(lia)) as (_ & Kn & pt & Ept). rewrite Ept.
      assert (Nint : forall i', (i' < kind_n_interior_nodes target)%nat -> n <> interior_node target i').
      { intros i' Hi' ->. pose proof (interior_after ser i' Es Hi'). lia. }
      apply (Fr n ltac:(lia) Nint pt _ Ept Kn G idx n V ltac:(lia) eq_refl).
    + intros a Ha. rewrite (Xz a Ha). unfold pos. rewrite Kp. apply sum_n_ext. intros n Hn. f_equal. destruct (Pt n ltac:(lia)) as (Pn & _ & pt & Ept). rewrite Ept.
      apply (Xp n (nth n pts 0%nat) pt a); auto. rewrite (nth_firstn_err pts (kind_nnode ser) n) by lia. exact Pn.
  - intros s (I1 & Lt & Fn). split; [exact I1|]. split; [exact Lt|]. intros i Hi. apply (Fn i). apply in_seq. lia.
Qed.

(* every node is a corner, on an edge or inside *)
Definition class_check (nd : nat) (k : geokind) : bool :=
  forallb (fun m => (m <? corners nd)%nat || existsb (fun e => existsb (fun j => (m =? edge_node_id k e j)%nat) (seq 2 (kind_edge_nnode k - 2))) (seq 0 (kind_nedge k)) ||
    existsb (fun i => (m =? interior_node k i)%nat) (seq 0 (kind_n_interior_nodes k))) (seq 0 (kind_nnode k)).
Lemma classes m : (m < nn)%nat -> (m < corners nd)%nat \/ (exists e j, (e < kind_nedge target)%nat /\ (2 <= j < kind_edge_nnode target)%nat /\ m = edge_node_id target e j) \/
  (exists i, (i < kind_n_interior_nodes target)%nat /\ m = interior_node target i).
Proof.
  intros Hm. assert (C : class_check nd target = true).
  { assert (H : forallb (class_check nd) (targets nd) = true) by (destruct (w_nd b W) as [-> | ->]; vm_compute; reflexivity). rewrite forallb_forall in H. auto. }
  unfold class_check in C. rewrite forallb_forall in C. specialize (C m ltac:(apply in_seq; lia)). rewrite !orb_true_iff in C. destruct C as [[C|C]|C].
  - left. apply Nat.ltb_lt; auto.
  - right; left. apply existsb_exists in C as (e & He & C). apply existsb_exists in C as (j & Hj & C). apply in_seq in He, Hj. apply Nat.eqb_eq in C. exists e, j. repeat split; auto; lia.
  - right; right. apply existsb_exists in C as (i & Hi & C). apply in_seq in Hi. apply Nat.eqb_eq in C. exists i. split; auto; lia.
Qed.
(* nodes that are not moved *)
Lemma corner_finished D K st idx pts m : inv D K st -> cell_nodes K idx pts -> valid_index b idx -> (m < corners nd)%nat -> finished b target K st (nth m pts 0%nat).
Proof.
  intros I N V Hm p x Hp Hx [Rg Ap]. pose proof (corner_nnode nd target (w_nd b W) F) as Cn. destruct (node_get K idx pts m N ltac:(lia)) as (q & _ & Q2 & Q3). rewrite (nth_error_nth _ _ 0%nat Q2) in Hp, Hx.
  rewrite Q3 in Hx. injection Hx as <-. destruct (i_keep _ _ _ _ _ I q p _ Hp Q3) as (o & Eo); [right; right; left; exists idx, m; auto|].
  apply (fin_corner b target edge_kind W F Sp Ek); auto. apply (place_settled b target W F Sp idx m o); auto. lia.
Qed.
Lemma edge_finished D K st idx pts e j : inv D K st -> cell_nodes K idx pts -> valid_index b idx -> (e < kind_nedge target)%nat -> (2 <= j < kind_edge_nnode target)%nat ->
  (good b -> pulled nd (block_map b) (con_of b) (projects b) (ksi idx (edge_node_id target e 0)) (ksi idx (edge_node_id target e 1)) -> finished b target K st (nth (edge_node_id target e j) pts 0%nat)) ->
  finished b target K st (nth (edge_node_id target e j) pts 0%nat).
Proof.
  intros I N V He Hj Pl p x Hp Hx G. assert (Hm := en_lt b target W F e j He ltac:(lia)). pose proof G as [Rg Ap]. destruct (node_get K idx pts _ N Hm) as (q & _ & Q2 & Q3).
  specialize (Pl G). unfold finished in Pl. rewrite (nth_error_nth _ _ 0%nat Q2) in Hp, Hx, Pl. rewrite Q3 in Hx. injection Hx as <-.
  destruct (i_pos _ _ _ _ _ I q p _ Hp Q3) as [(o & Eo)|Fn]; [|auto].
  apply (fin_edge b target edge_kind W F Sp Ek); auto. pose proof (place_settled b target W F Sp idx _ o _ Rg V Hm Eo) as Se. split; [auto|]. split.
  - intros Fr Pd. pose proof (Pl Pd p _ Hp Q3 G idx _ V Hm eq_refl) as [[_ A] _]. apply (A e j He Hj eq_refl); auto.
  - intros Fr _. apply (place_free b target W F Sp idx _ o); auto.
Qed.

Lemma fix_nodes_inv D K st idx pts : inv D K st -> cell_nodes K idx pts -> valid_index b idx ->
  okerr False (fix_nodes shc b target edge_kind pts st) (fun s => inv D K s /\ later K st s /\ forall m, (m < nn)%nat -> finished b target K s (nth m pts 0%nat)).
Proof.
  intros I N V. unfold fix_nodes. destruct (has_constraints b && (2 <? kind_edge_nnode target)%nat) eqn:E.
  2:{ split; [exact I|]. split; [apply later_refl|]. intros m Hm. destruct (classes m Hm) as [Hc|[(e & j & He & Hj & ->)|(i & Hi & ->)]].
      - apply (corner_finished D K st idx); auto.
      - apply (edge_finished D K st idx); auto. intros _ (s & x & Cs & _). exfalso. apply andb_false_iff in E as [E|E].
        + assert (has_constraints b = true) by (apply has_constraints_iff; auto; exists s; exact Cs). congruence.
        + apply Nat.ltb_ge in E. lia.
      - intros p x Hp Hx [Rg Ap]. destruct (interior_facts nd target (w_nd b W) F i Hi) as (M & O). destruct (node_get K idx pts _ N M) as (q & _ & Q2 & Q3). rewrite (nth_error_nth _ _ 0%nat Q2) in Hp, Hx.
        rewrite Q3 in Hx. injection Hx as <-. apply andb_false_iff in E as [E|E].
        + destruct (i_keep _ _ _ _ _ I q p _ Hp Q3 (or_introl E)) as (o & Eo). apply (fin_inside b target edge_kind W F Sp Ek); auto.
          assert (No : forall s, ~ con_of b s) by (intros s Cs; assert (has_constraints b = true) by (apply has_constraints_iff; auto; exists s; exact Cs); congruence).
          split; [intros (s & Cs); exfalso; apply (No s Cs)|intros _]. apply (place_free b target W F Sp idx _ o); auto. intros s Cs. exfalso. apply (No s Cs).
        + apply Nat.ltb_ge in E. rewrite (per_edge nd target (w_nd b W) F) in E. pose proof (O 0%nat ltac:(destruct (w_nd b W); lia)). lia. }
  apply andb_true_iff in E as [HC Hp]. apply Nat.ltb_lt in Hp. rewrite (per_edge nd target (w_nd b W) F) in Hp.
  set (done_edge := fun (s : sub) (ps : nat * nat) (e : nat) => on_side nd e (snd ps) = Ok false -> forall u, (u < kind_edge_nnode target)%nat -> nth (edge_node_id target e u) pts 0%nat = fst ps ->
       forall j, (2 <= j < kind_edge_nnode target)%nat -> finished b target K s (nth (edge_node_id target e j) pts 0%nat)).
  apply okerr_bind with (P := fun s => inv D K s /\ later K st s /\ forall ps e, In ps (shc (s_con st)) -> In e (seq 0 (kind_nedge target)) -> done_edge s ps e).
  - set (J := fun (done : list (nat * nat)) s => inv D K s /\ later K st s /\ forall ps e, In ps done -> In e (seq 0 (kind_nedge target)) -> done_edge s ps e).
    apply (okerr_foldM False J _ _ []); [split; [exact I|split; [apply later_refl|intros ps e []]]|]. intros done [pid side] s Hps (I1 & L1 & D1). cbn [fst snd].
    assert (Hin : In (pid, side) (s_con st)) by (apply (Permutation_in _ (Hshc (s_con st))); auto).
    set (J2 := fun (es : list nat) s2 => inv D K s2 /\ later K s s2 /\ forall e, In e es -> done_edge s2 (pid, side) e).
    eapply okerr_mono; [apply (okerr_foldM False J2 _ (seq 0 (kind_nedge target)) [] s)|auto|].
    + split; [exact I1|split; [apply later_refl|intros e []]].
    + intros es e s2 He (I2 & L2 & D2). apply in_seq in He.
      eapply okerr_mono; [apply (fix_edge_inv D K s2 idx pts pid side e); auto; [|lia]|auto|].
      { destruct L1 as (_ & C1 & _), L2 as (_ & C2 & _). rewrite C2, C1. exact Hin. }
      intros s3 (I3 & L3 & D3). split; [exact I3|]. split; [apply (later_trans K s s2); auto|]. intros e' He'. apply in_app_iff in He' as [He'|[<- |[]]]; [|exact D3].
      intros O u Hu Eu j Hj. apply L3. apply (D2 e' He' O u Hu Eu j Hj).
    + intros s2 (I2 & L2 & D2). split; [exact I2|]. split; [apply (later_trans K st s); auto|]. intros ps e Hps' He. apply in_app_iff in Hps' as [Hps'|[<- |[]]]; [|apply D2; auto].
      intros O u Hu Eu j Hj. apply L2. apply (D1 ps e Hps' He O u Hu Eu j Hj).
  - intros s (I1 & L1 & D1).
    assert (Ed : forall e j, (e < kind_nedge target)%nat -> (2 <= j < kind_edge_nnode target)%nat -> finished b target K s (nth (edge_node_id target e j) pts 0%nat)).
    { intros e j He Hj. apply (edge_finished D K s idx); auto. intros G Pd. destruct (pulled_con D K s idx pts e I1 N G V He Pd) as (pid & side & u & Hu & Hin & Eu & Os).
      apply (D1 (pid, side) e) with (u := u); auto; [|apply in_seq; lia]. apply (Permutation_in _ (Permutation_sym (Hshc (s_con st)))). destruct L1 as (_ & <- & _). exact Hin. }
    eapply okerr_mono; [apply (fix_interior_inv D K s idx pts); auto; [lia|]|auto|].
    { intros m Hm Ni. destruct (classes m Hm) as [Hc|[(e & j & He & Hj & ->)|(i & Hi & ->)]]; [apply (corner_finished D K s idx); auto|auto|exfalso; apply (Ni i Hi eq_refl)]. }
    intros s2 (I2 & L2 & Fi). split; [auto|]. split; [apply (later_trans K st s); auto|].
    intros m Hm. destruct (classes m Hm) as [Hc|[(e & j & He & Hj & ->)|(i & Hi & ->)]]; [apply (corner_finished D K s2 idx); auto|apply L2; auto|auto].
Qed.

(* ---------------------------------------------------------------- marks *)
Definition n_edges : nat := if (nd =? 2)%nat then 4%nat else 12%nat.
Definition edge_on (t : touch) (e : nat) : bool := if (nd =? 2)%nat then edge_on_2d t e else edge_on_3d t e.
Definition edge_mark (K : list (list R)) (t : touch) (idx : list nat) (x : Z * nat * nat) : Prop :=
  exists e mk p0 p1, (e < n_edges)%nat /\ edge_on t e = true /\ mget Nat.eqb (b_em b) e = Some mk /\
    nth_error K p0 = Some (ksi idx (edge_node_id target e 0)) /\ nth_error K p1 = Some (ksi idx (edge_node_id target e 1)) /\
    x = (mk, Nat.min p0 p1, Nat.max p0 p1).
Lemma kind_edges : kind_nedge target = n_edges.
Proof. apply kind_edges_nd; auto. apply W. Qed.
Lemma sort2_minmax p q : (fst (sort2 (p, q)), snd (sort2 (p, q))) = (Nat.min p q, Nat.max p q).
Proof. unfold sort2. cbn [fst snd]. destruct (Nat.ltb_spec q p); cbn [fst snd]; f_equal; lia. Qed.
Lemma mark_edges_inv K idx t pts me : NoDup K -> cell_nodes K idx pts ->
  okerr False (mark_edges b target t pts me) (fun me' => forall x, In x me' <-> In x me \/ edge_mark K t idx x).
Proof.
  intros ND N. unfold mark_edges. destruct (List.length (b_em b) =? 0)%nat eqn:E0.
  { simpl. intros x. split; [auto|]. intros [H|(e & mk & p0 & p1 & _ & _ & H & _)]; auto. apply Nat.eqb_eq in E0. destruct (b_em b); discriminate. }
  change (if (nd =? 2)%nat then 4%nat else 12%nat) with n_edges.
  set (J := fun (done : list nat) (me' : list (Z * nat * nat)) => forall x, In x me' <-> In x me \/
    exists e mk p0 p1, In e done /\ edge_on t e = true /\ mget Nat.eqb (b_em b) e = Some mk /\
    nth_error K p0 = Some (ksi idx (edge_node_id target e 0)) /\ nth_error K p1 = Some (ksi idx (edge_node_id target e 1)) /\
    x = (mk, Nat.min p0 p1, Nat.max p0 p1)).
  eapply okerr_mono; [apply (okerr_foldM False J _ _ [])|auto|].
  - intros x. split; [auto|]. intros [H|(e & mk & p0 & p1 & [] & _)]. auto.
  - intros done e m He Hm. apply in_seq in He. fold (edge_on t e).
    assert (Skip : edge_on t e = false \/ mget Nat.eqb (b_em b) e = None -> J (done ++ [e]) m).
    { intros Q x. rewrite (Hm x). split; (intros [H|(e' & mk & p0 & p1 & H1 & H2 & H3 & H4)]; [left; auto|right]).
      - exists e', mk, p0, p1. split; [apply in_app_iff; auto|auto].
      - exists e', mk, p0, p1. split; [|auto]. apply in_app_iff in H1 as [H1|[<- |[]]]; auto. destruct Q; congruence. }
    destruct (edge_on t e) eqn:Eo; [|apply Skip; auto]. destruct (mget Nat.eqb (b_em b) e) as [mk|] eqn:Em; [|apply Skip; auto].
    assert (Hen : (e < kind_nedge target)%nat) by (rewrite kind_edges; lia).
    destruct (edge_facts nd target (w_nd b W) F e Hen) as (E1 & E2 & E3 & _).
    pose proof (corner_nnode nd target (w_nd b W) F) as Cn.
    destruct (node_get K idx pts _ N (Nat.lt_le_trans _ _ _ E2 Cn)) as (p0 & G0 & _ & K0). destruct (node_get K idx pts _ N (Nat.lt_le_trans _ _ _ E3 Cn)) as (p1 & G1 & _ & K1).
    unfold edge_point. rewrite G0, G1. cbn [bind okerr]. intros x. rewrite in_app_iff, (Hm x).
    pose proof (sort2_minmax p0 p1) as Sm. injection Sm as S1 S2. rewrite S1, S2. split.
    + intros [[H|(e' & mk' & q0 & q1 & H1 & H2)]|[<- |[]]]; [left; auto|right; exists e', mk', q0, q1; split; [apply in_app_iff; auto|auto]|].
      right. exists e, mk, p0, p1. split; [apply in_app_iff; simpl; auto|]. repeat (split; [auto|]). auto.
    + intros [H|(e' & mk' & q0 & q1 & H1 & H2 & H3 & H4 & H5 & ->)]; [left; auto|]. apply in_app_iff in H1 as [H1|[<- |[]]].
      * left. right. exists e', mk', q0, q1. auto 10.
      * right. left. pose proof (nodup_nth K _ _ _ ND K0 H4). pose proof (nodup_nth K _ _ _ ND K1 H5). congruence.
  - intros me' H x. rewrite (H x). split; (intros [H0|(e & mk & p0 & p1 & H1 & H2)]; [left; auto|right; exists e, mk, p0, p1; split; [|auto]]).
    + simpl in H1. apply in_seq in H1. lia.
    + simpl. apply in_seq. lia.
Qed.

(* faces; in 2D there are no face markers *)
Definition face_mark (K : list (list R)) (t : touch) (idx : list nat) (x : Z * nat * nat * nat * option nat) : Prop :=
  exists f mk p1 p2 p3 p4 a1 a2 a3 a4, (f < 6)%nat /\ face_on t f = true /\ mget Nat.eqb (b_fm b) f = Some mk /\
    nth_error K p1 = Some (ksi idx (face_node_id target f 0)) /\ nth_error K p2 = Some (ksi idx (face_node_id target f 1)) /\
    nth_error K p3 = Some (ksi idx (face_node_id target f 2)) /\ nth_error K p4 = Some (ksi idx (face_node_id target f 3)) /\
    sort4 [p1; p2; p3; p4] = [a1; a2; a3; a4] /\ x = (mk, a1, a2, a3, Some a4).
Lemma face_corner f j : nd = 3%nat -> (f < 6)%nat -> (j < 4)%nat -> (face_node_id target f j < corners nd)%nat.
Proof. intros E Hf Hj. rewrite E. apply face_corner_nd; auto. rewrite <- E. auto. Qed.
Lemma sort4_four p1 p2 p3 p4 : exists a1 a2 a3 a4, sort4 [p1; p2; p3; p4] = [a1; a2; a3; a4].
Proof.
  assert (L : List.length (sort4 [p1; p2; p3; p4]) = 4%nat) by (unfold sort4; rewrite isort_length; reflexivity).
  destruct (sort4 [p1; p2; p3; p4]) as [|a1 [|a2 [|a3 [|a4 [|a5 l]]]]]; try discriminate. eauto.
Qed.
Lemma mark_faces_inv K idx t pts mf : NoDup K -> cell_nodes K idx pts ->
  okerr False (mark_faces b target t pts mf) (fun mf' => forall x, In x mf' <-> In x mf \/ face_mark K t idx x).
Proof.
  intros ND N. unfold mark_faces. destruct (List.length (b_fm b) =? 0)%nat eqn:E0.
  { simpl. intros x. split; [auto|]. intros [H|(e & mk & p1 & p2 & p3 & p4 & a1 & a2 & a3 & a4 & _ & _ & H & _)]; auto. apply Nat.eqb_eq in E0. destruct (b_fm b); discriminate. }
  assert (N3 : nd = 3%nat). { destruct (w_nd b W) as [E|E]; auto. rewrite (w_fm b W E) in E0. discriminate. }
  set (J := fun (done : list nat) (mf' : list (Z * nat * nat * nat * option nat)) => forall x, In x mf' <-> In x mf \/
    exists f mk p1 p2 p3 p4 a1 a2 a3 a4, In f done /\ face_on t f = true /\ mget Nat.eqb (b_fm b) f = Some mk /\
    nth_error K p1 = Some (ksi idx (face_node_id target f 0)) /\ nth_error K p2 = Some (ksi idx (face_node_id target f 1)) /\
    nth_error K p3 = Some (ksi idx (face_node_id target f 2)) /\ nth_error K p4 = Some (ksi idx (face_node_id target f 3)) /\
    sort4 [p1; p2; p3; p4] = [a1; a2; a3; a4] /\ x = (mk, a1, a2, a3, Some a4)).
  eapply okerr_mono; [apply (okerr_foldM False J _ _ [])|auto|].
  - intros x. split; [auto|]. intros [H|(e & mk & p1 & p2 & p3 & p4 & a1 & a2 & a3 & a4 & [] & _)]. auto.
  - intros done e m He Hm. apply in_seq in He.
    assert (Skip : face_on t e = false \/ mget Nat.eqb (b_fm b) e = None -> J (done ++ [e]) m).
    { intros Q x. rewrite (Hm x). split; (intros [H|(e' & mk & p1 & p2 & p3 & p4 & a1 & a2 & a3 & a4 & H1 & H2 & H3 & H4)]; [left; auto|right]).
      - exists e', mk, p1, p2, p3, p4, a1, a2, a3, a4. split; [apply in_app_iff; auto|auto].
      - exists e', mk, p1, p2, p3, p4, a1, a2, a3, a4. split; [|auto]. apply in_app_iff in H1 as [H1|[<- |[]]]; auto. destruct Q; congruence. }
    destruct (face_on t e) eqn:Eo; [|apply Skip; auto]. destruct (mget Nat.eqb (b_fm b) e) as [mk|] eqn:Em; [|apply Skip; auto].
    pose proof (corner_nnode nd target (w_nd b W) F) as Cn.
    assert (G : forall j, (j < 4)%nat -> exists q, face_point target pts e j = Ok q /\ nth_error K q = Some (ksi idx (face_node_id target e j))).
    { intros j Hj. destruct (node_get K idx pts (face_node_id target e j) N) as (q & Q1 & _ & Q2); [|eauto]. pose proof (face_corner e j N3 ltac:(lia) Hj). lia. }
    destruct (G 0%nat ltac:(lia)) as (p1 & G1 & K1). destruct (G 1%nat ltac:(lia)) as (p2 & G2 & K2).
    destruct (G 2%nat ltac:(lia)) as (p3 & G3 & K3). destruct (G 3%nat ltac:(lia)) as (p4 & G4 & K4).
    rewrite G1, G2, G3, G4. cbn [bind]. destruct (sort4_four p1 p2 p3 p4) as (a1 & a2 & a3 & a4 & Es). rewrite Es. cbn [okerr].
    intros x. rewrite in_app_iff, (Hm x). split.
    + intros [[H|(e' & mk' & q1 & q2 & q3 & q4 & c1 & c2 & c3 & c4 & H1 & H2)]|[<- |[]]];
        [left; auto|right; exists e', mk', q1, q2, q3, q4, c1, c2, c3, c4; split; [apply in_app_iff; auto|auto]|].
      right. exists e, mk, p1, p2, p3, p4, a1, a2, a3, a4. split; [apply in_app_iff; simpl; auto|]. repeat (split; [auto|]). auto.
    + intros [H|(e' & mk' & q1 & q2 & q3 & q4 & c1 & c2 & c3 & c4 & H1 & H2 & H3 & H4 & H5 & H6 & H7 & H8 & ->)]; [left; auto|]. apply in_app_iff in H1 as [H1|[<- |[]]].
      * left. right. exists e', mk', q1, q2, q3, q4, c1, c2, c3, c4. auto 20.
      * right. left. pose proof (nodup_nth K _ _ _ ND K1 H4). pose proof (nodup_nth K _ _ _ ND K2 H5). pose proof (nodup_nth K _ _ _ ND K3 H6). pose proof (nodup_nth K _ _ _ ND K4 H7). congruence.
  - intros me' H x. rewrite (H x). split; (intros [H0|(e & mk & p1 & p2 & p3 & p4 & a1 & a2 & a3 & a4 & H1 & H2)]; [left; auto|right; exists e, mk, p1, p2, p3, p4, a1, a2, a3, a4; split; [|auto]]).
    + simpl in H1. lia.
    + simpl. lia.
Qed.

(* ---------------------------------------------------------------- the cells *)
Definition cells_ok (D : list (list nat)) (K : list (list R)) (cs : list cell) : Prop :=
  List.length cs = List.length D /\
  forall i idx, nth_error D i = Some idx -> exists c, nth_error cs i = Some c /\
    c_id c = i /\ c_marker c = b_marker b /\ c_kind c = target /\ cell_nodes K idx (c_points c).
Definition touch_of (idx : list nat) : touch :=
  touches (ndivs b 0) (ndivs b 1) (if (nd =? 2)%nat then 1 else ndivs b 2) (nth 0 idx 0%nat) (nth 1 idx 0%nat) (nth 2 idx 0%nat).
Record all_ok (D : list (list nat)) (K : list (list R)) (st : sub) : Prop := {
  a_inv : inv D K st;
  a_cells : cells_ok D K (s_cells st);
  a_me : forall x, In x (s_me st) <-> exists idx, In idx D /\ edge_mark K (touch_of idx) idx x;
  a_mf : forall x, In x (s_mf st) <-> exists idx, In idx D /\ face_mark K (touch_of idx) idx x;
  a_fin : forall idx m q, In idx D -> (m < nn)%nat -> nth_error K q = Some (ksi idx m) -> finished b target K st q }.

Lemma cell_nodes_grow K K' idx pts : cell_nodes K idx pts -> cell_nodes (K ++ K') idx pts.
Proof. intros [L H]. split; auto. intros m Hm. destruct (H m Hm) as (q & Q1 & Q2). exists q. split; auto. apply nth_error_grow; auto. Qed.
(* a node of a processed cell keeps its number *)
Lemma nth_back D K K' st idx m p : all_ok D K st -> NoDup (K ++ K') -> In idx D -> (m < nn)%nat -> nth_error (K ++ K') p = Some (ksi idx m) -> nth_error K p = Some (ksi idx m).
Proof.
  intros A N Hi Hm Hp. destruct (a_cells _ _ _ A) as [_ C]. apply In_nth_error in Hi as (i & Hi). destruct (C i idx Hi) as (c & _ & _ & _ & _ & _ & Q).
  destruct (Q m Hm) as (q & _ & Q2). pose proof (nodup_nth (K ++ K') p q _ N Hp (nth_error_grow K K' q _ Q2)). congruence.
Qed.
Lemma edge_mark_grow D K K' st idx t x : all_ok D K st -> NoDup (K ++ K') -> In idx D -> (edge_mark (K ++ K') t idx x <-> edge_mark K t idx x).
Proof.
  intros A N Hi. pose proof (corner_nnode nd target (w_nd b W) F) as Cn. split; intros (e & mk & p0 & p1 & H1 & H2 & H3 & H4 & H5 & H6); exists e, mk, p0, p1; repeat (split; [solve [auto using nth_error_grow]|]).
  - destruct (edge_facts nd target (w_nd b W) F e) as (E1 & E2 & E3 & _); [rewrite kind_edges; auto|].
    split; [apply (nth_back D K K' st idx _ _ A N Hi); auto; lia|]. split; [apply (nth_back D K K' st idx _ _ A N Hi); auto; lia|auto].
  - auto.
Qed.
Lemma face_mark_grow D K K' st idx t x : all_ok D K st -> NoDup (K ++ K') -> In idx D -> (face_mark (K ++ K') t idx x <-> face_mark K t idx x).
Proof.
  intros A N Hi. pose proof (corner_nnode nd target (w_nd b W) F) as Cn.
  split; intros (f & mk & p1 & p2 & p3 & p4 & a1 & a2 & a3 & a4 & H1 & H2 & H3 & H4 & H5 & H6 & H7 & H8 & H9);
    exists f, mk, p1, p2, p3, p4, a1, a2, a3, a4; (split; [auto|]); (split; [auto|]); (split; [auto|]).
  - assert (N3 : nd = 3%nat). { destruct (w_nd b W) as [E|E]; auto. rewrite (w_fm b W E) in H3. discriminate. }
    pose proof (face_corner f 0 N3 H1 ltac:(lia)). pose proof (face_corner f 1 N3 H1 ltac:(lia)). pose proof (face_corner f 2 N3 H1 ltac:(lia)). pose proof (face_corner f 3 N3 H1 ltac:(lia)).
    do 4 (split; [apply (nth_back D K K' st idx _ _ A N Hi); auto; lia|]). auto.
  - auto 10 using nth_error_grow.
Qed.

Lemma inv_more D D' K st : (forall idx, In idx D -> In idx D') -> inv D K st -> inv D' K st.
Proof.
  intros H I. destruct I as [I1 I2 I3 I4 I5 I6 I7 I8 I9 I10]. constructor; auto. intros x Hx. destruct (I1 x Hx) as (idx & m & A & B). exists idx, m. auto.
Qed.
Lemma inv_rest D K st st' : s_grid st' = s_grid st -> s_points st' = s_points st -> s_con st' = s_con st -> inv D K st -> inv D K st'.
Proof. intros E1 E2 E3 [I1 I2 I3 I4 I5 I6 I7 I8 I9 I10]. constructor; rewrite ?E1, ?E2, ?E3; auto. Qed.

Lemma cell_step_ok D K st idx : all_ok D K st -> valid_index b idx ->
  okerr (bad b target) (cell_step sh shc b target edge_kind st idx) (fun s => exists K', all_ok (D ++ [idx]) (K ++ K') s).
Proof.
  intros A V. unfold cell_step. fold (touch_of idx). unfold add_cell.
  assert (I0 : inv (D ++ [idx]) K st) by (apply (inv_more D); [intros; apply in_app_iff; auto|apply A]).
  eapply okerr_bind; [apply (nodes_inv b target sh Hsh W F Sp (D ++ [idx]) K st idx I0); auto; apply in_app_iff; simpl; auto|].
  intros [s1 pts] (K' & I1 & N & R1 & ex & X1). cbn [fst snd] in *.
  eapply okerr_bind; [eapply okerr_mono; [apply (fix_nodes_inv _ _ s1 idx pts I1 N V)|tauto|intros v Hv; exact Hv]|].
  intros s2 (I2 & (R2 & _ & Keep) & Fin2). pose proof (i_nodup _ _ _ _ _ I2) as ND.
  eapply okerr_bind; [eapply okerr_mono; [apply (mark_edges_inv (K ++ K') idx (touch_of idx) pts (s_me s2) ND N)|tauto|intros v Hv; exact Hv]|].
  intros me Hme. eapply okerr_bind; [eapply okerr_mono; [apply (mark_faces_inv (K ++ K') idx (touch_of idx) pts (s_mf s2) ND N)|tauto|intros v Hv; exact Hv]|].
  intros mf Hmf. cbn [okerr]. exists K'. destruct R1 as (R11 & R12 & R13), R2 as (R21 & R22 & R23).
  constructor; cbn [s_cells s_me s_mf].
  5:{ intros idx' m q Hi Hm Hq. change (finished b target (K ++ K') s2 q). apply in_app_iff in Hi as [Hi|[<- |[]]].
      - pose proof (nth_back D K K' st idx' m q A ND Hi Hm Hq) as Hq'. apply Keep. intros p x Hp Hx G. rewrite X1, nth_error_app1 in Hp.
        + apply (a_fin _ _ _ A idx' m q Hi Hm Hq' p x Hp); auto. rewrite nth_error_app1 in Hx; auto. apply nth_error_Some. congruence.
        + rewrite (i_len _ _ _ _ _ (a_inv _ _ _ A)). apply nth_error_Some. congruence.
      - destruct (node_get (K ++ K') idx pts m N Hm) as (q' & _ & Q2 & Q3). assert (q = q') by (apply (nodup_nth (K ++ K') q q' _ ND Hq Q3)). subst q'.
        rewrite <- (nth_error_nth _ _ 0%nat Q2). auto. }
  - apply (inv_rest _ _ s2); auto.
  - destruct (a_cells _ _ _ A) as [C1 C2]. split; [rewrite !app_length, R21, R11, C1; reflexivity|].
    intros i idx' Hi. rewrite R21, R11. destruct (lt_dec i (List.length D)) as [L|L].
    + rewrite nth_error_app1 in Hi by auto. destruct (C2 i idx' Hi) as (c & Q1 & Q2 & Q3 & Q4 & Q5). exists c. split; [apply nth_error_grow; auto|]. do 3 (split; [auto|]). apply cell_nodes_grow; auto.
    + rewrite nth_error_app2 in Hi by lia. destruct (i - List.length D)%nat as [|n] eqn:Ei; [|destruct n; discriminate]. injection Hi as <-.
      assert (i = List.length (s_cells st)) as -> by lia. eexists. split; [rewrite nth_error_app2, Nat.sub_diag by lia; reflexivity|]. cbn. auto.
  - intros x. rewrite (Hme x), R22, R12, (a_me _ _ _ A x). split.
    + intros [(i & Hi & Q)|Q]; [exists i; split; [apply in_app_iff; auto|apply (edge_mark_grow D K K' st); auto]|exists idx; split; [apply in_app_iff; simpl; auto|auto]].
    + intros (i & Hi & Q). apply in_app_iff in Hi as [Hi|[<- |[]]]; [left; exists i; split; auto; apply (edge_mark_grow D K K' st) in Q; auto|auto].
  - intros x. rewrite (Hmf x), R23, R13, (a_mf _ _ _ A x). split.
    + intros [(i & Hi & Q)|Q]; [exists i; split; [apply in_app_iff; auto|apply (face_mark_grow D K K' st); auto]|exists idx; split; [apply in_app_iff; simpl; auto|auto]].
    + intros (i & Hi & Q). apply in_app_iff in Hi as [Hi|[<- |[]]]; [left; exists i; split; auto; apply (face_mark_grow D K K' st) in Q; auto|auto].
Qed.
End Cell.

(* ---------------------------------------------------------------- the mesh *)
Lemma block_grid nd : (nd = 2 \/ nd = 3)%nat -> exists g, grid_new (repeat (-1) nd) (repeat 1 nd) None None None = Ok g.
Proof.
  intros H. destruct (C14_new_total (repeat (-1) nd) (repeat 1 nd) 100 (/ 10000) (/ 100) 0) as (g & E); rewrite ?repeat_length; auto; try lia; try lra.
  - intros i Hi. rewrite !nth_repeat_in by auto. lra.
  - rewrite !nth_repeat_in by lia. replace (INR 100) with 100 by (simpl; lra). lra.
  - exists g. exact E.
Qed.
Lemma subdivide_ok b target sh shc : (forall c, Permutation (sh c) c) -> (forall l, Permutation (shc l) l) -> wf_block b -> In target (targets (b_ndim b)) -> spaced b target ->
  okerr (bad b target) (subdivide sh shc b target) (fun msh => exists K st, msh = s_mesh b st /\ all_ok b target (indices b) K st).
Proof.
  intros Hsh Hshc W F Sp. destruct (block_grid (b_ndim b) (w_nd b W)) as (g & G).
  assert (exists ek, kind_edge_kind target = Some ek) as (ek & Ek).
  { destruct (w_nd b W) as [E|E]; rewrite E in F; simpl in F; repeat (destruct F as [<- |F]; [eexists; reflexivity|]); destruct F. }
  rewrite (subdivide_eq b W sh shc target ek g F Ek G).
  apply okerr_bind with (P := fun st => exists K, all_ok b target (indices b) K st).
  - set (J := fun (D : list (list nat)) st => exists K, all_ok b target D K st).
    apply (okerr_foldM (bad b target) J _ _ []).
    + exists []. constructor; cbn; [|split; [auto|intros i idx H; destruct i; discriminate]| | |].
      * constructor; cbn [s_grid s_points s_con].
        -- intros x [].
        -- constructor.
        -- exists g. split; [exact G|reflexivity].
        -- reflexivity.
        -- intros q p H; destruct q; discriminate.
        -- intros q p x H; destruct q; discriminate.
        -- intros x [].
        -- intros q s [].
        -- intros q x s y H; destruct q; discriminate.
        -- intros q p x H; destruct q; discriminate.
      * intros x; split; [tauto|intros (idx & [] & _)].
      * intros x; split; [tauto|intros (idx & [] & _)].
      * intros idx m q [].
    + intros D idx st Hidx (K & A). apply (indices_valid b W) in Hidx.
      eapply okerr_mono; [apply (cell_step_ok b target ek sh shc Hsh Hshc W F Sp Ek D K st idx A Hidx)|auto|]. intros s (K' & A'). exists (K ++ K'). auto.
  - intros st (K & A). exists K, st. auto.
Qed.
