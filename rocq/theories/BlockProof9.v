(* When subdivide succeeds; the ring; witnesses. *)
From Coq Require Import String Reals QArith Qreals List Lia Lra Bool Arith ZArith Permutation Sorted.
From Verif Require Import Base BaseFacts TopoMaps Kind MeshModel TopoModel MeshQuerySpec ShapesModel ShapesSpec ShapesProof
  GeomModel GeomProof GridModel GridSpec PropGrid PadModel PadSpec PadProof PadProof2 PadProof3 PadProof4
  BlockModel BlockSpec BlockProof BlockProof2 BlockProof3 BlockProof4 BlockProof5 BlockProof6 BlockProof7 BlockProof8.
Import ListNotations.
Local Open Scope list_scope.
Local Open Scope R_scope.

(* ---------------------------------------------------------------- success and failure *)
Section Total.
Variables (b : block) (target : geokind).
Variable sh : container -> container.
Variable shc : list (nat * nat) -> list (nat * nat).
Hypothesis Hsh : forall c, Permutation (sh c) c.
Hypothesis Hshc : forall l, Permutation (shc l) l.
Hypothesis W : wf_block b.
Hypothesis F : In target (targets (b_ndim b)).
Hypothesis Sp : spaced b target.
Notation nd := (b_ndim b).
Notation nn := (kind_nnode target).
Notation ksi := (node_ksi b target).
Lemma mesh_total :
  (b_ring b = true \/ forall idx m s, valid_index b idx -> (m < nn)%nat -> (s < nsides nd)%nat -> constrained b s -> at_side nd s (ksi idx m) ->
     ~ near b s (block_map b (ksi idx m))) ->
  exists msh, subdivide sh shc b target = Ok msh.
Proof.
  intros H. pose proof (subdivide_ok b target sh shc Hsh Hshc W F Sp) as O. destruct (subdivide sh shc b target); [eauto| | |]; simpl in O; try contradiction.
  destruct O as (R & idx & m & s & V & Hm & Hs & C & A & N). exfalso. destruct H as [H|H]; [congruence|]. eapply H; eauto.
Qed.
Lemma mesh_at_center idx m s : b_ring b = false -> valid_index b idx -> (m < nn)%nat -> (s < nsides nd)%nat -> constrained b s -> at_side nd s (ksi idx m) ->
  near b s (block_map b (ksi idx m)) -> (forall s', (s' < nsides nd)%nat -> constrained b s' -> at_side nd s' (ksi idx m) -> s' = s) ->
  exists msg, subdivide sh shc b target = Err msg.
Proof.
  intros R V Hm Hs C A N U. pose proof (subdivide_ok b target sh shc Hsh Hshc W F Sp) as O. destruct (subdivide sh shc b target) as [msh|msg| |] eqn:Run; [|eauto| |]; simpl in O; try contradiction.
  exfalso. destruct O as (K & st & -> & AO). destruct (mesh_point_at b target sh shc Hsh Hshc W F Sp _ Run idx m V Hm) as (p & P & _).
  apply (proj1 (point_at_K b target sh shc W _ Run K st idx m p eq_refl AO V Hm)) in P. destruct (i_placed _ _ _ _ _ (a_inv _ _ _ _ _ AO) _ (nth_error_In _ _ P)) as (r & E).
  pose proof (place_spec b (ksi idx m) W (node_ksi_length b target idx m) (node_clear b target W F Sp idx m V Hm)) as Q. rewrite E in Q. destruct Q as [_ Q].
  destruct (fst r) as [s'|].
  - destruct Q as (_ & Hs' & C' & A' & _ & N' & _). apply N'. rewrite (U s' Hs' C' A'). exact N.
  - destruct Q as [_ Q]. apply (Q R s Hs A). exact N.
Qed.
End Total.

Lemma edge_lt nd target e : (nd = 2 \/ nd = 3)%nat -> In target (targets nd) -> (e < if (nd =? 2)%nat then 4 else 12)%nat ->
  (edge_node_id target e 0 < kind_nnode target)%nat /\ (edge_node_id target e 1 < kind_nnode target)%nat.
Proof.
  intros [-> | ->] F He; simpl in F, He; repeat (destruct F as [<- |F]; [do 12 (destruct e as [|e]; [vm_compute; lia|]); lia|]); destruct F.
Qed.
Lemma edge_kind_some nd target : (nd = 2 \/ nd = 3)%nat -> In target (targets nd) -> exists ek, kind_edge_kind target = Some ek.
Proof. intros [-> | ->] F; simpl in F; repeat (destruct F as [<- |F]; [eexists; reflexivity|]); destruct F. Qed.
Lemma rank_zero l : forall n, rank l (repeat 0%nat n) = 0%nat.
Proof. induction l as [|a l IH]; intros n; destruct n; simpl; auto. rewrite IH. lia. Qed.
Lemma face_lt target e j : In target (targets 3) -> (e < 6)%nat -> (j < 4)%nat -> (face_node_id target e j < kind_nnode target)%nat.
Proof.
  intros F He Hj. apply Nat.lt_le_trans with 8%nat; [apply face_corner_nd; auto|]. simpl in F. repeat (destruct F as [<- |F]; [vm_compute; lia|]). destruct F.
Qed.
(* without constraints, for any positive widths *)
Section Plain.
Variables (b : block) (target : geokind).
Variable sh : container -> container.
Variable shc : list (nat * nat) -> list (nat * nat).
Hypothesis Hsh : forall c, Permutation (sh c) c.
Hypothesis W : wf_block b.
Hypothesis F : In target (targets (b_ndim b)).
Hypothesis Pos : forall a d, (a < b_ndim b)%nat -> In d (widths b a) -> 0 < d.
Hypothesis NC : has_constraints b = false.
Notation nd := (b_ndim b).
Notation nn := (kind_nnode target).
Notation ksi := (node_ksi b target).
Lemma plain_box idx m a : valid_index b idx -> (m < nn)%nat -> (a < nd)%nat -> -1 <= nth a (ksi idx m) 0 <= 1.
Proof.
  intros [V1 V2] Hm Ha. specialize (V2 a Ha). rewrite (nth_node_ksi b target W F idx m a Hm Ha).
  destruct (ref_offset nd target m a (w_nd b W) F Hm Ha) as [_ Ho]. set (ds := widths b a) in *. set (i := nth a idx 0%nat) in *.
  assert (L : List.length ds = ndivs b a) by (apply (w_widths b W); auto).
  assert (Hd : forall d, In d ds -> INR (per target) * 0 < d) by (intros d Hd; rewrite Rmult_0_r; apply (Pos a); auto).
  destruct (pos_low ds (per target) 0 (per_pos target) (Rle_refl 0) Hd i (offset target m a) ltac:(lia) Ho) as [A B].
  assert (Hd0 : forall d, In d ds -> 0 < d) by (intros d Q; apply (Pos a); auto).
  pose proof (line_mono ds 0 Hd0 (Rle_refl 0) i 0 ltac:(lia)) as M1. rewrite line_0 in M1.
  pose proof (line_mono ds 0 Hd0 (Rle_refl 0) (List.length ds) (S i) ltac:(lia)) as M2. rewrite line_end in M2 by (apply (w_sum b W); auto). lra.
Qed.
Lemma place_plain idx m : exists r, place b (ksi idx m) = Ok r.
Proof.
  unfold place. rewrite NC. destruct (b_ring b).
  - rewrite ring_ok by (auto; apply node_ksi_length). eexists. reflexivity.
  - destruct (pad_coords_ok (b_pad b) (ksi idx m) (w_pad b W) (w_ok b W)) as (x & q & E & _). rewrite (w_space b W) in E. rewrite E. eexists. reflexivity.
Qed.
Definition held (h : history) (st : sub) : Prop := reached (repeat (-1) nd) (repeat 1 nd) None (/ 10000) (/ 100) h (s_grid st).
Lemma add_node_plain h st pts idx m : held h st -> valid_index b idx -> (m < nn)%nat -> (m < List.length pts)%nat ->
  exists h' st' q, add_node sh b target (cell_center b idx) (cell_scale b idx) (st, pts) m = Ok (st', upd pts m q) /\ held h' st' /\
    s_cells st' = s_cells st /\
    (grid_search sh (s_grid st) (ksi idx m) = Ok (Some q) /\ h' = h /\ st' = st \/
     grid_search sh (s_grid st) (ksi idx m) = Ok None /\ q = List.length (s_points st) /\ h' = h ++ [(q, ksi idx m)] /\ List.length (s_points st') = S q).
Proof.
  intros G V Hm Hp. unfold add_node. rewrite (node_ksi_computed b target W F idx m V Hm). cbn [bind fst snd].
  assert (B : in_box (g_xmin (s_grid st)) (g_xmax (s_grid st)) (ksi idx m)).
  { eapply C14_limits_cover; [exact G|]. split; [rewrite map_length, repeat_length; apply node_ksi_length|].
    intros i Hi. rewrite map_length, repeat_length in Hi. rewrite !(nth_map_in _ _ _ 0) by (rewrite repeat_length; auto).
    rewrite !nth_repeat_in by auto. pose proof (plain_box idx m i V Hm Hi). lra. }
  destruct (C14_search_total sh _ _ _ _ _ _ _ (ksi idx m) Hsh G) as [T _]. destruct (T B) as ([q|] & E); rewrite E; cbn [bind].
  - rewrite set_ok by auto. cbn [bind]. exists h, st, q. auto 10.
  - destruct (C14_insert_total _ _ _ _ _ _ _ (List.length (s_points st)) (ksi idx m) G) as [I _]. destruct (I B) as (g & -> & G'). cbn [bind].
    destruct (place_plain idx m) as (r & ->). cbn [bind]. rewrite set_ok by auto. cbn [bind].
    eexists _, _, _. split; [reflexivity|]. split; [exact G'|]. split; [reflexivity|]. right. cbn. rewrite app_length. simpl. repeat split. lia.
Qed.
Lemma nodes_plain idx : valid_index b idx -> forall l h st pts, (forall m, In m l -> (m < nn)%nat /\ (m < List.length pts)%nat) -> held h st ->
  exists h' st' pts', foldM (add_node sh b target (cell_center b idx) (cell_scale b idx)) l (st, pts) = Ok (st', pts') /\ held h' st' /\
    s_cells st' = s_cells st /\ List.length pts' = List.length pts /\ forall m, ~ In m l -> nth_error pts' m = nth_error pts m.
Proof.
  intros V l. induction l as [|m l IH]; intros h st pts Hl G.
  - exists h, st, pts. auto.
  - destruct (Hl m ltac:(simpl; auto)) as [H1 H2]. destruct (add_node_plain h st pts idx m G V H1 H2) as (h1 & s1 & q & E & G1 & C1 & _).
    cbn [foldM]. rewrite E. cbn [bind]. destruct (IH h1 s1 (upd pts m q)) as (h' & s' & pts' & E' & G' & C' & L' & N').
    { intros m' Hm'. rewrite upd_length. apply Hl. simpl. auto. } { exact G1. }
    exists h', s', pts'. split; [exact E'|]. split; [exact G'|]. split; [congruence|]. split; [rewrite L'; apply upd_length|].
    intros m' Hm'. rewrite N' by (simpl in Hm'; tauto). rewrite nth_error_upd by auto. destruct (Nat.eqb_spec m' m); [subst; simpl in Hm'; tauto|auto].
Qed.
Lemma kind_marks t pts (me : list (Z * nat * nat)) : List.length pts = nn -> exists me', mark_edges b target t pts me = Ok me'.
Proof.
  intros L. unfold mark_edges. destruct (List.length (b_em b) =? 0)%nat; [eauto|].
  match goal with |- exists _, foldM ?f ?l me = _ => assert (G : forall l' me, (forall e, In e l' -> (e < if (nd =? 2)%nat then 4 else 12)%nat) -> exists me', foldM f l' me = Ok me') end.
  { induction l' as [|e l' IH]; intros m He; [simpl; eauto|]. cbn [foldM]. specialize (He e) as He0. simpl in He0. specialize (He0 (or_introl eq_refl)).
    destruct (edge_lt nd target e (w_nd b W) F He0) as [X1 X2]. assert (He' : forall e, In e l' -> (e < if (nd =? 2)%nat then 4 else 12)%nat) by (intros; apply He; simpl; auto).
    destruct (if (nd =? 2)%nat then edge_on_2d t e else edge_on_3d t e); [|cbn [bind]; apply IH; auto].
    destruct (mget Nat.eqb (b_em b) e); [|cbn [bind]; apply IH; auto].
    unfold edge_point. rewrite !(get_ok _ _ 0%nat) by lia. cbn [bind]. apply IH; auto. }
  apply G. intros e He. apply in_seq in He. destruct (nd =? 2)%nat; lia.
Qed.
Lemma kind_fmarks t pts mf : List.length pts = nn -> exists mf', mark_faces b target t pts mf = Ok mf'.
Proof.
  intros L. unfold mark_faces. destruct (List.length (b_fm b) =? 0)%nat eqn:Q; [eauto|].
  assert (E3 : nd = 3%nat). { destruct (w_nd b W) as [E|E]; auto. rewrite (w_fm b W E) in Q. discriminate. }
  match goal with |- exists _, foldM ?f ?l mf = _ => assert (G : forall l' mf, (forall e, In e l' -> (e < 6)%nat) -> exists mf', foldM f l' mf = Ok mf') end.
  { induction l' as [|e l' IH]; intros m He; [simpl; eauto|]. cbn [foldM]. pose proof (He e (or_introl eq_refl)) as He0.
    assert (X : forall j, (j < 4)%nat -> (face_node_id target e j < nn)%nat).
    { intros j Hj. apply face_lt; auto. rewrite <- E3. auto. }
    destruct (face_on t e); [|cbn [bind]; apply IH; intros; apply He; simpl; auto].
    destruct (mget Nat.eqb (b_fm b) e); [|cbn [bind]; apply IH; intros; apply He; simpl; auto].
    unfold face_point. rewrite !(get_ok _ _ 0%nat) by (rewrite L; apply X; lia). cbn [bind].
    destruct (sort4_four (nth (face_node_id target e 0) pts 0%nat) (nth (face_node_id target e 1) pts 0%nat) (nth (face_node_id target e 2) pts 0%nat) (nth (face_node_id target e 3) pts 0%nat)) as (a1 & b1 & c1 & d1 & ->).
    cbn [bind]. apply IH; intros; apply He; simpl; auto. }
  apply G. intros e He. apply in_seq in He. lia.
Qed.
Lemma cell_plain ek h st idx : held h st -> valid_index b idx -> exists h' st' c, cell_step sh shc b target ek st idx = Ok st' /\ held h' st' /\
  s_cells st' = s_cells st ++ [c] /\ exists st1 pts, foldM (add_node sh b target (cell_center b idx) (cell_scale b idx)) (seq 0 nn) (st, repeat 0%nat nn) = Ok (st1, pts) /\ c_points c = pts.
Proof.
  intros G V. unfold cell_step, add_cell.
  destruct (nodes_plain idx V (seq 0 nn) h st (repeat 0%nat nn)) as (h' & s1 & pts & E & G1 & C1 & L & _).
  { intros m Hm. apply in_seq in Hm. rewrite repeat_length. lia. } { exact G. }
  rewrite E. cbn [bind fst snd]. unfold fix_nodes. rewrite NC. cbn [andb bind]. rewrite repeat_length in L.
  match goal with |- context [mark_edges b target ?t pts ?m] => destruct (kind_marks t pts m L) as (me & ->) end. cbn [bind].
  match goal with |- context [mark_faces b target ?t pts ?m] => destruct (kind_fmarks t pts m L) as (mf & ->) end. cbn [bind].
  eexists h', _, _. split; [reflexivity|]. split; [exact G1|]. split; [cbn; rewrite C1; reflexivity|]. exists s1, pts. auto.
Qed.
Lemma cells_plain ek l : (forall idx, In idx l -> valid_index b idx) -> forall h st, held h st -> exists h' st' cs, foldM (cell_step sh shc b target ek) l st = Ok st' /\ held h' st' /\ s_cells st' = s_cells st ++ cs.
Proof.
  induction l as [|idx l IH]; intros Hl h st G; [exists h, st, []; rewrite app_nil_r; auto|].
  destruct (cell_plain ek h st idx G ltac:(apply Hl; simpl; auto)) as (h1 & s1 & c & E & G1 & C & _). cbn [foldM]. rewrite E. cbn [bind].
  destruct (IH ltac:(intros; apply Hl; simpl; auto) h1 s1 G1) as (h' & st' & cs & E' & G' & C'). exists h', st', (c :: cs). split; [auto|]. split; [auto|]. rewrite C', C, <- app_assoc. reflexivity.
Qed.
Lemma subdivide_plain : exists msh, subdivide sh shc b target = Ok msh.
Proof.
  destruct (block_grid nd (w_nd b W)) as (g & G).
  assert (exists ek, kind_edge_kind target = Some ek) as (ek & Ek).
  { apply (edge_kind_some nd); auto. apply W. }
  rewrite (subdivide_eq b W sh shc target ek g F Ek G).
  destruct (cells_plain ek (indices b) (fun idx H => proj1 (indices_valid b W idx) H) [] (mkSub g [] [] [] [] [])) as (h' & st' & cs & E & _).
  { exists g. split; [exact G|reflexivity]. }
  rewrite E. cbn [bind]. eauto.
Qed.
(* the first two nodes of the first cell are merged when they are close *)
Lemma merge_first : (2 <= nn)%nat -> let z := repeat 0%nat nd in close (/ 10000) (ksi z 0) (ksi z 1) ->
  exists msh c, subdivide sh shc b target = Ok msh /\ nth_error (cells msh) 0 = Some c /\ nth_error (c_points c) 0 = Some 0%nat /\ nth_error (c_points c) 1 = Some 0%nat.
Proof.
  intros Hn z Cl. destruct (block_grid nd (w_nd b W)) as (g & G).
  assert (exists ek, kind_edge_kind target = Some ek) as (ek & Ek).
  { apply (edge_kind_some nd); auto. apply W. }
  rewrite (subdivide_eq b W sh shc target ek g F Ek G).
  assert (Vz : valid_index b z).
  { split; [apply repeat_length|]. intros a Ha. unfold z. rewrite nth_repeat_in by auto. pose proof (w_pos b W a Ha). lia. }
  assert (Iz : exists l, indices b = z :: l).
  { pose proof (indices_rank b W z Vz) as R. assert (R0 : rank (b_ndiv b) z = 0%nat).
    { apply rank_zero. }
    rewrite R0 in R. destruct (indices b); [discriminate|]. injection R as ->. eauto. }
  destruct Iz as (l & El). assert (Vl : forall idx, In idx l -> valid_index b idx) by (intros idx H; apply (indices_valid b W); rewrite El; simpl; auto).
  rewrite El. cbn [foldM]. set (st0 := mkSub g [] [] [] [] []).
  assert (G0 : held [] st0) by (exists g; split; [exact G|reflexivity]).
  destruct (cell_plain ek [] st0 z G0 Vz) as (h1 & s1 & c & E & G1 & C1 & s2 & pts & EP & <-). rewrite E. cbn [bind].
  destruct (cells_plain ek l Vl h1 s1 G1) as (h' & st' & cs & E' & _ & C'). rewrite E'. cbn [bind].
  exists (s_mesh b st'), c. split; [auto|]. split; [cbn; rewrite C', C1; reflexivity|].
  replace (seq 0 nn) with (0 :: 1 :: seq 2 (nn - 2))%nat in EP by (destruct nn as [|[|n]]; [lia|lia|cbn; rewrite Nat.sub_0_r; reflexivity]).
  cbn [foldM] in EP.
  destruct (add_node_plain [] st0 (repeat 0%nat nn) z 0 G0 Vz ltac:(lia) ltac:(rewrite repeat_length; lia)) as (ha & sa & qa & Ea & Ga & _ & Sa). rewrite Ea in EP. cbn [bind] in EP.
  destruct Sa as [(Sa & _)|(_ & -> & -> & La)].
  { destruct (C13_search_sound sh _ _ _ _ _ _ _ _ qa Hsh G0 Sa) as (x & [] & _). }
  cbn [app] in Ga. change (List.length (s_points st0)) with 0%nat in *.
  destruct (add_node_plain _ sa (upd (repeat 0%nat nn) 0 0%nat) z 1 Ga Vz ltac:(lia) ltac:(rewrite upd_length, repeat_length; lia)) as (hb & sb & qb & Eb & Gb & _ & Sb). rewrite Eb in EP. cbn [bind] in EP.
  assert (B : in_box (g_xmin (s_grid sa)) (g_xmax (s_grid sa)) (ksi z 1)).
  { eapply C14_limits_cover; [exact Ga|]. split; [rewrite map_length, repeat_length; apply node_ksi_length|].
    intros i Hi. rewrite map_length, repeat_length in Hi. rewrite !(nth_map_in _ _ _ 0) by (rewrite repeat_length; auto).
    rewrite !nth_repeat_in by auto. pose proof (plain_box z 1 i Vz ltac:(lia) Hi). lra. }
  destruct (C14_search_complete sh _ _ _ _ _ _ _ 0%nat (ksi z 0) (ksi z 1) Hsh Ga) as (id & Eid); auto.
  { exists [], []. auto. }
  destruct (C13_search_sound sh _ _ _ _ _ _ _ _ id Hsh Ga Eid) as (x & Hx & _). destruct Hx as [Hx|[]]. injection Hx as <- _.
  destruct Sb as [(Sb & -> & ->)|(Sb & _)]; [|congruence]. assert (qb = 0%nat) by congruence. subst qb.
  destruct (nodes_plain z Vz (seq 2 (nn - 2)) [(0%nat, ksi z 0)] sa (upd (upd (repeat 0%nat nn) 0 0%nat) 1 0%nat)) as (hc & sc & pc & Ec & _ & _ & _ & Nc).
  { intros m Hm. apply in_seq in Hm. rewrite !upd_length, repeat_length. lia. } { exact Ga. }
  rewrite Ec in EP. injection EP as _ <-.
  rewrite !Nc by (intros Q; apply in_seq in Q; lia). rewrite !nth_error_upd by (rewrite ?upd_length, ?repeat_length; lia). auto.
Qed.
End Plain.

(* ---------------------------------------------------------------- the ring *)
Lemma ring_bounds a ksi : good_ring a -> 0 <= rmin a -> (forall i, (i < 2)%nat -> -1 <= nth i ksi 0 <= 1) ->
  let x := ring_point a ksi 0 in let y := ring_point a ksi 1 in
  0 <= x /\ 0 <= y /\ rmin a <= dist2 x y <= rmax a.
Proof.
  intros (A1 & A2 & A3 & A4) R H. cbn [ring_point]. pose proof (H 0%nat ltac:(lia)) as H0. pose proof (H 1%nat ltac:(lia)) as H1.
  set (r := (1 - nth 0 ksi 0) / 2 * rmin a + (1 + nth 0 ksi 0) / 2 * rmax a). set (t := (1 - nth 1 ksi 0) / 2 * amin a + (1 + nth 1 ksi 0) / 2 * amax a).
  assert (Hr : rmin a <= r <= rmax a) by (unfold r; split; nra). assert (Ht : amin a <= t <= amax a) by (unfold t; split; nra).
  pose proof PI_RGT_0 as P. assert (C : 0 <= cos t) by (apply cos_ge_0; lra). assert (S : 0 <= sin t) by (apply sin_ge_0; lra).
  split; [apply Rmult_le_pos; lra|]. split; [apply Rmult_le_pos; lra|].
  assert (D : dist2 (r * cos t) (r * sin t) = r).
  { unfold dist2. replace ((r * cos t) ^ 2 + (r * sin t) ^ 2) with (r * r * (Rsqr (sin t) + Rsqr (cos t))) by (unfold Rsqr; ring). rewrite sin2_cos2, Rmult_1_r. apply sqrt_square. lra. }
  rewrite D. exact Hr.
Qed.
Lemma ring_z a ksi : good_ring a -> -1 <= nth 2 ksi 0 <= 1 -> zmin a <= ring_point a ksi 2 <= zmax a.
Proof. intros (A1 & A2 & A3 & A4) [H1 H2]. cbn [ring_point]. generalize dependent (nth 2 ksi 0). intros k H1 H2.
  revert A4. generalize (zmin a) (zmax a). clear - H1 H2. intros z z' A4. split; nra.
Qed.
Lemma ring_corner a ksi r t : (nth 0 ksi 0 = -1 /\ r = rmin a \/ nth 0 ksi 0 = 1 /\ r = rmax a) -> (nth 1 ksi 0 = -1 /\ t = amin a \/ nth 1 ksi 0 = 1 /\ t = amax a) ->
  ring_point a ksi 0 = r * cos t /\ ring_point a ksi 1 = r * sin t.
Proof.
  intros H0 H1. unfold ring_point. assert (E0 : (1 - nth 0 ksi 0) / 2 * rmin a + (1 + nth 0 ksi 0) / 2 * rmax a = r) by (destruct H0 as [[-> ->]|[-> ->]]; lra).
  assert (E1 : (1 - nth 1 ksi 0) / 2 * amin a + (1 + nth 1 ksi 0) / 2 * amax a = t) by (destruct H1 as [[-> ->]|[-> ->]]; lra).
  rewrite E0, E1. auto.
Qed.

Lemma tol_small b : wf_block b -> tol b <= 2 / 10000.
Proof.
  intros W. unfold tol. assert (sqrt (INR (b_ndim b)) <= 2); [|lra]. replace 2 with (sqrt (2 * 2)) by (apply sqrt_square; lra).
  apply sqrt_le_1_alt. destruct (w_nd b W) as [-> | ->]; simpl; lra.
Qed.
(* ---------------------------------------------------------------- boxes *)
Lemma box_2d_affine x0 y0 lx ly p : p_kind p = Qua8 -> p_space p = 2%nat -> holds_nodes 2 (box_2d x0 y0 lx ly) p ->
  affine_pad p (fun i j => match i, j with 0%nat, 0%nat => lx / 2 | 1%nat, 1%nat => ly / 2 | _, _ => 0 end) (fun i => match i with 0%nat => x0 + lx / 2 | _ => y0 + ly / 2 end).
Proof.
  intros K S [H1 H2]. change (bkind 2) with Qua8 in *.
  intros i m Hi Hm. rewrite S in Hi. rewrite K in Hm |- *. change (m < 8)%nat in Hm. change (kind_ndim Qua8) with 2%nat.
  rewrite ref_coords_qua8 by auto. specialize (H2 eq_refl).
  assert (C : forall q, (q < 4)%nat -> node_x p i q = nth i (nth q (box_2d x0 y0 lx ly) []) 0) by (intros q Hq; apply H1; simpl; lia).
  assert (M0 := H2 0%nat i ltac:(vm_compute; lia) Hi). assert (M1 := H2 1%nat i ltac:(vm_compute; lia) Hi).
  assert (M2 := H2 2%nat i ltac:(vm_compute; lia) Hi). assert (M3 := H2 3%nat i ltac:(vm_compute; lia) Hi).
  cbn in M0, M1, M2, M3.
  do 8 (destruct m as [|m]; [first [rewrite M0 | rewrite M1 | rewrite M2 | rewrite M3 | idtac]; rewrite !C by lia;
    destruct i as [|[|i]]; [| |lia]; unfold sum_n, box_2d; cbn; lra|]). lia.
Qed.
Lemma box_2d_map x0 y0 lx ly p ksi : pad_wf p -> p_kind p = Qua8 -> p_space p = 2%nat -> holds_nodes 2 (box_2d x0 y0 lx ly) p -> List.length ksi = 2%nat ->
  pos p ksi 0 = x0 + lx * (1 + nth 0 ksi 0) / 2 /\ pos p ksi 1 = y0 + ly * (1 + nth 1 ksi 0) / 2.
Proof.
  intros W K S H L. pose proof (affine_pos p _ _ W (box_2d_affine x0 y0 lx ly p K S H) ksi) as A.
  assert (Lk : List.length ksi = kind_ndim (p_kind p)) by (rewrite K; auto).
  split; rewrite A by (rewrite ?S; auto); rewrite K; change (kind_ndim Qua8) with 2%nat; unfold sum_n; cbn; field.
Qed.

(* two divisions that are too fine: two nodes of the first cell become one point *)
Lemma merge_witness zdet sh shc : 0 <= zdet < / 4 -> (forall c, Permutation (sh c) c) ->
  exists b b' msh c, block_new zdet 2 (box_2d 0 0 1 1) = Ok b /\ set_div_weights_2d b [/ 100000; 1] [1] = (Ok tt, b') /\
    subdivide sh shc b' Qua4 = Ok msh /\ nth_error (cells msh) 0 = Some c /\ nth_error (c_points c) 0 = Some 0%nat /\ nth_error (c_points c) 1 = Some 0%nat.
Proof.
  intros Hz Hsh. destruct (box_2d_ok zdet 0 0 1 1 ltac:(lra) ltac:(lra)) as (p & E & HN).
  assert (W : wf_block (mkBlock MARKER 2 [2; 2]%nat [[1; 1]; [1; 1]] [] [] [] [] p (mkRing 0 (PI / 2) 1 2 0 1) false)).
  { eapply made_wf; [|eapply made_new; exact E]. lra. }
  set (b := mkBlock _ _ _ _ _ _ _ _ _ _ _) in *. exists b, (with_div b [2; 1]%nat [scaled [/ 100000; 1]; scaled [1]]).
  assert (E2 : set_div_weights_2d b [/ 100000; 1] [1] = (Ok tt, with_div b [2; 1]%nat [scaled [/ 100000; 1]; scaled [1]])).
  { rewrite (w2_ok b [/ 100000; 1] [1] W eq_refl); [reflexivity|discriminate|discriminate| |]; cbn [sum]; lra. }
  assert (W2 : wf_block (with_div b [2; 1]%nat [scaled [/ 100000; 1]; scaled [1]])).
  { eapply made_wf with (zdet := zdet); [lra|]. replace (with_div b _ _) with (snd (set_div_weights_2d b [/ 100000; 1] [1])) by (rewrite E2; reflexivity).
    apply made_w2. eapply made_new. exact E. }
  destruct (merge_first (with_div b [2; 1]%nat [scaled [/ 100000; 1]; scaled [1]]) Qua4 sh shc Hsh W2) as (msh & c & M).
  - simpl; auto.
  - intros a d Ha Hd. cbn in Ha. unfold widths, scaled, sum_w, NAT_LENGTH in Hd. destruct a as [|[|a]]; [| |lia]; simpl in Hd; intuition; subst d; lra.
  - reflexivity.
  - vm_compute. lia.
  - split; [rewrite !node_ksi_length; auto|]. intros i Hi. unfold node_ksi, widths, scaled, sum_w, NAT_LENGTH, line. cbn.
    unfold ref_coords. cbn. unfold Q2R. cbn. cbn in Hi. destruct i as [|[|i]]; [| |lia]; apply Rabs_le; lra.
  - exists msh, c. split; [exact E|]. split; [exact E2|exact M].
Qed.

(* two constrained sides with a common corner *)
Definition corner_block (p : pad) : block :=
  mkBlock MARKER 2 [1; 1]%nat [[2]; [2]] [(1%nat, Circle 1 0 1); (0%nat, Circle 0 (-1) 2)] [] [] [] p (mkRing 0 (PI / 2) 1 2 0 1) false.
Lemma corner_made zdet : 0 <= zdet < 1 -> exists b0 b1 b2 p,
  block_new zdet 2 (box_2d (-1) (-1) 2 2) = Ok b0 /\ set_ndiv b0 [1; 1]%nat = (Ok tt, b1) /\
  set_edge_constraint b1 0 (Some (Circle 0 (-1) 2)) = (Ok tt, b2) /\
  (exists ec, set_edge_constraint b2 1 (Some (Circle 1 0 1)) = (Ok tt, with_ec (corner_block p) ec) /\ mget Nat.eqb ec 0%nat = Some (Circle 0 (-1) 2) /\
     mget Nat.eqb ec 1%nat = Some (Circle 1 0 1) /\ forall s, (1 < s)%nat -> mget Nat.eqb ec s = None) /\
  holds_nodes 2 (box_2d (-1) (-1) 2 2) p.
Proof.
  intros Hz. destruct (box_2d_ok zdet (-1) (-1) 2 2 ltac:(lra) ltac:(lra)) as (p & E & HN).
  assert (W : wf_block (mkBlock MARKER 2 [2; 2]%nat [[1; 1]; [1; 1]] [] [] [] [] p (mkRing 0 (PI / 2) 1 2 0 1) false)).
  { eapply made_wf; [|eapply made_new; exact E]. lra. }
  eexists _, _, _, p. split; [exact E|]. split.
  { rewrite set_ndiv_ok; [reflexivity|exact W|reflexivity|]. intros n [<- |[<- |[]]]; lia. }
  split; [cbn; reflexivity|]. split; [|exact HN]. cbn. unfold equal_widths, with_ec, with_div, corner_block. cbn.
  eexists. split; [|split; [|split]].
  - replace (1 * NAT_LENGTH / 1) with 2 by (unfold NAT_LENGTH; lra). reflexivity.
  - reflexivity.
  - reflexivity.
  - intros s Hs. destruct s as [|[|s]]; [lia|lia|]. reflexivity.
Qed.
Lemma qua4_nodes : forall m, (m < 4)%nat -> ref_coords Qua4 m = nth m [[-1; -1]; [1; -1]; [1; 1]; [-1; 1]] [].
Proof. intros m Hm. unfold ref_coords. do 4 (destruct m as [|m]; [cbn; unfold Q2R; cbn; repeat f_equal; lra|]). lia. Qed.
Lemma one_cell b idx m : b_ndim b = 2%nat -> b_ndiv b = [1; 1]%nat -> b_delta b = [[2]; [2]] -> valid_index b idx -> (m < 4)%nat ->
  idx = [0; 0]%nat /\ node_ksi b Qua4 idx m = nth m [[-1; -1]; [1; -1]; [1; 1]; [-1; 1]] [].
Proof.
  intros D N E [V1 V2] Hm. rewrite D in *. destruct idx as [|i [|j [|k idx]]]; try discriminate.
  pose proof (V2 0%nat ltac:(lia)) as A. pose proof (V2 1%nat ltac:(lia)) as B. unfold ndivs in A, B. rewrite N in A, B. simpl in A, B.
  assert (i = 0%nat) by lia. assert (j = 0%nat) by lia. subst. split; auto.
  unfold node_ksi. rewrite qua4_nodes by auto. unfold widths, line. rewrite D, E. do 4 (destruct m as [|m]; [cbn [nth seq map firstn sum]; repeat (apply f_equal2; [lra|]); reflexivity|]). lia.
Qed.
Lemma sqrt_1' : forall x, x = 1 -> sqrt x = 1. Proof. intros x ->. apply sqrt_1. Qed.
Lemma corner_witness zdet sh shc : 0 <= zdet < 1 -> (forall c, Permutation (sh c) c) -> (forall l, Permutation (shc l) l) ->
  exists b msh p x, made zdet b /\ fits b Qua4 /\ spaced b Qua4 /\ b_ring b = false /\ subdivide sh shc b Qua4 = Ok msh /\
    constrained b 1 /\ at_side 2 1 (node_ksi b Qua4 [0; 0]%nat 1) /\ b_ndim b = 2%nat /\ valid_index b [0; 0]%nat /\
    point_at b msh [0; 0]%nat 1 p /\ coords_of msh p x /\ x = [2; -1] /\ ~ meets b 1 x.
Proof.
  intros Hz Hsh Hshc. destruct (corner_made zdet Hz) as (b0 & b1 & b2 & p & E0 & E1 & E2 & (ec & E3 & M0 & M1 & M2) & HN).
  set (b := with_ec (corner_block p) ec) in *.
  assert (Mk : made zdet b).
  { replace b with (snd (set_edge_constraint b2 1 (Some (Circle 1 0 1)))) by (rewrite E3; reflexivity). apply made_ec.
    replace b2 with (snd (set_edge_constraint b1 0 (Some (Circle 0 (-1) 2)))) by (rewrite E2; reflexivity). apply made_ec.
    replace b1 with (snd (set_ndiv b0 [1; 1]%nat)) by (rewrite E1; reflexivity). apply made_ndiv. eapply made_new. exact E0. }
  assert (W : wf_block b) by (apply (made_wf zdet); [lra|auto]).
  assert (Ft : fits b Qua4) by reflexivity. pose proof (proj1 (fits_in b Qua4 (w_nd b W)) Ft) as F.
  assert (Sp : spaced b Qua4).
  { intros a d Ha Hd. pose proof (tol_small b W). replace (INR (per Qua4)) with 1 by reflexivity.
    assert (d = 2) by (destruct a as [|[|a]]; [| |cbn in Ha; lia]; destruct Hd as [<- |[]]; reflexivity). lra. }
  assert (PM : forall ksi, List.length ksi = 2%nat -> block_map b ksi = ksi).
  { intros ksi L. destruct (box_2d_map (-1) (-1) 2 2 p ksi (w_pad b W) (w_kind b W) (w_space b W) HN L) as [P0 P1].
    unfold block_map. cbn [b_ring b corner_block with_ec b_ndim b_pad seq map]. rewrite P0, P1. destruct ksi as [|x [|y [|z ksi]]]; [discriminate L|discriminate L| |discriminate L]. cbn [nth]. repeat (apply f_equal2; [lra|]); reflexivity. }
  assert (V0 : valid_index b [0; 0]%nat).
  { split; [reflexivity|]. intros a Ha. destruct a as [|[|a]]; [cbn; lia|cbn; lia|cbn in Ha; lia]. }
  destruct (mesh_total b Qua4 sh shc Hsh Hshc W F Sp) as (msh & Run).
  { right. intros idx m s V Hm Hs C A N. destruct (one_cell b idx m eq_refl eq_refl eq_refl V Hm) as [-> K]. rewrite K in A, N.
    change (kind_nnode Qua4) with 4%nat in Hm. rewrite PM in N by (do 4 (destruct m as [|m]; [reflexivity|]); lia).
    unfold near, constrained in *. change (b_ndim b =? 2)%nat with true in *. cbn iota in *. change (b_ec b) with ec in *.
    destruct s as [|[|s]]; [| |rewrite M2 in C by lia; congruence].
    - rewrite M0 in N. unfold at_side in A. change (side_axis (b_ndim b) 0) with 1%nat in A. change (side_end (b_ndim b) 0) with (-1) in A. do 4 (destruct m as [|m]; [cbn [nth] in A; first [exfalso; lra | cbn [near_2d nth] in N; unfold dist2 in N; rewrite sqrt_1' in N by lra; lra]|]). lia.
    - rewrite M1 in N. unfold at_side in A. change (side_axis (b_ndim b) 1) with 0%nat in A. change (side_end (b_ndim b) 1) with 1 in A. do 4 (destruct m as [|m]; [cbn [nth] in A; first [exfalso; lra | cbn [near_2d nth] in N; unfold dist2 in N; rewrite sqrt_1' in N by lra; lra]|]). lia. }
  destruct (one_cell b [0; 0]%nat 1 eq_refl eq_refl eq_refl V0 ltac:(lia)) as [_ K1]. cbn [nth] in K1.
  destruct (mesh_point_at b Qua4 sh shc Hsh Hshc W F Sp msh Run [0; 0]%nat 1 V0 ltac:(vm_compute; lia)) as (q & Hq & _).
  destruct (mesh_kept b Qua4 sh shc Hsh Hshc W F Sp msh Run [0; 0]%nat 1 q V0 ltac:(vm_compute; lia) Hq ltac:(right; left; reflexivity)) as (s & x & Hx & Pl).
  assert (Ex : x = [2; -1]).
  { rewrite K1 in Pl. unfold place in Pl. change (b_ring b) with false in Pl. cbn iota in Pl.
    destruct (pad_coords_ok (b_pad b) [1; -1] (w_pad b W) (w_ok b W)) as (y & q' & Ey & Ly & Y & _). rewrite (w_space b W) in Ey, Ly, Y. rewrite Ey in Pl. cbn [bind fst] in Pl.
    assert (Y' : y = [1; -1]).
    { destruct (box_2d_map (-1) (-1) 2 2 p [1; -1] (w_pad b W) (w_kind b W) (w_space b W) HN eq_refl) as [P0 P1].
      pose proof (Y 0%nat ltac:(cbn; lia)) as Y0. pose proof (Y 1%nat ltac:(cbn; lia)) as Y1. change (b_pad b) with p in Y0, Y1. rewrite P0 in Y0. rewrite P1 in Y1.
      destruct y as [|y0 [|y1 [|y2 y]]]; [discriminate Ly|discriminate Ly| |discriminate Ly]. cbn [nth] in Y0, Y1. apply f_equal2; [lra|apply f_equal2; [lra|reflexivity]]. }
    subst y. assert (HC : has_constraints b = true) by (apply has_constraints_iff; auto; exists 0%nat; split; [cbn; lia|]; unfold constrained; cbn; rewrite M0; discriminate).
    rewrite HC in Pl. unfold handle_constraints in Pl. change (side_tests (b_ndim b)) with [(1%nat, -1, 0%nat); (0%nat, 1, 1%nat); (1%nat, 1, 2%nat); (0%nat, -1, 3%nat)] in Pl.
    cbn [foldM fst snd get nth_error bind] in Pl. rewrite (proj2 (Rltb_iff _ _)) in Pl by (rewrite Rminus_diag_eq, Rabs_R0 by auto; unfold TOL_SIDE; lra).
    unfold apply_side in Pl at 1. change (b_ndim b =? 2)%nat with true in Pl. cbn iota in Pl. change (b_ec b) with ec in Pl. rewrite M0 in Pl. cbn [apply_constraint_2d] in Pl.
    match type of Pl with context [to_circle ?x ?p ?q ?pc ?qc ?r ?m] => destruct (to_circle_spec x p q pc qc r m ltac:(cbn; lia) ltac:(cbn; lia) ltac:(lia)) as [_ B] end.
    assert (D1 : dist2 (nth 0 [1; -1] 0 - 0) (nth 1 [1; -1] 0 - -1) = 1) by (unfold dist2; apply sqrt_1'; cbn; lra).
    destruct B as (u & x' & Ex' & L' & X0 & X1 & _ & _ & Un & _). { rewrite D1. lra. }
    rewrite D1 in X0, X1. cbn [nth] in X0, X1. rewrite Ex' in Pl. cbn [bind fst snd] in Pl.
    assert (Ev : x' = [2; -1]). { destruct x' as [|y0 [|y1 [|y2 y]]]; [discriminate L'|discriminate L'| |discriminate L']. cbn [nth] in X0, X1. apply f_equal2; [lra|apply f_equal2; [lra|reflexivity]]. }
    destruct u; [|specialize (Un eq_refl); rewrite Ev in Un; injection Un; intros; lra].
    cbn [bind] in Pl. injection Pl as _ <-. exact Ev. }
  exists b, msh, q, x. split; [exact Mk|]. split; [exact Ft|]. split; [exact Sp|]. split; [reflexivity|]. split; [exact Run|].
  split; [unfold constrained; cbn; rewrite M1; discriminate|]. split; [rewrite K1; reflexivity|]. split; [reflexivity|]. split; [exact V0|]. split; [exact Hq|]. split; [exact Hx|]. split; [exact Ex|].
  subst x. unfold meets. change (b_ndim b =? 2)%nat with true. cbn iota. change (b_ec b) with ec. rewrite M1. cbn. unfold dist2. rewrite Rabs_R1. intros Q.
  assert (Q2 : sqrt ((2 - 1) ^ 2 + (-1 - 0) ^ 2) * sqrt ((2 - 1) ^ 2 + (-1 - 0) ^ 2) = 1) by (rewrite Q; lra). rewrite sqrt_sqrt in Q2 by lra. lra.
Qed.

(* one constrained side *)
Lemma side_witness zdet sh shc : 0 <= zdet < 1 -> (forall c, Permutation (sh c) c) -> (forall l, Permutation (shc l) l) ->
  exists b msh, made zdet b /\ fits b Qua4 /\ spaced b Qua4 /\ b_ring b = false /\ apart b /\ subdivide sh shc b Qua4 = Ok msh /\
    constrained b 0 /\ at_side 2 0 (node_ksi b Qua4 [0; 0]%nat 1) /\ b_ndim b = 2%nat /\ valid_index b [0; 0]%nat /\
    ~ meets b 0 (block_map b (node_ksi b Qua4 [0; 0]%nat 1)) /\
    (forall s, (s < nsides 2)%nat -> constrained b s -> ~ at_side 2 s (node_ksi b Qua4 [0; 0]%nat 2)).
Proof.
  intros Hz Hsh Hshc. destruct (corner_made zdet Hz) as (b0 & b1 & b & p & E0 & E1 & E2 & (ec & E3 & _) & HN).
  assert (Mk : made zdet b).
  { replace b with (snd (set_edge_constraint b1 0 (Some (Circle 0 (-1) 2)))) by (rewrite E2; reflexivity). apply made_ec.
    replace b1 with (snd (set_ndiv b0 [1; 1]%nat)) by (rewrite E1; reflexivity). apply made_ndiv. eapply made_new. exact E0. }
  assert (W : wf_block b) by (apply (made_wf zdet); [lra|auto]).
  destruct (box_2d_ok zdet (-1) (-1) 2 2 ltac:(lra) ltac:(lra)) as (p' & E0' & HN'). rewrite E0 in E0'. injection E0' as ->.
  assert (W0 : wf_block (mkBlock MARKER 2 [2; 2]%nat [[1; 1]; [1; 1]] [] [] [] [] p' (mkRing 0 (PI / 2) 1 2 0 1) false)) by (eapply made_wf; [|eapply made_new; exact E0]; lra).
  rewrite set_ndiv_ok in E1; [|exact W0|reflexivity|intros n [<- |[<- |[]]]; lia]. injection E1 as <-. cbn in E2. injection E2 as <-.
  set (b := with_ec (with_div _ _ _) _) in W, Mk |- *.
  assert (E1w : equal_widths 1 = [2]) by (unfold equal_widths, NAT_LENGTH; cbn [repeat]; apply f_equal2; [simpl; lra|reflexivity]).
  assert (Eb : b_delta b = [[2]; [2]]) by (change (b_delta b) with [equal_widths 1; equal_widths 1]; rewrite E1w; reflexivity).
  assert (Ft : fits b Qua4) by reflexivity. pose proof (proj1 (fits_in b Qua4 (w_nd b W)) Ft) as F.
  assert (Sp : spaced b Qua4).
  { intros a d Ha Hd. pose proof (tol_small b W). replace (INR (per Qua4)) with 1 by reflexivity. unfold widths in Hd. rewrite Eb in Hd.
    assert (d = 2) by (destruct a as [|[|a]]; [| |cbn in Ha; lia]; destruct Hd as [<- |[]]; reflexivity). lra. }
  assert (PM : forall ksi, List.length ksi = 2%nat -> block_map b ksi = ksi).
  { intros ksi L. destruct (box_2d_map (-1) (-1) 2 2 p' ksi (w_pad b W) (w_kind b W) (w_space b W) HN' L) as [P0 P1].
    unfold block_map. cbn [b_ring b with_ec with_div b_ndim b_pad seq map]. rewrite P0, P1. destruct ksi as [|x [|y [|z ksi]]]; [discriminate L|discriminate L| |discriminate L]. cbn [nth]. repeat (apply f_equal2; [lra|]); reflexivity. }
  assert (V0 : valid_index b [0; 0]%nat).
  { split; [reflexivity|]. intros a Ha. destruct a as [|[|a]]; [cbn; lia|cbn; lia|cbn in Ha; lia]. }
  assert (C0 : forall s, constrained b s -> s = 0%nat).
  { intros s H. unfold constrained in H. cbn in H. destruct s; auto. cbn in H. congruence. }
  destruct (mesh_total b Qua4 sh shc Hsh Hshc W F Sp) as (msh & Run).
  { right. intros idx m s V Hm Hs C A N. destruct (one_cell b idx m eq_refl eq_refl Eb V Hm) as [-> K]. rewrite K in A, N.
    change (kind_nnode Qua4) with 4%nat in Hm. rewrite PM in N by (do 4 (destruct m as [|m]; [reflexivity|]); lia). rewrite (C0 s C) in *.
    unfold at_side in A. change (side_axis (b_ndim b) 0) with 1%nat in A. change (side_end (b_ndim b) 0) with (-1) in A. unfold near in N. change (b_ndim b =? 2)%nat with true in N. cbn iota in N. change (mget Nat.eqb (b_ec b) 0%nat) with (Some (Circle 0 (-1) 2)) in N. cbn iota in N. do 4 (destruct m as [|m]; [cbn [nth] in A; first [exfalso; lra | cbn [near_2d nth] in N; unfold dist2 in N; rewrite sqrt_1' in N by lra; lra]|]). lia. }
  destruct (one_cell b [0; 0]%nat 1 eq_refl eq_refl Eb V0 ltac:(lia)) as [_ K1]. cbn [nth] in K1.
  destruct (one_cell b [0; 0]%nat 2 eq_refl eq_refl Eb V0 ltac:(lia)) as [_ K2]. cbn [nth] in K2.
  exists b, msh. split; [exact Mk|]. split; [exact Ft|]. split; [exact Sp|]. split; [reflexivity|]. split.
  { intros s s' _ _ H1 H2 H3. rewrite (C0 s H1), (C0 s' H2) in H3. congruence. }
  split; [exact Run|]. split; [unfold constrained; cbn; discriminate|]. split; [rewrite K1; reflexivity|]. split; [reflexivity|]. split; [exact V0|]. split.
  - rewrite K1, PM by auto. unfold meets. cbn. unfold dist2. rewrite sqrt_1' by lra. rewrite Rabs_pos_eq by lra. lra.
  - intros s _ H. rewrite (C0 s H), K2. unfold at_side. cbn. lra.
Qed.

(* the block of one cell of Block::new, with two divisions along each direction *)
Lemma plain_witness zdet : 0 <= zdet < / 4 -> exists b, block_new zdet 2 (box_2d 0 0 1 1) = Ok b /\ b_ndim b = 2%nat /\ b_ndiv b = [2; 2]%nat /\ b_ring b = false /\ has_constraints b = false /\
  forall k, fits b k -> spaced b k.
Proof.
  intros Hz. destruct (box_2d_ok zdet 0 0 1 1 ltac:(lra) ltac:(lra)) as (p & E & HN). eexists. split; [exact E|]. do 4 (split; [reflexivity|]).
  assert (W : wf_block (mkBlock MARKER 2 [2; 2]%nat [[1; 1]; [1; 1]] [] [] [] [] p (mkRing 0 (PI / 2) 1 2 0 1) false)) by (eapply made_wf; [|eapply made_new; exact E]; lra).
  intros k Hk a d Ha Hd. pose proof (tol_small _ W) as T. pose proof (tol_pos _ W) as P.
  assert (d = 1) by (destruct a as [|[|a]]; [| |cbn in Ha; lia]; destruct Hd as [<- |[<- |[]]]; reflexivity). subst d.
  assert (INR (per k) <= 4) by (destruct k; simpl; lra). nra.
Qed.
