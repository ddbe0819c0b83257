(* The mesh of one rectangular block with equal divisions. *)
From Coq Require Import String Reals List Lia Lra Bool Arith ZArith Permutation.
From Verif Require Import Base BaseFacts Kind MeshModel MeshQuerySpec TopoModel TopoSpec GeomModel GeomSpec GeomProof GridModel GridSpec GridProof SearchModel SearchProof
  JoinModel JoinSpec JoinProof JoinProof2 ShapesModel ShapesSpec PadModel PadSpec BlockModel BlockSpec BlockProof BlockProof2 BlockProof3 BlockProof9 BlockProof10 PropBlock StructModel StructSpec StructProof.
Import ListNotations.
Local Open Scope list_scope.
Local Open Scope R_scope.

Lemma nth_grid {A} (g : nat -> nat -> A) n : forall m s j i, (i < n)%nat -> (j < m)%nat ->
  nth_error (flat_map (fun j => map (g j) (seq 0 n)) (seq s m)) (i + n * j) = Some (g (s + j)%nat i).
Proof.
  induction m as [|m IH]; intros s j i Hi Hj; [lia|]. cbn [seq flat_map]. destruct j as [|j].
  - rewrite nth_error_app1 by (rewrite map_length, seq_length; lia). rewrite nth_error_map, (nth_error_nth' _ 0%nat) by (rewrite seq_length; lia). rewrite seq_nth by lia. cbn. do 2 f_equal; lia.
  - rewrite nth_error_app2 by (rewrite map_length, seq_length; lia). rewrite map_length, seq_length. replace (i + n * S j - n)%nat with (i + n * j)%nat by lia.
    rewrite IH by lia. do 2 f_equal. lia.
Qed.
Lemma length_grid {A} (g : nat -> nat -> A) n : forall m s, List.length (flat_map (fun j => map (g j) (seq 0 n)) (seq s m)) = (n * m)%nat.
Proof. induction m as [|m IH]; intros s; cbn [seq flat_map List.length]; [lia|]. rewrite app_length, map_length, seq_length, IH. lia. Qed.

Lemma sum_repeat x n : sum (repeat x n) = INR n * x.
Proof. induction n as [|n IH]; [cbn; lra|]. rewrite S_INR. cbn [repeat]. change (sum (x :: repeat x n)) with (x + sum (repeat x n)). rewrite IH. lra. Qed.
Lemma firstn_repeat {A} (x : A) : forall n i, (i <= n)%nat -> firstn i (repeat x n) = repeat x i.
Proof. induction n as [|n IH]; intros [|i] H; cbn; auto; [lia|]. f_equal. apply IH. lia. Qed.
Lemma line_uniform n i : (0 < n)%nat -> (i <= n)%nat -> line (uniform n) i = -1 + 2 * (INR i / INR n).
Proof. intros Hn Hi. unfold line, uniform. rewrite firstn_repeat, sum_repeat by exact Hi. field. apply not_0_INR. lia. Qed.
Lemma nth_repeat' {A} (x d : A) n i : (i < n)%nat -> nth i (repeat x n) d = x.
Proof. intros H. revert i H. induction n as [|n IH]; intros [|i] H; cbn; auto; [lia|lia|]. apply IH. lia. Qed.

Lemma tick_0 a b n : tick a b n 0 = a.
Proof. unfold tick. cbn. unfold Rdiv. rewrite Rmult_0_l. lra. Qed.
Lemma tick_n a b n : (0 < n)%nat -> tick a b n n = b.
Proof. intros H. unfold tick. unfold Rdiv. rewrite Rinv_r by (apply not_0_INR; lia). lra. Qed.
Lemma tick_lt a b n i j : (0 < n)%nat -> a < b -> (i < j)%nat -> tick a b n i + (b - a) / INR n <= tick a b n j.
Proof.
  intros Hn H L. unfold tick. assert (0 < INR n) by (apply lt_0_INR; lia). assert (INR i + 1 <= INR j) by (rewrite <- S_INR; apply le_INR; lia).
  assert (0 < (b - a) / INR n) by (apply Rdiv_lt_0_compat; lra).
  replace ((b - a) * (INR i / INR n)) with ((b - a) / INR n * INR i) by (field; lra). replace ((b - a) * (INR j / INR n)) with ((b - a) / INR n * INR j) by (field; lra). nra.
Qed.
Lemma tick_strict a b n i j : (0 < n)%nat -> a < b -> (i < j)%nat -> tick a b n i < tick a b n j.
Proof. intros Hn H L. pose proof (tick_lt a b n i j Hn H L). assert (0 < (b - a) / INR n) by (apply Rdiv_lt_0_compat; [lra|apply lt_0_INR; lia]). lra. Qed.
Lemma tick_mono a b n i j : (0 < n)%nat -> a < b -> (i <= j)%nat -> tick a b n i <= tick a b n j.
Proof. intros Hn H L. destruct (Nat.eq_dec i j) as [->|N]; [lra|]. left. apply tick_strict; auto; lia. Qed.
Lemma tick_inj a b n i j : (0 < n)%nat -> a < b -> tick a b n i = tick a b n j -> i = j.
Proof. intros Hn H E. destruct (lt_eq_lt_dec i j) as [[L|L]|L]; auto; apply (tick_strict a b n _ _ Hn H) in L; lra. Qed.
Lemma tick_gap a b n i j e : (0 < n)%nat -> INR n * e < b - a -> 0 <= e -> i <> j -> e < Rabs (tick a b n i - tick a b n j).
Proof.
  intros Hn H He N. assert (P : 0 < INR n) by (apply lt_0_INR; lia). assert (a < b) by nra. assert (G : e < (b - a) / INR n). { apply Rmult_lt_reg_r with (INR n); [lra|]. unfold Rdiv. rewrite Rmult_assoc, Rinv_l by lra. lra. }
  destruct (lt_eq_lt_dec i j) as [[L|L]|L]; [|lia|].
  - pose proof (tick_lt a b n i j Hn H0 L). rewrite Rabs_left; lra.
  - pose proof (tick_lt a b n j i Hn H0 L). rewrite Rabs_right; lra.
Qed.

Section Block.
Variable zdet : R.
Variable sh : container -> container.
Variable shc : list (nat * nat) -> list (nat * nat).
Hypothesis Z0 : 0 <= zdet.
Hypothesis P : forall c, Permutation (sh c) c.
Hypothesis PC : forall l, Permutation (shc l) l.
Variable target : geokind.
Hypothesis F2 : In target (targets 2).

Lemma rect_block_ok x0 x1 y0 y1 n m mk : zdet < (x1 - x0) * (y1 - y0) / 4 -> (0 < n)%nat -> (0 < m)%nat ->
  exists b, rect_block zdet x0 x1 y0 y1 n m mk = Ok b /\ made zdet b /\ b_ndim b = 2%nat /\ b_ndiv b = [n; m] /\ b_delta b = [uniform n; uniform m] /\ b_marker b = mk /\
    b_ring b = false /\ has_constraints b = false /\ b_em b = [] /\ b_fm b = [] /\
    forall ksi, List.length ksi = 2%nat -> block_map b ksi = [stretch x0 x1 (nth 0 ksi 0); stretch y0 y1 (nth 1 ksi 0)].
Proof.
  intros Hz Hn Hm. assert (EB : [[x0; y0]; [x1; y0]; [x1; y1]; [x0; y1]] = box_2d x0 y0 (x1 - x0) (y1 - y0)).
  { unfold box_2d. replace (x0 + (x1 - x0)) with x1 by lra. replace (y0 + (y1 - y0)) with y1 by lra. reflexivity. }
  destruct (box_2d_ok zdet x0 y0 (x1 - x0) (y1 - y0) Z0 Hz) as (p & E & H).
  set (b0 := mkBlock MARKER 2 [2; 2]%nat [[1; 1]; [1; 1]] [] [] [] [] p (mkRing 0 (PI / 2) 1 2 0 1) false) in *.
  assert (M0 : made zdet b0) by (eapply made_new; exact E). pose proof (made_wf _ _ Z0 M0) as W.
  destruct (ndiv_done b0 [n; m] W eq_refl) as (b1 & E1 & (S1 & S2 & S3 & S4 & S5 & S6 & S7 & S8 & S9) & D1 & D2). { intros k [<-|[<-|[]]]; lia. }
  exists (set_marker b1 mk). unfold rect_block. rewrite EB, E. cbn [bind or_panic]. rewrite E1. cbn [bind or_panic call fst snd]. split; [reflexivity|].
  split. { apply made_marker. replace b1 with (snd (set_ndiv b0 [n; m])) by (rewrite E1; reflexivity). apply made_ndiv. exact M0. }
  cbn [set_marker with_marker b_ndim b_ndiv b_delta b_marker b_ring b_em b_fm].
  split; [exact S2|]. split; [exact D1|]. split; [exact D2|]. split; [reflexivity|]. split; [exact S9|].
  split. { unfold has_constraints. cbn [set_marker with_marker b_ec b_fc]. rewrite S3, S4. reflexivity. }
  split; [exact S5|]. split; [exact S6|]. intros ksi L.
  assert (Wp : pad_wf p /\ p_kind p = Qua8 /\ p_space p = 2%nat). { split; [exact (w_pad _ W)|]. split; [exact (w_kind _ W)|exact (w_space _ W)]. }
  destruct Wp as (Wp & Kp & Sp). destruct (box_2d_map x0 y0 (x1 - x0) (y1 - y0) p ksi Wp Kp Sp H L) as (X & Y).
  unfold block_map. cbn [set_marker with_marker b_ndim b_ring b_pad]. rewrite S2, S9, S7. cbn [b0 b_ndim b_ring b_pad seq map]. rewrite X, Y. unfold stretch. f_equal; [lra|f_equal; lra].
Qed.

Definition lattice_point (bx : box) (n m : nat) (x : list R) : Prop :=
  exists L M, (L <= per target * n)%nat /\ (M <= per target * m)%nat /\ x = [tick (bx0 bx) (bx1 bx) (per target * n) L; tick (by0 bx) (by1 bx) (per target * m) M].

Lemma per_pos : (1 <= per target)%nat. Proof. clear. destruct target; cbn; lia. Qed.

(* a node along one direction *)
Lemma stretch_tick a b n i r : (0 < n)%nat -> stretch (tick a b n i) (tick a b n (S i)) r = a + (b - a) * ((INR i + (1 + r) / 2) / INR n).
Proof. intros H. unfold stretch, tick. rewrite S_INR. field. apply not_0_INR. lia. Qed.
Lemma node_tick a b n i o : (0 < n)%nat -> a + (b - a) * ((INR i + INR o / INR (per target)) / INR n) = tick a b (per target * n) (per target * i + o).
Proof.
  intros H. pose proof per_pos. unfold tick. rewrite plus_INR, !mult_INR. field. split; apply not_0_INR; lia.
Qed.

Lemma block_mesh bx n m : zdet < area bx / 4 -> apart_by (tolR 2) target (bx0 bx) (bx1 bx) n -> apart_by (tolR 2) target (by0 bx) (by1 bx) m ->
  exists b msh, rect_block zdet (bx0 bx) (bx1 bx) (by0 bx) (by1 bx) n m (bx_marker bx) = Ok b /\ subdivide sh shc b target = Ok msh /\
    valid msh /\ ndim msh = 2%nat /\ unmarked msh /\ distinct_points msh /\ all_used msh /\ shows msh (map (box_shape target) (grid_boxes bx n m)) /\
    forall i x, coords_of msh i x -> lattice_point bx n m x.
Proof.
  intros Hz (Hn & Gx & Rx) (Hm & Gy & Ry). destruct (rect_block_ok (bx0 bx) (bx1 bx) (by0 bx) (by1 bx) n m (bx_marker bx) Hz Hn Hm) as (b & E & M & ND & DV & DD & MK & RG & HC & EM & FM & BM).
  exists b. assert (Ft : fits b target) by (apply fits_in; [left; exact ND|rewrite ND; exact F2]).
  assert (T : tol b = tolR 2) by (unfold tol, tolR; rewrite ND; reflexivity). assert (T0 : 0 < tolR 2). { unfold tolR. assert (0 < sqrt (INR 2)) by (apply sqrt_lt_R0; cbn; lra). lra. }
  assert (Wd : forall a, (a < 2)%nat -> widths b a = uniform (nth a [n; m] 0%nat)). { intros a Ha. unfold widths. rewrite DD. destruct a as [|[|a]]; [reflexivity|reflexivity|lia]. }
  assert (Wpos : forall a d, (a < b_ndim b)%nat -> In d (widths b a) -> INR (per target) * tol b < d).
  { intros a d Ha Hd. rewrite ND in Ha. rewrite Wd in Hd by exact Ha. apply repeat_spec in Hd. subst d. rewrite T.
    assert (X : forall k, (0 < k)%nat -> INR (per target * k) * tolR 2 < 2 -> INR (per target) * tolR 2 < 2 / INR k).
    { intros k Hk H. assert (0 < INR k) by (apply lt_0_INR; lia). rewrite mult_INR in H. apply Rmult_lt_reg_r with (INR k); [lra|]. unfold Rdiv. rewrite (Rmult_assoc 2), Rinv_l by lra. nra. }
    destruct a as [|[|a]]; [apply X; assumption|apply X; assumption|lia]. }
  destruct (C45_total zdet sh shc b target Z0 P M Ft HC) as (msh & Run).
  { intros a d Ha Hd. pose proof (Wpos a d Ha Hd). pose proof (pos_INR (per target)). rewrite T in *. nra. }
  exists msh. split; [exact E|]. split; [exact Run|].
  assert (SD : subdivided zdet sh shc b target msh) by (repeat (split; [assumption|]); exact Run).
  destruct (C45_consistent _ _ _ _ _ _ SD) as (C1 & C2 & C3 & _). rewrite ND in C3.
  split; [split; [exact C1|split; [exact C2|left; exact C3]]|]. split; [exact C3|].
  split. { split.
    - destruct (marked_edges msh) as [|[[mk u] v] l] eqn:Q; [reflexivity|]. destruct (proj1 (C61_edges _ _ _ _ _ _ mk u v SD)) as (e & idx & e' & p & q & X & _); [rewrite Q; left; reflexivity|]. rewrite EM in X. discriminate.
    - destruct (marked_faces msh) as [|x l] eqn:Q; [reflexivity|]. destruct (proj1 (C61_faces _ _ _ _ _ _ x SD)) as (f & idx & f' & p1 & p2 & p3 & p4 & a1 & a2 & a3 & a4 & mk & X & _); [rewrite Q; left; reflexivity|]. rewrite FM in X. discriminate. }
  destruct (C45_cells _ _ _ _ _ _ SD) as (K1 & K2 & K3). destruct (C45_nodes _ _ _ _ _ _ SD) as (N1 & N2).
  assert (VI : forall idx, valid_index b idx -> exists i j, idx = [i; j] /\ (i < n)%nat /\ (j < m)%nat).
  { intros idx (L & H). rewrite ND in L, H. destruct idx as [|i [|j [|k idx]]]; cbn [List.length] in L; [lia|lia| |lia]. exists i, j. split; [reflexivity|].
    pose proof (H 0%nat ltac:(lia)) as H0. pose proof (H 1%nat ltac:(lia)) as H1. unfold ndivs in H0, H1. rewrite DV in H0, H1. cbn in H0, H1. auto. }
  set (node := fun i j k => [stretch (tick (bx0 bx) (bx1 bx) n i) (tick (bx0 bx) (bx1 bx) n (S i)) (nth 0 (ref_coords target k) 0);
                             stretch (tick (by0 bx) (by1 bx) m j) (tick (by0 bx) (by1 bx) m (S j)) (nth 1 (ref_coords target k) 0)]).
  assert (Pos : forall i j k p, (i < n)%nat -> (j < m)%nat -> (k < kind_nnode target)%nat -> point_at b msh [i; j] k p -> valid_index b [i; j] -> coords_of msh p (node i j k)).
  { intros i j k p Hi Hj Hk PA V. pose proof (C45_positions _ _ _ _ _ _ [i; j] k p SD HC V Hk PA) as X.
    rewrite BM in X by (unfold node_ksi; rewrite map_length, seq_length; exact ND).
    unfold node_ksi in X. rewrite ND in X. cbn [seq map nth] in X. rewrite (Wd 0%nat), (Wd 1%nat) in X by lia. cbn [nth] in X. rewrite !line_uniform in X by lia.
    unfold uniform in X. rewrite !nth_repeat' in X by lia. unfold node. rewrite !stretch_tick by lia.
    assert (0 < INR n) by (apply lt_0_INR; lia). assert (0 < INR m) by (apply lt_0_INR; lia).
    replace (stretch (bx0 bx) (bx1 bx) (-1 + 2 * (INR i / INR n) + 2 / INR n * ((1 + nth 0 (ref_coords target k) 0) / 2)))
      with (bx0 bx + (bx1 bx - bx0 bx) * ((INR i + (1 + nth 0 (ref_coords target k) 0) / 2) / INR n)) in X by (unfold stretch; field; lra).
    replace (stretch (by0 bx) (by1 bx) (-1 + 2 * (INR j / INR m) + 2 / INR m * ((1 + nth 1 (ref_coords target k) 0) / 2)))
      with (by0 bx + (by1 bx - by0 bx) * ((INR j + (1 + nth 1 (ref_coords target k) 0) / 2) / INR m)) in X by (unfold stretch; field; lra). exact X. }
  assert (Lat : forall i j k, (i < n)%nat -> (j < m)%nat -> (k < kind_nnode target)%nat ->
    node i j k = [tick (bx0 bx) (bx1 bx) (per target * n) (per target * i + offset target k 0); tick (by0 bx) (by1 bx) (per target * m) (per target * j + offset target k 1)] /\
    (offset target k 0 <= per target)%nat /\ (offset target k 1 <= per target)%nat).
  { intros i j k Hi Hj Hk. destruct (ref_offset 2 target k 0 (or_introl eq_refl) F2 Hk ltac:(lia)) as (E0 & L0). destruct (ref_offset 2 target k 1 (or_introl eq_refl) F2 Hk ltac:(lia)) as (E1 & L1).
    split; [|auto]. unfold node. rewrite !stretch_tick by lia. rewrite E0, E1, !node_tick by lia. reflexivity. }
  pose proof per_pos as PP. assert (PN : (0 < per target * n)%nat) by nia. assert (PM : (0 < per target * m)%nat) by nia.
  assert (LX : bx0 bx < bx1 bx). { pose proof (lt_0_INR _ PN). nra. } assert (LY : by0 bx < by1 bx). { pose proof (lt_0_INR _ PM). nra. }
  assert (Node : forall p x, coords_of msh p x -> exists i j k, (i < n)%nat /\ (j < m)%nat /\ (k < kind_nnode target)%nat /\ valid_index b [i; j] /\ point_at b msh [i; j] k p /\ x = node i j k).
  { intros p x X. destruct (N2 p (coords_range _ _ _ X)) as (idx & k & V & Hk & PA). destruct (VI idx V) as (i & j & -> & Hi & Hj).
    exists i, j, k. repeat (split; [assumption|]). exact (coords_inj _ _ _ _ X (Pos i j k p Hi Hj Hk PA V)). }
  split; [|split; [|split]].
  - intros p q x Xp Xq. destruct (Node p x Xp) as (i & j & k & Hi & Hj & Hk & V & PA & E1). destruct (Node q x Xq) as (i' & j' & k' & Hi' & Hj' & Hk' & V' & PA' & E2).
    apply (C45_conforming _ _ _ _ _ _ [i; j] k p [i'; j'] k' q SD V V' Hk Hk' PA PA').
    destruct (Lat i j k Hi Hj Hk) as (A & A0 & A1). destruct (Lat i' j' k' Hi' Hj' Hk') as (B & B0 & B1). rewrite E1, A, B in E2. injection E2 as EX EY.
    apply tick_inj in EX; auto. apply tick_inj in EY; auto. unfold lattice. cbn [List.length seq map nth]. rewrite EX, EY. reflexivity.
  - intros p Lp. destruct (N2 p Lp) as (idx & k & V & Hk & (c & Hc & Hp)). exists c. split; eapply nth_error_In; eassumption.
  - apply Forall2_nth. split.
    { rewrite map_length. unfold grid_boxes. rewrite length_grid. rewrite K1, DV. cbn. lia. }
    intros k c g Hc Hg. destruct (K3 k) as (idx & V & Rk). { apply nth_error_Some. rewrite Hc. discriminate. }
    destruct (VI idx V) as (i & j & -> & Hi & Hj). rewrite DV in Rk. cbn [rank] in Rk. replace k with (i + n * j)%nat in * by nia.
    rewrite nth_error_map in Hg. unfold grid_boxes in Hg. rewrite (nth_grid (fun j i => mkBox (bx_marker bx) (tick (bx0 bx) (bx1 bx) n i) (tick (bx0 bx) (bx1 bx) n (S i)) (tick (by0 bx) (by1 bx) m j) (tick (by0 bx) (by1 bx) m (S j)))) in Hg by assumption.
    cbn [option_map] in Hg. injection Hg as <-. try rewrite Nat.add_0_l in *.
    destruct (K2 [i; j] V) as (c' & Hc' & Kc & Mc & Lc). rewrite DV in Hc'. cbn [rank] in Hc'. replace (i + n * (j + m * 0))%nat with (i + n * j)%nat in Hc' by nia. rewrite Hc in Hc'. injection Hc' as <-.
    split; [exact Kc|]. split; [cbn; congruence|]. cbn [s_nodes box_shape]. apply Forall2_nth. split; [rewrite map_length, seq_length; exact Lc|].
    intros q p x Hp Hx. assert (Hq : (q < kind_nnode target)%nat). { rewrite <- Lc. apply nth_error_Some. rewrite Hp. discriminate. }
    rewrite nth_error_map, (nth_error_nth' _ 0%nat) in Hx by (rewrite seq_length; exact Hq). rewrite seq_nth in Hx by exact Hq. cbn [option_map] in Hx. injection Hx as <-.
    apply (Pos i j q p Hi Hj Hq); [|exact V]. exists c. split; [|exact Hp]. rewrite DV. cbn [rank]. replace (i + n * (j + m * 0))%nat with (i + n * j)%nat by nia. exact Hc.
  - intros p x X. destruct (Node p x X) as (i & j & k & Hi & Hj & Hk & _ & _ & ->). destruct (Lat i j k Hi Hj Hk) as (A & A0 & A1).
    exists (per target * i + offset target k 0)%nat, (per target * j + offset target k 1)%nat. split; [nia|]. split; [nia|exact A].
Qed.
End Block.
