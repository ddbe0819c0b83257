(* Properties C94, C95: the boundary of the mesh of a block, the neighbours of its cells, and the markers of its sides. *)
From Coq Require Import String Reals List Lia Lra Bool Arith ZArith Permutation Sorting.
From Verif Require Import Base BaseFacts TopoMaps Kind MeshModel GraphModel MeshQuerySpec TopoModel TopoSpec GridModel GeomModel ShapesModel ShapesSpec PadModel PadSpec
  BlockModel BlockSpec BlockProof BlockProof2 BlockProof3 BlockProof8 BlockProof9 BlocksProof8 PropBlock PropTopo BlockFeatSpec BlockFeatProof BlockFeatProof2 BlockFeatProof3.
Import ListNotations.
Local Open Scope list_scope.
Local Open Scope nat_scope.

(** C94: an edge of a cell belongs to that cell, and to the next cell in its direction if there is one *)
Theorem C94_edges_shared : forall zdet sh shc b target msh p q idx e, subdivided zdet sh shc b target msh -> b_ndim b = 2 ->
  valid_index b idx -> has_edge msh p q (rank (b_ndiv b) idx, e) ->
  (forall c e', has_edge msh p q (c, e') <-> (c = rank (b_ndiv b) idx /\ e' = e) \/
     exists idx', valid_index b idx' /\ across 2 e idx idx' /\ c = rank (b_ndiv b) idx' /\ e' = opposite 2 e) /\
  (at_rim b idx e <-> ~ exists idx', valid_index b idx' /\ across 2 e idx idx').
Proof.
  intros zdet sh shc b target msh p q idx e H D V He. open_sub H. split; [exact (edge_shared b target sh shc P Q W F Sp msh Run p q idx e D V He)|].
  pose proof (rim_iff b target W F idx e V) as X. rewrite D in X. apply X. apply (edge_somewhere b target sh shc P Q W F Sp msh Run p q _ e D He).
Qed.
Print Assumptions C94_edges_shared.
Theorem C94_faces_shared : forall zdet sh shc b target msh k idx f, subdivided zdet sh shc b target msh -> b_ndim b = 3 ->
  valid_index b idx -> has_face msh k (rank (b_ndiv b) idx, f) ->
  (forall c f', has_face msh k (c, f') <-> (c = rank (b_ndiv b) idx /\ f' = f) \/
     exists idx', valid_index b idx' /\ across 3 f idx idx' /\ c = rank (b_ndiv b) idx' /\ f' = opposite 3 f) /\
  (at_rim b idx f <-> ~ exists idx', valid_index b idx' /\ across 3 f idx idx').
Proof.
  intros zdet sh shc b target msh k idx f H D V He. open_sub H. split; [exact (face_shared b target sh shc P Q W F Sp msh Run k idx f D V He)|].
  pose proof (rim_iff b target W F idx f V) as X. rewrite D in X. apply X. apply (face_somewhere b target sh shc P Q W F Sp msh Run k _ f D He).
Qed.
Print Assumptions C94_faces_shared.

(** the boundary: exactly the edges (faces) of the cells at the sides of the block, as many as there are divisions along the sides *)
Theorem C94_boundary_edges : forall zdet sh shc b target msh leb shuffle ft, subdivided zdet sh shc b target msh -> b_ndim b = 2 ->
  (forall l, Permutation (shuffle l) l) -> features_new leb shuffle msh false = Ok ft ->
  List.length (ft_edges ft) = 2 * (ndivs b 0 + ndivs b 1) /\
  forall p q, (exists ed, get_edge ft p q = Ok ed) <-> p <= q /\ exists idx e, valid_index b idx /\ at_rim b idx e /\ has_edge msh p q (rank (b_ndiv b) idx, e).
Proof.
  intros zdet sh shc b target msh leb shuffle ft H D Pf E. open_sub H. split; [exact (edges_number b target sh shc P Q W F Sp msh Run leb shuffle Pf ft D E)|].
  intros p q. exact (edges_listed b target sh shc P Q W F Sp msh Run leb shuffle Pf ft p q D E).
Qed.
Print Assumptions C94_boundary_edges.
Theorem C94_boundary_faces : forall zdet sh shc b target msh leb shuffle ft, subdivided zdet sh shc b target msh -> b_ndim b = 3 ->
  features_new leb shuffle msh false = Ok ft ->
  List.length (ft_faces ft) = 2 * (ndivs b 0 * ndivs b 1 + ndivs b 1 * ndivs b 2 + ndivs b 0 * ndivs b 2) /\
  forall k, (exists fc, get_face ft k = Ok fc) <-> StronglySorted le k /\ exists idx f, valid_index b idx /\ at_rim b idx f /\ has_face msh k (rank (b_ndiv b) idx, f).
Proof.
  intros zdet sh shc b target msh leb shuffle ft H D E. open_sub H. split; [exact (faces_number b target sh shc P Q W F Sp msh Run leb shuffle ft D E)|].
  intros k. exact (faces_listed b target sh shc P Q W F Sp msh Run leb shuffle ft k D E).
Qed.
Print Assumptions C94_boundary_faces.

(** the neighbours of a cell are the next cells in the four directions *)
Theorem C94_neighbors : forall zdet sh shc b target msh leb shuffle ea ft idx, subdivided zdet sh shc b target msh -> b_ndim b = 2 ->
  features_new leb shuffle msh ea = Ok ft -> valid_index b idx ->
  exists r, get_neighbors_2d msh ft (rank (b_ndiv b) idx) = Ok r /\ NoDup r /\
  forall e n ne, In (e, n, ne) r <-> exists idx', e < 4 /\ valid_index b idx' /\ across 2 e idx idx' /\ n = rank (b_ndiv b) idx' /\ ne = opposite 2 e.
Proof.
  intros zdet sh shc b target msh leb shuffle ea ft idx H D E V. open_sub H.
  exact (neighbours_are b target sh shc P Q W F Sp msh Run leb shuffle ea ft idx D E V).
Qed.
Print Assumptions C94_neighbors.

(** C95: an edge (face) at a marked side of the block has the marker of that side; the others have none *)
Theorem C95_edges : forall zdet sh shc b target msh leb shuffle ea ft p q ed idx e, subdivided zdet sh shc b target msh -> b_ndim b = 2 ->
  (forall l, Permutation (shuffle l) l) -> features_new leb shuffle msh ea = Ok ft -> get_edge ft p q = Ok ed ->
  valid_index b idx -> has_edge msh p q (rank (b_ndiv b) idx, e) ->
  (at_rim b idx e -> e_marker ed = side_marker (b_em b) e) /\ (~ at_rim b idx e -> e_marker ed = 0%Z).
Proof.
  intros zdet sh shc b target msh leb shuffle ea ft p q ed idx e H D Pf E G V He. open_sub H.
  destruct (edge_marker_listed b target sh shc P Q W F Sp msh Run leb shuffle Pf ea ft p q ed idx e D E G V He) as [[X Y]|[X Y]]; tauto.
Qed.
Print Assumptions C95_edges.
Theorem C95_faces : forall zdet sh shc b target msh leb shuffle ea ft k fc idx f, subdivided zdet sh shc b target msh -> b_ndim b = 3 ->
  features_new leb shuffle msh ea = Ok ft -> get_face ft k = Ok fc ->
  valid_index b idx -> has_face msh k (rank (b_ndiv b) idx, f) ->
  (at_rim b idx f -> f_marker fc = side_marker (b_fm b) f) /\ (~ at_rim b idx f -> f_marker fc = 0%Z).
Proof.
  intros zdet sh shc b target msh leb shuffle ea ft k fc idx f H D E G V He. open_sub H.
  destruct (face_marker_listed b target sh shc P Q W F Sp msh Run leb shuffle ea ft k fc idx f D E G V He) as [[X Y]|[X Y]]; tauto.
Qed.
Print Assumptions C95_faces.

(** asking for a marker gives the edges (faces) of the sides with that marker, one per cell at these sides *)
Theorem C95_marked_edges : forall zdet sh shc b target msh leb shuffle ft mk, subdivided zdet sh shc b target msh -> b_ndim b = 2 ->
  (forall l, Permutation (shuffle l) l) -> features_new leb shuffle msh false = Ok ft ->
  exists r, search_marked_edges ft mk = Ok r /\
  (forall ed, In ed r <-> exists p q idx e, get_edge ft p q = Ok ed /\ valid_index b idx /\ at_rim b idx e /\
     has_edge msh p q (rank (b_ndiv b) idx, e) /\ side_marker (b_em b) e = mk) /\
  List.length r = total (map (rim_size b) (sides_marked (b_em b) 4 mk)).
Proof.
  intros zdet sh shc b target msh leb shuffle ft mk H D Pf E. open_sub H.
  exact (marked_edges_at b target sh shc P Q W F Sp msh Run leb shuffle Pf ft mk D E).
Qed.
Print Assumptions C95_marked_edges.
Theorem C95_marked_faces : forall zdet sh shc b target msh leb shuffle ft mk, subdivided zdet sh shc b target msh -> b_ndim b = 3 ->
  features_new leb shuffle msh false = Ok ft ->
  exists r, search_marked_faces ft mk = Ok r /\
  (forall fc, In fc r <-> exists k idx f, get_face ft k = Ok fc /\ valid_index b idx /\ at_rim b idx f /\
     has_face msh k (rank (b_ndiv b) idx, f) /\ side_marker (b_fm b) f = mk) /\
  List.length r = total (map (rim_size b) (sides_marked (b_fm b) 6 mk)).
Proof.
  intros zdet sh shc b target msh leb shuffle ft mk H D E. open_sub H.
  exact (marked_faces_at b target sh shc P Q W F Sp msh Run leb shuffle ft mk D E).
Qed.
Print Assumptions C95_marked_faces.

(* a square of two by two cells whose right side is marked: three cells have another above, and so on; two edges with the marker *)
Lemma marked_square : forall sh shc target, (forall c, Permutation (sh c) c) -> (forall l, Permutation (shc l) l) -> kind_class target = CQua ->
  exists b0 b msh, block_new (/ 100) 2 (box_2d 0 0 1 1) = Ok b0 /\ set_edge_marker b0 1 (-7)%Z = (Ok tt, b) /\
    subdivided (/ 100) sh shc b target msh /\ b_ndim b = 2 /\ b_ndiv b = [2; 2] /\ side_marker (b_em b) 1 = (-7)%Z /\ (forall s, s <> 1 -> side_marker (b_em b) s = 0%Z).
Proof.
  intros sh shc target P Q Ft0. destruct (plain_witness (/ 100) ltac:(lra)) as (b0 & E & N & D & R & C & S). pose proof (made_new (/ 100) _ _ _ E) as M0.
  destruct (C61_edge_setter (/ 100) b0 1 (-7)%Z ltac:(lra) M0) as [X _]. destruct X as (b & Eb & Mk & Ew); [rewrite N; cbn; lia|].
  assert (M : made (/ 100) b) by (replace b with (snd (set_edge_marker b0 1 (-7)%Z)) by (rewrite Eb; reflexivity); apply made_em; auto).
  assert (N' : b_ndim b = 2) by (rewrite Ew; exact N). assert (D' : b_ndiv b = [2; 2]) by (rewrite Ew; exact D).
  assert (Ft : fits b target) by (unfold fits; rewrite N'; exact Ft0).
  assert (Sp : spaced b target) by (rewrite Ew; apply (S target); unfold fits; rewrite N; exact Ft0).
  destruct (C45_total (/ 100) sh shc b target ltac:(lra) P M Ft) as (msh & Run); [rewrite Ew; exact C| |].
  { intros a d Ha Hd. specialize (Sp a d Ha Hd). assert (W : wf_block b) by (eapply made_wf; [|exact M]; lra).
    pose proof (tol_pos b W). pose proof (pos_INR (per target)). assert (0 <= INR (per target) * tol b)%R by (apply Rmult_le_pos; lra). lra. }
  assert (Em : b_em b0 = []).
  { assert (G : good_size 2 (box_2d 0 0 1 1)) by (split; [lia|cbn; lia]).
    assert (Rc : rect 2 (box_2d 0 0 1 1)) by (intros m Hm; cbn in Hm; do 4 (destruct m as [|m]; [reflexivity|]); lia).
    destruct (C62_new (/ 100) 2 _ ltac:(lra) G Rc) as (d & Dt & A & _). pose proof (box_2d_det _ _ _ _ _ Dt) as Ed.
    destruct A as (b' & E' & _ & _ & _ & _ & _ & Em & _); [rewrite Ed; lra|]. rewrite E in E'. injection E' as ->. exact Em. }
  exists b0, b, msh. split; [exact E|]. split; [exact Eb|]. split; [split; [lra|]; split; [exact P|]; split; [exact Q|]; split; [exact M|]; split; [exact Ft|]; split; [exact Sp|exact Run]|].
  split; auto. split; auto. split; [unfold side_marker; rewrite Mk; reflexivity|]. intros s Hs. unfold side_marker. rewrite Mk. apply Nat.eqb_neq in Hs. rewrite Hs, Em. reflexivity.
Qed.
Example C94_ex : forall sh shc shuffle leb, (forall c, Permutation (sh c) c) -> (forall l, Permutation (shc l) l) -> (forall l, Permutation (shuffle l) l) ->
  exists b msh ft, subdivided (/ 100) sh shc b Qua8 msh /\ b_ndim b = 2 /\ features_new leb shuffle msh false = Ok ft /\
    List.length (ft_edges ft) = 8 /\ valid_index b [0; 1] /\ at_rim b [0; 1] 3 /\ at_rim b [0; 1] 2 /\ across 2 1 [0; 1] [1; 1] /\ across 2 0 [0; 1] [0; 0] /\
    rank (b_ndiv b) [0; 1] = 2 /\ get_neighbors_2d msh ft 2 <> Panic /\
    (exists r, search_marked_edges ft (-7) = Ok r /\ List.length r = 2) /\ (exists r, search_marked_edges ft 0 = Ok r /\ List.length r = 6).
Proof.
  intros sh shc shuffle leb P Q Pf. destruct (marked_square sh shc Qua8 P Q eq_refl) as (b0 & b & msh & _ & _ & H & D & Nd & M1 & M0).
  destruct (C45_consistent _ _ _ _ _ _ H) as (Cn & Cc & Dm & _).
  destruct (C21_new_total R leb shuffle Pf msh false Cn Cc ltac:(lia)) as (ft & E). exists b, msh, ft. split; auto. split; auto. split; auto.
  assert (V : valid_index b [0; 1]) by (split; [rewrite D; reflexivity|]; intros a Ha; rewrite D in Ha; unfold ndivs; rewrite Nd; destruct a as [|[|a]]; cbn; lia).
  assert (Sz : forall s, s < 4 -> rim_size b s = 2) by (intros s Hs; unfold rim_size, ndivs; rewrite D, Nd; do 4 (destruct s as [|s]; [reflexivity|]); lia).
  split; [rewrite (proj1 (C94_boundary_edges _ _ _ _ _ _ leb shuffle ft H D Pf E)); unfold ndivs; rewrite Nd; reflexivity|]. split; auto.
  split; [left; rewrite D; cbn; auto|]. split; [right; unfold ndivs; rewrite D, Nd; cbn; auto|].
  split; [split; [reflexivity|]; split; [intros [|[|c]] Hc Nc; cbn in Hc, Nc |- *; lia|right; cbn; auto]|].
  split; [split; [reflexivity|]; split; [intros [|[|c]] Hc Nc; cbn in Hc, Nc |- *; lia|left; cbn; auto]|].
  split; [rewrite Nd; reflexivity|]. split.
  { destruct (C94_neighbors _ _ _ _ _ _ leb shuffle false ft [0; 1] H D E V) as (r & X & _). rewrite Nd in X. change (rank [2; 2] [0; 1]) with 2 in X. rewrite X. discriminate. }
  split.
  - destruct (C95_marked_edges _ _ _ _ _ _ leb shuffle ft (-7)%Z H D Pf E) as (r & X & _ & L). exists r. split; auto. rewrite L.
    unfold sides_marked. cbn [seq filter]. rewrite M1, !M0 by lia. cbn. rewrite (Sz 1) by lia. reflexivity.
  - destruct (C95_marked_edges _ _ _ _ _ _ leb shuffle ft 0%Z H D Pf E) as (r & X & _ & L). exists r. split; auto. rewrite L.
    unfold sides_marked. cbn [seq filter]. rewrite M1, !M0 by lia. cbn. rewrite !Sz by lia. reflexivity.
Qed.
(* a cube of two by two by two cells whose top is marked *)
Example C95_ex : forall sh shc shuffle leb, (forall c, Permutation (sh c) c) -> (forall l, Permutation (shc l) l) -> (forall l, Permutation (shuffle l) l) ->
  exists b msh ft, subdivided (/ 100) sh shc b Hex20 msh /\ b_ndim b = 3 /\ features_new leb shuffle msh false = Ok ft /\
    List.length (ft_faces ft) = 24 /\ valid_index b [0; 1; 1] /\ at_rim b [0; 1; 1] 5 /\ at_rim b [0; 1; 1] 0 /\ ~ at_rim b [0; 1; 1] 4 /\ across 3 4 [0; 1; 1] [0; 1; 0] /\
    (exists r, search_marked_faces ft (-7) = Ok r /\ List.length r = 4).
Proof.
  intros sh shc shuffle leb P Q Pf.
  assert (G : good_size 3 (cube_at 0)) by (split; [lia|cbn; lia]).
  assert (Rc : rect 3 (cube_at 0)) by (intros m Hm; cbn in Hm; do 8 (destruct m as [|m]; [reflexivity|]); lia).
  destruct (C62_new (/ 100) 3 (cube_at 0) ltac:(lra) G Rc) as (d & Dt & A & _). pose proof (cube_at_det 0 d Dt) as Ed.
  destruct A as (b0 & E & N & D & Dl & Ec & Fc & Em & Fm & Rg & _); [rewrite Ed; lra|]. pose proof (made_new (/ 100) _ _ _ E) as M0.
  destruct (C61_face_setter b0 5 (-7)%Z) as [X _]. destruct X as (b & Eb & Mk & Ew); [split; [exact N|lia]|].
  assert (M : made (/ 100) b) by (replace b with (snd (set_face_marker b0 5 (-7)%Z)) by (rewrite Eb; reflexivity); apply made_fm; auto).
  assert (N' : b_ndim b = 3) by (rewrite Ew; exact N). assert (D' : b_ndiv b = [2; 2; 2]) by (rewrite Ew; exact D).
  assert (Dl' : b_delta b = repeat [1; 1]%R 3) by (rewrite Ew; exact Dl).
  assert (Ft : fits b Hex20) by (unfold fits; rewrite N'; reflexivity).
  assert (W : wf_block b) by (eapply made_wf; [|exact M]; lra).
  assert (On : forall a d0, a < b_ndim b -> In d0 (widths b a) -> d0 = 1%R).
  { intros a d0 Ha. rewrite N' in Ha. unfold widths. rewrite Dl'. destruct a as [|[|[|a]]]; [| | |lia]; cbn; intros [<- |[<- |[]]]; reflexivity. }
  assert (Sp : spaced b Hex20).
  { intros a d0 Ha Hd. rewrite (On a d0 Ha Hd). pose proof (BlockProof9.tol_small _ W) as T. pose proof (BlockProof3.tol_pos _ W). replace (INR (per Hex20)) with 2%R by reflexivity. lra. }
  destruct (C45_total (/ 100) sh shc b Hex20 ltac:(lra) P M Ft) as (msh & Run).
  { rewrite Ew. unfold has_constraints. cbn [b_ec b_fc with_fm]. rewrite Ec, Fc. reflexivity. }
  { intros a d0 Ha Hd. rewrite (On a d0 Ha Hd). lra. }
  assert (H : subdivided (/ 100) sh shc b Hex20 msh) by (split; [lra|]; split; [exact P|]; split; [exact Q|]; split; [exact M|]; split; [exact Ft|]; split; [exact Sp|exact Run]).
  destruct (C45_consistent _ _ _ _ _ _ H) as (Cn & Cc & Dm & _).
  destruct (C21_new_total R leb shuffle Pf msh false Cn Cc ltac:(lia)) as (ft & Ef). exists b, msh, ft. split; auto. split; auto. split; auto.
  split; [rewrite (proj1 (C94_boundary_faces _ _ _ _ _ _ leb shuffle ft H N' Ef)); unfold ndivs; rewrite D'; reflexivity|].
  split; [split; [rewrite N'; reflexivity|]; intros a Ha; rewrite N' in Ha; unfold ndivs; rewrite D'; destruct a as [|[|[|a]]]; cbn; lia|].
  split; [right; unfold ndivs; rewrite N', D'; cbn; auto|]. split; [left; rewrite N'; cbn; auto|].
  split; [intros [[_ X]|[X _]]; rewrite N' in X; cbn in X; [discriminate X|lra]|].
  split; [split; [reflexivity|]; split; [intros [|[|[|c]]] Hc Nc; cbn in Hc, Nc |- *; lia|left; cbn; auto]|].
  destruct (C95_marked_faces _ _ _ _ _ _ leb shuffle ft (-7)%Z H N' Ef) as (r & X & _ & L). exists r. split; auto. rewrite L.
  assert (Z0 : forall s, s <> 5 -> side_marker (b_fm b) s = 0%Z) by (intros s Hs; unfold side_marker; rewrite Mk; apply Nat.eqb_neq in Hs; rewrite Hs, Fm; reflexivity).
  assert (Z5 : side_marker (b_fm b) 5 = (-7)%Z) by (unfold side_marker; rewrite Mk; reflexivity).
  unfold sides_marked. cbn [seq filter]. rewrite Z5, !Z0 by lia. cbn. unfold rim_size, ndivs. rewrite N', D'. reflexivity.
Qed.
