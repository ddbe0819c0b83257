(* C108: the command line tools qua2msh and hex2msh. *)
From Coq Require Import String Reals List Lia Lra Bool Arith NArith ZArith Permutation Sorted.
From Verif Require Import Base BaseFacts Kind GraphModel MeshModel MeshQuerySpec TopoModel TopoSpec GridModel GridSpec SearchModel SearchProof JoinModel JoinSpec PropJoin ShapesModel BlockModel BlockSpec
  StructModel StructSpec RingSpec BlocksSpec BlocksProof8 PropBlocks TextModel TextSpec VtuModel VtuSpec ToolsModel ToolsSpec ToolsProof ToolsProof2.
Import ListNotations.
Local Open Scope string_scope.
Local Open Scope list_scope.
Local Open Scope nat_scope.

(* if the tool succeeds: the files hold a mesh of the regions, and all its cells have the number of nodes that was asked for *)
Theorem C108_qua : forall zdet shp shuffle sh shc fmt_f bl nnode renumber files,
  (0 <= zdet)%R -> any_order shp shuffle sh -> (forall l, Permutation (shc l) l) ->
  (forall target, kind_class target = CQua -> kind_nnode target = nnode -> regions_fine (tolR 2) target (regions_2d bl)) ->
  qua2msh zdet shp shuffle sh shc fmt_f bl nnode renumber = (Ok tt, files) ->
  In nnode qua_nnodes /\ 2 <= List.length (k2_regions bl) /\
  exists m target, kind_class target = CQua /\ kind_nnode target = nnode /\ built 2 (tolR 2) target (regions_2d bl) m /\
    consistent m /\ coords_complete m /\ all_used m /\ cells m <> [] /\
    (forall c, In c (cells m) -> c_kind c = target /\ List.length (c_points c) = nnode) /\
    delivered fmt_f (In nnode qua_vtu) m files.
Proof.
  intros zdet shp shuffle sh shc fmt bl nnode renumber files Hz AO P2 Fine H. unfold qua2msh in H. destruct (qua_target nnode) as [(target & v)|e| |] eqn:T; try discriminate H.
  destruct (from_blocks_2d zdet shp shuffle sh shc bl target renumber) as [m|e| |] eqn:E; try discriminate H.
  destruct (qua_target_ok _ _ _ T) as (I & K & L & V & Vt). specialize (Fine target K L).
  destruct (C78_cells_2d _ _ _ _ _ _ _ _ _ Hz AO P2 Fine E) as (W & _ & R2 & Cm & Km & U & B). split; [exact I|]. split; [exact R2|].
  assert (N : regions_2d bl <> []) by (intros X; apply (f_equal (@List.length region)) in X; rewrite regions_2d_length in X; cbn in X; lia).
  assert (Wn : forall g w, In g (regions_2d bl) -> In w (g_weights g) -> w <> []) by (intros g w Ig Iw; apply sum_nonempty; apply (proj2 (proj2 W) g Ig); exact Iw).
  destruct (made_files fmt 2 _ _ _ _ v (or_introl eq_refl) Cm Km B N Wn Vt) as (Nc & Kd & _).
  exists m, target. split; [exact K|]. split; [exact L|]. split; [exact B|]. split; [exact Cm|]. split; [exact Km|]. split; [exact U|]. split; [exact Nc|]. split; [rewrite <- L; exact Kd|].
  apply (delivery fmt 2 _ _ _ _ v _ files (or_introl eq_refl) Cm Km B N Wn Vt V); [rewrite L; cbn in I; lia|exact H].
Qed.
Print Assumptions C108_qua.
Theorem C108_hex : forall zdet shp shuffle sh shc fmt_f bl nnode renumber files,
  (0 <= zdet)%R -> any_order shp shuffle sh -> (forall l, Permutation (shc l) l) ->
  (forall target, kind_class target = CHex -> kind_nnode target = nnode -> regions_fine (tolR 3) target (regions_3d bl)) ->
  hex2msh zdet shp shuffle sh shc fmt_f bl nnode renumber = (Ok tt, files) ->
  In nnode hex_nnodes /\ 2 <= List.length (k3_regions bl) /\
  exists m target, kind_class target = CHex /\ kind_nnode target = nnode /\ built 3 (tolR 3) target (regions_3d bl) m /\
    consistent m /\ coords_complete m /\ all_used m /\ cells m <> [] /\
    (forall c, In c (cells m) -> c_kind c = target /\ List.length (c_points c) = nnode) /\
    delivered fmt_f (In nnode hex_vtu) m files.
Proof.
  intros zdet shp shuffle sh shc fmt bl nnode renumber files Hz AO P2 Fine H. unfold hex2msh in H. destruct (hex_target nnode) as [(target & v)|e| |] eqn:T; try discriminate H.
  destruct (from_blocks_3d zdet shp shuffle sh shc bl target renumber) as [m|e| |] eqn:E; try discriminate H.
  destruct (hex_target_ok _ _ _ T) as (I & K & L & V & Vt). specialize (Fine target K L).
  destruct (C78_cells_3d _ _ _ _ _ _ _ _ _ Hz AO P2 Fine E) as (W & _ & R2 & Cm & Km & U & B). split; [exact I|]. split; [exact R2|].
  assert (N : regions_3d bl <> []) by (intros X; apply (f_equal (@List.length region)) in X; rewrite regions_3d_length in X; cbn in X; lia).
  assert (Wn : forall g w, In g (regions_3d bl) -> In w (g_weights g) -> w <> []) by (intros g w Ig Iw; apply sum_nonempty; apply (proj2 (proj2 W) g Ig); exact Iw).
  destruct (made_files fmt 3 _ _ _ _ v (or_intror eq_refl) Cm Km B N Wn Vt) as (Nc & Kd & _).
  exists m, target. split; [exact K|]. split; [exact L|]. split; [exact B|]. split; [exact Cm|]. split; [exact Km|]. split; [exact U|]. split; [exact Nc|]. split; [rewrite <- L; exact Kd|].
  apply (delivery fmt 3 _ _ _ _ v _ files (or_intror eq_refl) Cm Km B N Wn Vt V); [rewrite L; cbn in I; lia|exact H].
Qed.
Print Assumptions C108_hex.

(* all or nothing: the tool succeeds if and only if the number of nodes is known and the blocks can be meshed; otherwise no file is written *)
Theorem C108_qua_nothing : forall zdet shp shuffle sh shc fmt_f bl nnode renumber,
  (0 <= zdet)%R -> any_order shp shuffle sh -> (forall l, Permutation (shc l) l) ->
  (forall target, kind_class target = CQua -> kind_nnode target = nnode -> regions_fine (tolR 2) target (regions_2d bl)) ->
  let r := qua2msh zdet shp shuffle sh shc fmt_f bl nnode renumber in
  (fst r = Ok tt <-> exists target m, kind_class target = CQua /\ kind_nnode target = nnode /\ from_blocks_2d zdet shp shuffle sh shc bl target renumber = Ok m) /\
  (fst r <> Ok tt -> snd r = []).
Proof.
  intros zdet shp shuffle sh shc fmt bl nnode renumber Hz AO P2 Fine r. unfold r, qua2msh. destruct (qua_target nnode) as [(target & v)|e| |] eqn:T.
  - destruct (qua_target_ok _ _ _ T) as (I & K & L & V & Vt). specialize (Fine target K L).
    destruct (from_blocks_2d zdet shp shuffle sh shc bl target renumber) as [m|e| |] eqn:E.
    + destruct (C78_cells_2d _ _ _ _ _ _ _ _ _ Hz AO P2 Fine E) as (W & _ & R2 & Cm & Km & U & B).
      assert (N : regions_2d bl <> []) by (intros X; apply (f_equal (@List.length region)) in X; rewrite regions_2d_length in X; cbn in X; lia).
      assert (Wn : forall g w, In g (regions_2d bl) -> In w (g_weights g) -> w <> []) by (intros g w Ig Iw; apply sum_nonempty; apply (proj2 (proj2 W) g Ig); exact Iw).
      destruct (made_files fmt 2 _ _ _ _ v (or_introl eq_refl) Cm Km B N Wn Vt) as (Nc & Kd & msh & Em & F).
      assert (X : fst (write_files fmt v m) = Ok tt) by (destruct v; [destruct F as (t & _ & F)|]; rewrite F; reflexivity).
      split; [split; [intros _; exists target, m; auto|intros _; exact X]|intros Y; contradiction].
    + split; [split; [discriminate|intros (t' & m & K' & L' & X)]|reflexivity]. assert (t' = target) by (apply (qua_unique _ _ K' K); congruence). subst t'. rewrite E in X. discriminate X.
    + split; [split; [discriminate|intros (t' & m & K' & L' & X)]|reflexivity]. assert (t' = target) by (apply (qua_unique _ _ K' K); congruence). subst t'. rewrite E in X. discriminate X.
    + split; [split; [discriminate|intros (t' & m & K' & L' & X)]|reflexivity]. assert (t' = target) by (apply (qua_unique _ _ K' K); congruence). subst t'. rewrite E in X. discriminate X.
  - split; [split; [discriminate|intros (t' & m & K' & L' & X)]|reflexivity]. destruct (qua_target_some nnode) as (y & Y); [rewrite <- L'; apply qua_known; exact K'|congruence].
  - split; [split; [discriminate|intros (t' & m & K' & L' & X)]|reflexivity]. destruct (qua_target_some nnode) as (y & Y); [rewrite <- L'; apply qua_known; exact K'|congruence].
  - split; [split; [discriminate|intros (t' & m & K' & L' & X)]|reflexivity]. destruct (qua_target_some nnode) as (y & Y); [rewrite <- L'; apply qua_known; exact K'|congruence].
Qed.
Print Assumptions C108_qua_nothing.
Theorem C108_hex_nothing : forall zdet shp shuffle sh shc fmt_f bl nnode renumber,
  (0 <= zdet)%R -> any_order shp shuffle sh -> (forall l, Permutation (shc l) l) ->
  (forall target, kind_class target = CHex -> kind_nnode target = nnode -> regions_fine (tolR 3) target (regions_3d bl)) ->
  let r := hex2msh zdet shp shuffle sh shc fmt_f bl nnode renumber in
  (fst r = Ok tt <-> exists target m, kind_class target = CHex /\ kind_nnode target = nnode /\ from_blocks_3d zdet shp shuffle sh shc bl target renumber = Ok m) /\
  (fst r <> Ok tt -> snd r = []).
Proof.
  intros zdet shp shuffle sh shc fmt bl nnode renumber Hz AO P2 Fine r. unfold r, hex2msh. destruct (hex_target nnode) as [(target & v)|e| |] eqn:T.
  - destruct (hex_target_ok _ _ _ T) as (I & K & L & V & Vt). specialize (Fine target K L).
    destruct (from_blocks_3d zdet shp shuffle sh shc bl target renumber) as [m|e| |] eqn:E.
    + destruct (C78_cells_3d _ _ _ _ _ _ _ _ _ Hz AO P2 Fine E) as (W & _ & R2 & Cm & Km & U & B).
      assert (N : regions_3d bl <> []) by (intros X; apply (f_equal (@List.length region)) in X; rewrite regions_3d_length in X; cbn in X; lia).
      assert (Wn : forall g w, In g (regions_3d bl) -> In w (g_weights g) -> w <> []) by (intros g w Ig Iw; apply sum_nonempty; apply (proj2 (proj2 W) g Ig); exact Iw).
      destruct (made_files fmt 3 _ _ _ _ v (or_intror eq_refl) Cm Km B N Wn Vt) as (Nc & Kd & msh & Em & F).
      assert (X : fst (write_files fmt v m) = Ok tt) by (destruct v; [destruct F as (t & _ & F)|]; rewrite F; reflexivity).
      split; [split; [intros _; exists target, m; auto|intros _; exact X]|intros Y; contradiction].
    + split; [split; [discriminate|intros (t' & m & K' & L' & X)]|reflexivity]. assert (t' = target) by (apply (hex_unique _ _ K' K); congruence). subst t'. rewrite E in X. discriminate X.
    + split; [split; [discriminate|intros (t' & m & K' & L' & X)]|reflexivity]. assert (t' = target) by (apply (hex_unique _ _ K' K); congruence). subst t'. rewrite E in X. discriminate X.
    + split; [split; [discriminate|intros (t' & m & K' & L' & X)]|reflexivity]. assert (t' = target) by (apply (hex_unique _ _ K' K); congruence). subst t'. rewrite E in X. discriminate X.
  - split; [split; [discriminate|intros (t' & m & K' & L' & X)]|reflexivity]. destruct (hex_target_some nnode) as (y & Y); [rewrite <- L'; apply hex_known; exact K'|congruence].
  - split; [split; [discriminate|intros (t' & m & K' & L' & X)]|reflexivity]. destruct (hex_target_some nnode) as (y & Y); [rewrite <- L'; apply hex_known; exact K'|congruence].
  - split; [split; [discriminate|intros (t' & m & K' & L' & X)]|reflexivity]. destruct (hex_target_some nnode) as (y & Y); [rewrite <- L'; apply hex_known; exact K'|congruence].
Qed.
Print Assumptions C108_hex_nothing.

(* other numbers of nodes are refused *)
Theorem C108_refused : forall zdet shp shuffle sh shc fmt_f,
  (forall bl nnode renumber, ~ In nnode qua_nnodes -> qua2msh zdet shp shuffle sh shc fmt_f bl nnode renumber = (Err "invalid number of nodes for quadrilateral cell", [])) /\
  (forall bl nnode renumber, ~ In nnode hex_nnodes -> hex2msh zdet shp shuffle sh shc fmt_f bl nnode renumber = (Err "invalid number of nodes for hexahedral cell", [])).
Proof.
  intros. split; intros bl nnode renumber H; [unfold qua2msh; rewrite qua_target_none by exact H|unfold hex2msh; rewrite hex_target_none by exact H]; reflexivity.
Qed.
Print Assumptions C108_refused.

(* a single block cannot be meshed with the tool, whatever the number of nodes: nothing is written *)
Theorem C108_single_refuted : exists bl, well_2d bl /\ List.length (k2_regions bl) = 1 /\
  (forall g, In g (regions_2d bl) -> g_sides g = [] /\ forall d, det_center 2 (g_nodes g) d -> d = / 4)%R /\
  forall zdet shp shuffle sh shc fmt_f nnode renumber, let r := qua2msh zdet shp shuffle sh shc fmt_f bl nnode renumber in fst r <> Ok tt /\ snd r = [].
Proof.
  exists one_square. split; [exact one_square_well|]. split; [reflexivity|]. split; [exact one_square_det|]. intros. exact (single_nothing zdet shp shuffle sh shc fmt_f nnode renumber).
Qed.
Print Assumptions C108_single_refuted.

(* two squares: both files are written; the MSH file is read again, for a printer and a reader of numbers that fit *)
Example C108_ex : forall shp shuffle sh, any_order shp shuffle sh -> exists m fmt_f parse_f msh vtu,
  qua2msh (/ 100) shp shuffle sh (fun l => l) fmt_f plain_squares 4 false = (Ok tt, [(".msh", msh); (".vtu", vtu)]) /\
  (forall target, kind_class target = CQua -> kind_nnode target = 4 -> regions_fine (tolR 2) target (regions_2d plain_squares)) /\
  floats fmt_f parse_f 0%R m /\ fits_types m /\ List.length (cells m) = 3 /\ read_file 0%R parse_f msh = Ok m /\ shows parse_f vtu m.
Proof. exact plain_squares_files. Qed.
