(* The outline of a cell in terms of the positions of its edges. *)
From Coq Require Import String Reals QArith Qreals List Arith Bool ZArith Lia Lra.
From Verif Require Import Base BaseFacts Expr ShapesData Kind MeshModel MeshQuerySpec ShapesModel ShapesSpec ShapesProof ShapesShared PadModel PadSpec PadProof PadProof2 PadProof4 TopoProof NormalSpec NormalProof2 NormalProof4 DrawModel DrawSpec DrawProof DrawProof2.
Import ListNotations.
Local Open Scope list_scope.
Local Open Scope R_scope.

Lemma seg_point_swap a : forall b z, seg_point a b z = seg_point b a (- z).
Proof. induction a as [|x a IH]; intros [|y b] z; cbn [seg_point]; auto. rewrite <- IH. f_equal. lra. Qed.
Lemma edge_back_point k e t : edge_back k e t = edge_point k e (1 - 2 * t).
Proof. unfold edge_back, edge_point. rewrite seg_point_swap. f_equal. lra. Qed.

Lemma rowx_line p lk f j z : (j < p_space p)%nat -> pad_wf p ->
  line_at lk (rowx p (map f (seq 0 (kind_nnode lk)))) j z =
  dot (calc_interp lk [z]) (map (fun i => nth (f i) (nth j (p_xxt p) []) 0) (seq 0 (kind_nnode lk))).
Proof.
  intros Hj W. unfold line_at, rowx, node_x. f_equal. apply map_ext_in. intros i Hi. apply in_seq in Hi.
  rewrite (PadProof.nth_map_in _ _ _ 0%nat) by (rewrite seq_length; lia). now rewrite seq_nth by lia.
Qed.

Lemma inward_pos p ek e j t : pad_wf p -> kind_ndim (p_kind p) = 2%nat ->
  kind_edge_kind (p_kind p) = Some ek -> (e < kind_nedge (p_kind p))%nat -> (j < p_space p)%nat ->
  line_at ek (rowx p (inward_row (p_kind p) e)) j (2 * t - 1) = pos p (edge_back (p_kind p) e t) j.
Proof.
  intros W D Ek He Hj. rewrite edge_back_point, pos_dot, dot_comm by auto. unfold edge_point.
  rewrite (edge_inward_conform (p_kind p) ek); [|destruct (p_kind p); try discriminate D; cbn; auto|auto|auto|now apply wf_row].
  unfold inward_row. rewrite (edge_nnode_kind _ _ Ek), rowx_line by auto. do 2 f_equal. f_equal. lra.
Qed.
Lemma edge_row_pos p ek e j z : pad_wf p -> kind_edge_kind (p_kind p) = Some ek -> (e < kind_nedge (p_kind p))%nat -> (j < p_space p)%nat ->
  line_at ek (rowx p (map (edge_node_id (p_kind p) e) (seq 0 (kind_edge_nnode (p_kind p))))) j z = pos p (edge_point (p_kind p) e z) j.
Proof.
  intros W Ek He Hj. rewrite pos_dot, dot_comm by auto. unfold edge_point.
  rewrite (edge_conform (p_kind p) ek) by first [assumption|now apply wf_row]. rewrite (edge_nnode_kind _ _ Ek), rowx_line by auto. reflexivity.
Qed.
Lemma lin_pos p j z : pad_wf p -> (j < p_space p)%nat -> line_at (p_kind p) (fun i j => node_x p j i) j z = pos p [z] j.
Proof.
  intros W Hj. rewrite pos_dot, dot_comm by auto. unfold line_at. f_equal.
  apply (nth_ext _ _ 0 0); [rewrite map_length, seq_length; symmetry; now apply wf_row|].
  intros i Hi. rewrite map_length, seq_length in Hi. rewrite (PadProof.nth_map_in _ _ _ 0%nat) by (rewrite seq_length; lia). now rewrite seq_nth by lia.
Qed.

Lemma forall2_nth {A B} (P : A -> B -> Prop) l1 l2 : Forall2 P l1 l2 -> List.length l1 = List.length l2 /\
  forall i d1 d2, (i < List.length l1)%nat -> P (nth i l1 d1) (nth i l2 d2).
Proof.
  induction 1 as [|x y l1 l2 H HF (L & IH)]; cbn [List.length nth]; [split; [auto|intros; lia]|].
  split; [lia|]. intros [|i] d1 d2 Hi; auto. apply IH. lia.
Qed.


Lemma inward_gap p ek e j t : kind_ndim (p_kind p) = 2%nat -> kind_edge_kind (p_kind p) = Some ek -> (e < kind_nedge (p_kind p))%nat ->
  gap ek (rowx p (inward_row (p_kind p) e)) j (2 * t - 1) = edge_gap p e j (2 * t - 1).
Proof.
  intros D Ek He. unfold gap, edge_gap. rewrite Ek. destruct ek; auto. f_equal. unfold edge_quartic, quartic, rowx.
  destruct (p_kind p); try discriminate D; try discriminate Ek.
  - change (kind_nedge Tri15) with 3%nat in He. do 3 (destruct e as [|e]; [vm_compute inward_row; cbn [nth]; vm_compute edge_node_id; ring|]). lia.
  - change (kind_nedge Qua17) with 4%nat in He. do 4 (destruct e as [|e]; [vm_compute inward_row; cbn [nth]; vm_compute edge_node_id; ring|]). lia.
Qed.

Section Cell.
Variables (m : mesh R) (c : nat) (cl : cell).
Hypothesis (C : consistent m) (K : coords_complete m) (Hc : nth_error (cells m) c = Some cl).

Lemma in_range_get : (List.length (cells m) <=? c)%nat = false /\ get (cells m) c = Ok cl.
Proof. split; [apply Nat.leb_gt; apply nth_error_Some; congruence|unfold get; now rewrite Hc]. Qed.

Lemma cell_plane : ndim m = 2%nat -> kind_ndim (c_kind cl) = 2%nat ->
  exists p cmds path, get_pad m c = Ok p /\ element_of m cl p /\ (forall cv, draw_cell m cv c = Ok (cv ++ cmds)) /\ draws cmds [path] /\
    List.length path = kind_nedge (c_kind cl) /\
    forall e t j, (e < kind_nedge (c_kind cl))%nat -> (j < 2)%nat ->
      piece_at (nth e path []) t j = pos p (edge_back (c_kind cl) e t) j - edge_gap p e j (2 * t - 1).
Proof.
  intros D Dk. destruct (get_pad_ok m c cl C K (or_introl D) Hc ltac:(lia)) as (p & Ep & El & _).
  destruct (kind_edge_kind (c_kind cl)) as [ek|] eqn:Ek; [|destruct (c_kind cl); discriminate].
  destruct (outline_2d m c cl p C K Hc El ek D Dk Ek) as (cmds & path & A & B & F). pose proof El as (W & Kp & Sp & _).
  exists p, cmds, path. do 4 (split; [assumption|]). apply forall2_nth in F as (L & F). rewrite map_length, seq_length in L, F. split; [auto|].
  intros e t j He Hj. specialize (F e [] [] He). rewrite (PadProof.nth_map_in _ _ _ 0%nat) in F by (rewrite seq_length; auto). rewrite seq_nth in F by auto. cbn [Nat.add] in F.
  rewrite (F t j Hj). rewrite <- Kp in *. rewrite inward_pos, inward_gap by (auto; lia). reflexivity.
Qed.

Lemma lin_is : kind_ndim (c_kind cl) = 1%nat -> is_lin (c_kind cl) = true.
Proof. destruct (c_kind cl); intros; try discriminate; reflexivity. Qed.

Lemma line_plane : ndim m = 2%nat -> kind_ndim (c_kind cl) = 1%nat ->
  exists p cmds pc, get_pad m c = Ok p /\ element_of m cl p /\ (forall cv, draw_cell m cv c = Ok (cv ++ cmds)) /\ draws cmds [[pc]] /\
    forall t j, (j < 2)%nat -> piece_at pc t j = pos p [2 * t - 1] j - gap (c_kind cl) (fun i j => node_x p j i) j (2 * t - 1).
Proof.
  intros D Dk. destruct (get_pad_ok m c cl C K (or_introl D) Hc ltac:(lia)) as (p & Ep & El & _). pose proof El as (W & Kp & Sp & _).
  destruct (acurve_2d m (c_kind cl) (c_points cl) (fun i j => node_x p j i) D K (lin_is Dk)) as (cs & pc & A & B & F).
  - exact (cell_length m c cl C Hc).
  - intros q. exact (cell_range m c cl C Hc q).
  - intros i j Hi Hj. apply (lin_points m c cl p C K Hc El); lia.
  - exists p, (PcBegin :: PcAdd (node_x p 0 0) (node_x p 1 0) MoveTo :: cs ++ PcEnd false :: []), pc.
    do 2 (split; [assumption|]). split; [|split].
    + intros cv. destruct in_range_get as (G1 & G2). unfold draw_cell. rewrite G1, G2. cbn [bind].
      specialize (A cv true true). pose proof (lin_is Dk) as Il. destruct (c_kind cl); try discriminate Il; exact A.
    + apply d_2d; [|constructor]. rewrite <- (app_nil_r cs). apply B. constructor.
    + intros t j Hj. rewrite (F t j Hj). rewrite <- Kp, lin_pos by (auto; lia). reflexivity.
Qed.

(* 3D *)
Lemma chain_polygon lk X p xi : is_lin lk = true -> p_space p = 3%nat ->
  (forall t j, (j < 3)%nat -> line_at lk X j (2 * t - 1) = pos p (xi t) j) ->
  polygon (chain3 X 0 (tail_nodes lk)) p (kind_nnode lk - 1) xi.
Proof.
  intros Il Sp H. split; [destruct lk; try discriminate Il; reflexivity|]. intros i Hi.
  assert (J : forall a b t u, nth i (chain3 X 0 (tail_nodes lk)) [] = [at3 X a; at3 X b] ->
    (forall j, line_at lk X j (2 * t - 1) = X a j) -> (forall j, line_at lk X j (2 * u - 1) = X b j) ->
    joins (nth i (chain3 X 0 (tail_nodes lk)) []) p (xi t) (xi u)).
  { intros a b t u E Ha Hb. rewrite E. split; [reflexivity|]. rewrite Sp. intros j Hj. rewrite <- !H, Ha, Hb by auto. unfold piece_at. cbn [map bernstein].
    assert (Hx : forall a, nth j (at3 X a) 0 = X a j) by (intros ?; destruct j as [|[|[|j]]]; [reflexivity|reflexivity|reflexivity|lia]).
    rewrite !Hx. split; ring. }
  destruct lk; try discriminate Il; [change (kind_nnode Lin2) with 2%nat in *|change (kind_nnode Lin3) with 3%nat in *|change (kind_nnode Lin4) with 4%nat in *|change (kind_nnode Lin5) with 5%nat in *]; cbn [Nat.sub] in *.
  - destruct i as [|i]; [|lia]. eapply J; [reflexivity| |]; intros j; lin_eval; simpl; field.
  - do 2 (destruct i as [|i]; [eapply J; [reflexivity| |]; intros j; lin_eval; simpl; field|]). lia.
  - do 3 (destruct i as [|i]; [eapply J; [reflexivity| |]; intros j; lin_eval; simpl; field|]). lia.
  - do 4 (destruct i as [|i]; [eapply J; [reflexivity| |]; intros j; lin_eval; simpl; field|]). lia.
Qed.

Lemma chain_draws lk X : is_lin lk = true -> pieces_3d (at3 X 0) (map (add3 X) (tail_nodes lk)) (chain3 X 0 (tail_nodes lk)).
Proof.
  intros Il. rewrite <- (app_nil_r (map _ _)), <- (app_nil_r (chain3 _ _ _)). apply chain3_pieces. constructor.
Qed.

Lemma line_space : ndim m = 3%nat -> kind_ndim (c_kind cl) = 1%nat ->
  exists p cmds path, get_pad m c = Ok p /\ element_of m cl p /\ (forall cv, draw_cell m cv c = Ok (cv ++ cmds)) /\ draws cmds [path] /\
    polygon path p (kind_nnode (c_kind cl) - 1) (fun t => [2 * t - 1]).
Proof.
  intros D Dk. destruct (get_pad_ok m c cl C K (or_intror D) Hc ltac:(lia)) as (p & Ep & El & _). pose proof El as (W & Kp & Sp & _).
  pose (X := fun i j => node_x p j i). pose proof (lin_is Dk) as Il.
  exists p, (PlBegin :: add3 X 0 :: map (add3 X) (tail_nodes (c_kind cl)) ++ PlEnd :: []), (chain3 X 0 (tail_nodes (c_kind cl))).
  do 2 (split; [assumption|]). split; [|split].
  - intros cv. destruct in_range_get as (G1 & G2). unfold draw_cell. rewrite G1, G2. cbn [bind].
    pose proof (acurve_3d m (c_kind cl) (c_points cl) X D Il) as A. specialize (A ltac:(intros; apply (lin_points m c cl p C K Hc El); lia) cv true true).
    destruct (c_kind cl); try discriminate Il; exact A.
  - apply d_3d; [|constructor]. now apply chain_draws.
  - apply chain_polygon; auto; [lia|]. intros t j Hj. rewrite <- Kp. apply lin_pos; auto; lia.
Qed.

(* one row in space *)
Lemma row_3d p ek ns : element_of m cl p -> ndim m = 3%nat -> is_lin ek = true -> List.length ns = kind_nnode ek ->
  (forall n, In n ns -> (n < kind_nnode (c_kind cl))%nat) ->
  forall cv b f, body m cl ek cv (ns, (b, f)) =
    Ok (cv ++ (if b then [PlBegin; add3 (rowx p ns) 0] else []) ++ map (add3 (rowx p ns)) (tail_nodes ek) ++ pl_last f).
Proof.
  intros El D Il L H cv b f. destruct (row_points m c cl p C K Hc El ns H) as (E & Rg & P).
  unfold body. cbn [fst snd]. rewrite E. cbn [bind]. apply acurve_3d; auto. intros i j Hi Hj. apply P; lia.
Qed.

Lemma loop_solid p ek (rows : list (list nat)) : element_of m cl p -> ndim m = 3%nat -> is_lin ek = true ->
  (forall ns, In ns rows -> List.length ns = kind_nnode ek /\ forall n, In n ns -> (n < kind_nnode (c_kind cl))%nat) ->
  exists cmds, (forall cv, foldM (body m cl ek) (map (fun ns => (ns, (true, true))) rows) cv = Ok (cv ++ cmds)) /\
    draws cmds (map (fun ns => chain3 (rowx p ns) 0 (tail_nodes ek)) rows).
Proof.
  intros El D Il. induction rows as [|ns rows IH]; intros H.
  - exists []. split; [intros; cbn [map foldM]; now rewrite app_nil_r|constructor].
  - destruct IH as (cmds & A & B); [intros; apply H; now right|]. destruct (H ns (or_introl eq_refl)) as (L & Rg).
    exists (PlBegin :: add3 (rowx p ns) 0 :: map (add3 (rowx p ns)) (tail_nodes ek) ++ PlEnd :: cmds). split.
    + intros cv. cbn [map foldM]. rewrite (row_3d p ek ns El D Il L Rg). cbn [bind pl_last]. rewrite A. f_equal. rewrite <- ?app_assoc. cbn [app]. rewrite <- ?app_assoc. reflexivity.
    + cbn [map]. apply d_3d; auto. now apply chain_draws.
Qed.

Lemma solid_space : ndim m = 3%nat -> kind_ndim (c_kind cl) = 3%nat ->
  exists p cmds paths, get_pad m c = Ok p /\ element_of m cl p /\ (forall cv, draw_cell m cv c = Ok (cv ++ cmds)) /\ draws cmds paths /\
    List.length paths = kind_nedge (c_kind cl) /\
    forall e, (e < kind_nedge (c_kind cl))%nat ->
      polygon (nth e paths []) p (kind_edge_nnode (c_kind cl) - 1) (fun t => edge_point (c_kind cl) e (2 * t - 1)).
Proof.
  intros D Dk. destruct (get_pad_ok m c cl C K (or_intror D) Hc ltac:(lia)) as (p & Ep & El & _). pose proof El as (W & Kp & Sp & _).
  destruct (kind_edge_kind (c_kind cl)) as [ek|] eqn:Ek; [|destruct (c_kind cl); discriminate].
  assert (Il : is_lin ek = true) by (destruct (c_kind cl); try discriminate Ek; injection Ek as <-; reflexivity).
  pose (row e := map (edge_node_id (c_kind cl) e) (seq 0 (kind_edge_nnode (c_kind cl)))).
  destruct (loop_solid p ek (map row (seq 0 (kind_nedge (c_kind cl)))) El D Il) as (cmds & A & B).
  { intros ns Hn. apply in_map_iff in Hn as (e & <- & He). apply in_seq in He. unfold row. split; [rewrite map_length, seq_length; now apply edge_nnode_kind|].
    intros n Hn. apply in_map_iff in Hn as (i & <- & Hi). apply in_seq in Hi. apply edge_node_lt; lia. }
  exists p, cmds, (map (fun e => chain3 (rowx p (row e)) 0 (tail_nodes ek)) (seq 0 (kind_nedge (c_kind cl)))).
  do 2 (split; [assumption|]). rewrite map_map in B. split; [|split; [exact B|split; [now rewrite map_length, seq_length|]]].
  - intros cv. destruct in_range_get as (G1 & G2). unfold draw_cell. rewrite G1, G2. cbn [bind]. specialize (A cv). rewrite map_map in A. unfold row, body in A.
    destruct (c_kind cl); try discriminate Dk; injection Ek as <-; exact A.
  - intros e He. rewrite (PadProof.nth_map_in _ _ _ 0%nat) by (rewrite seq_length; auto). rewrite seq_nth by auto. cbn [Nat.add].
    rewrite (edge_nnode_kind _ _ Ek). apply chain_polygon; auto; [lia|]. intros t j Hj. unfold row. rewrite <- Kp in *. apply edge_row_pos; auto; lia.
Qed.
End Cell.
