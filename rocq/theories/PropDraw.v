(* Properties C88 and C89: what draw_cell and draw_shape show. *)
From Coq Require Import String Reals QArith Qreals List Arith Bool ZArith Lia Lra.
From Verif Require Import Base BaseFacts Expr ShapesData Kind MeshModel MeshQuerySpec ShapesModel ShapesSpec ShapesProof PadModel PadSpec PadProof PadProof2 PadProof4
  DrawModel DrawSpec DrawProof DrawProof2 DrawProof3 DrawProof4 DrawProof5.
Import ListNotations.
Local Open Scope string_scope.
Local Open Scope list_scope.
Local Open Scope R_scope.

(* a mesh with one cell; X gives the coordinates of its nodes *)
Definition one_cell (sp : nat) (k : geokind) (X : nat -> list R) : mesh R :=
  mkMesh sp (map (fun i => mkPoint i 0%Z (X i)) (seq 0 (kind_nnode k))) [mkCell 0 1%Z k (seq 0 (kind_nnode k))] [] [].
Lemma one_cell_ok sp k X : (forall i, List.length (X i) = sp) -> consistent (one_cell sp k X) /\ coords_complete (one_cell sp k X).
Proof.
  intros L. split; [split|].
  - intros i p H. cbn [points one_cell] in H.
    assert (Hi : (i < kind_nnode k)%nat) by (assert (Q : nth_error (map (fun i => mkPoint i 0%Z (X i)) (seq 0 (kind_nnode k))) i <> None) by congruence; apply nth_error_Some in Q; now rewrite map_length, seq_length in Q).
    rewrite (nth_error_nth' _ (mkPoint 0 0%Z (X 0%nat))) in H by (rewrite map_length, seq_length; auto).
    rewrite (PadProof.nth_map_in _ _ _ 0%nat), seq_nth in H by (rewrite ?seq_length; auto). injection H as <-. reflexivity.
  - intros i c H. destruct i as [|i]; cbn in H; [injection H as <-|destruct i; discriminate].
    cbn [c_id c_points c_kind points one_cell]. rewrite map_length, !seq_length. repeat split. intros q Hq. apply in_seq in Hq. lia.
  - intros p H. cbn [points one_cell] in H. apply in_map_iff in H as (i & <- & _). apply L.
Qed.

(** C88: the outline of a cell in the plane is one closed path with one piece per edge, and the piece is the edge of the
    isoparametric cell, point by point, for edges with two, three and four nodes; an edge with five nodes is replaced by the
    cubic through its points at z = -1, -1/3, 1/3 and 1 *)
Theorem C88_plane : forall m c cl, consistent m -> coords_complete m -> nth_error (cells m) c = Some cl ->
  ndim m = 2%nat -> kind_ndim (c_kind cl) = 2%nat ->
  exists p cmds path, get_pad m c = Ok p /\ element_of m cl p /\ (forall cv, draw_cell m cv c = Ok (cv ++ cmds)) /\ draws cmds [path] /\
    List.length path = kind_nedge (c_kind cl) /\
    forall e t j, (e < kind_nedge (c_kind cl))%nat -> (j < 2)%nat ->
      (kind_edge_kind (c_kind cl) <> Some Lin5 -> piece_at (nth e path []) t j = pos p (edge_back (c_kind cl) e t) j) /\
      (kind_edge_kind (c_kind cl) = Some Lin5 ->
        piece_at (nth e path []) t j = pos p (edge_back (c_kind cl) e t) j - edge_quartic p e j * cubic_gap (2 * t - 1)).
Proof.
  intros m c cl C K Hc D Dk. destruct (cell_plane m c cl C K Hc D Dk) as (p & cmds & path & A & B & E & F & L & H).
  exists p, cmds, path. do 5 (split; [assumption|]). intros e t j He Hj. specialize (H e t j He Hj).
  destruct B as (_ & Kp & _). unfold edge_gap in H. rewrite Kp in H. split; intros Hk.
  - rewrite H. destruct (kind_edge_kind (c_kind cl)) as [[]|]; try ring. now destruct Hk.
  - rewrite H, Hk. reflexivity.
Qed.
Print Assumptions C88_plane.
(* a Tri6 with a curved side: the piece of edge 0 passes through the node in the middle *)
Example C88_plane_ex : let X := fun i => nth i [[0; 0]; [1; 0]; [0; 1]; [1/2; -1/4]; [1/2; 1/2]; [0; 1/2]] [0; 0] in
  exists cmds path, draw_cell (one_cell 2 Tri6 X) [] 0 = Ok cmds /\ draws cmds [path] /\ piece_at (nth 0 path []) (1/2) 1 = -1/4.
Proof.
  intros X. assert (LX : forall i, List.length (X i) = 2%nat) by (intros i; unfold X; do 6 (destruct i as [|i]; [reflexivity|]); now destruct i).
  destruct (one_cell_ok 2 Tri6 X LX) as (C & K).
  destruct (C88_plane _ 0 _ C K eq_refl eq_refl eq_refl) as (p & cmds & path & _ & El & D & Dr & _ & H).
  exists cmds, path. split; [exact (D [])|]. split; auto.
  destruct (H 0%nat (1/2) 1%nat ltac:(vm_compute; lia) ltac:(lia)) as (H1 & _). rewrite H1 by discriminate. clear H H1.
  destruct El as (W & Kp & Sp & Xp). cbn [c_kind one_cell cells] in *.
  unfold pos. rewrite Kp. cbn -[Rplus Rmult Rminus Ropp Rdiv Rinv IZR node_x]. unfold Q2R. cbn -[Rplus Rmult Rminus Ropp Rdiv Rinv IZR node_x].
  rewrite !(fun a => Xp a a (mkPoint a 0%Z (X a)) 1%nat) by (first [reflexivity|cbn; lia]). unfold X. cbn [pt_coords nth]. lra.
Qed.

Theorem C88_line_plane : forall m c cl, consistent m -> coords_complete m -> nth_error (cells m) c = Some cl ->
  ndim m = 2%nat -> kind_ndim (c_kind cl) = 1%nat ->
  exists p cmds s, get_pad m c = Ok p /\ element_of m cl p /\ (forall cv, draw_cell m cv c = Ok (cv ++ cmds)) /\ draws cmds [[s]] /\
    forall t j, (j < 2)%nat ->
      (c_kind cl <> Lin5 -> piece_at s t j = pos p [2 * t - 1] j) /\
      (c_kind cl = Lin5 -> piece_at s t j = pos p [2 * t - 1] j - quartic (node_x p j) * cubic_gap (2 * t - 1)).
Proof.
  intros m c cl C K Hc D Dk. destruct (line_plane m c cl C K Hc D Dk) as (p & cmds & s & A & B & E & F & H).
  exists p, cmds, s. do 4 (split; [assumption|]). intros t j Hj. specialize (H t j Hj). unfold gap in H. split; intros Hk.
  - rewrite H. destruct (c_kind cl); try ring. now destruct Hk.
  - rewrite H, Hk. reflexivity.
Qed.
Print Assumptions C88_line_plane.

(** in space only straight lines are drawn: every edge is the polygon through its nodes *)
Theorem C88_solid : forall m c cl, consistent m -> coords_complete m -> nth_error (cells m) c = Some cl ->
  ndim m = 3%nat -> kind_ndim (c_kind cl) = 3%nat ->
  exists p cmds paths, get_pad m c = Ok p /\ element_of m cl p /\ (forall cv, draw_cell m cv c = Ok (cv ++ cmds)) /\ draws cmds paths /\
    List.length paths = kind_nedge (c_kind cl) /\
    forall e, (e < kind_nedge (c_kind cl))%nat ->
      polygon (nth e paths []) p (kind_edge_nnode (c_kind cl) - 1) (fun t => edge_point (c_kind cl) e (2 * t - 1)).
Proof. intros m c cl C K Hc. exact (solid_space m c cl C K Hc). Qed.
Print Assumptions C88_solid.
Theorem C88_shell : forall m c cl, consistent m -> coords_complete m -> nth_error (cells m) c = Some cl ->
  ndim m = 3%nat -> kind_ndim (c_kind cl) = 2%nat ->
  exists p cmds path, get_pad m c = Ok p /\ element_of m cl p /\ (forall cv, draw_cell m cv c = Ok (cv ++ cmds)) /\ draws cmds [path] /\
    let n := (kind_edge_nnode (c_kind cl) - 1)%nat in
    List.length path = (kind_nedge (c_kind cl) * n)%nat /\
    forall e, (e < kind_nedge (c_kind cl))%nat -> polygon (firstn n (skipn (e * n) path)) p n (edge_back (c_kind cl) e).
Proof. intros m c cl C K Hc. exact (shell_space m c cl C K Hc). Qed.
Print Assumptions C88_shell.
Theorem C88_line_space : forall m c cl, consistent m -> coords_complete m -> nth_error (cells m) c = Some cl ->
  ndim m = 3%nat -> kind_ndim (c_kind cl) = 1%nat ->
  exists p cmds path, get_pad m c = Ok p /\ element_of m cl p /\ (forall cv, draw_cell m cv c = Ok (cv ++ cmds)) /\ draws cmds [path] /\
    polygon path p (kind_nnode (c_kind cl) - 1) (fun t => [2 * t - 1]).
Proof. intros m c cl C K Hc. exact (line_space m c cl C K Hc). Qed.
Print Assumptions C88_line_space.
(* the hypotheses hold of a mesh with one cell of any kind, with any coordinates of its nodes *)
Example C88_solid_ex (X : nat -> list R) : (forall i, List.length (X i) = 3%nat) ->
  exists cmds paths, draw_cell (one_cell 3 Hex20 X) [] 0 = Ok cmds /\ draws cmds paths /\ List.length paths = 12%nat.
Proof.
  intros LX. destruct (one_cell_ok 3 Hex20 X LX) as (C & K).
  destruct (C88_solid _ 0 _ C K eq_refl eq_refl eq_refl) as (p & cmds & paths & _ & El & D & Dr & L & H).
  exists cmds, paths. split; [exact (D [])|]. split; auto.
Qed.
Example C88_shell_ex (X : nat -> list R) : (forall i, List.length (X i) = 3%nat) ->
  exists cmds path, draw_cell (one_cell 3 Qua9 X) [] 0 = Ok cmds /\ draws cmds [path] /\ List.length path = 8%nat.
Proof.
  intros LX. destruct (one_cell_ok 3 Qua9 X LX) as (C & K).
  destruct (C88_shell _ 0 _ C K eq_refl eq_refl eq_refl) as (p & cmds & path & _ & El & D & Dr & L & H).
  exists cmds, path. split; [exact (D [])|]. split; auto.
Qed.
Example C88_line_space_ex (X : nat -> list R) : (forall i, List.length (X i) = 3%nat) ->
  exists cmds path, draw_cell (one_cell 3 Lin4 X) [] 0 = Ok cmds /\ draws cmds [path] /\ List.length path = 3%nat.
Proof.
  intros LX. destruct (one_cell_ok 3 Lin4 X LX) as (C & K).
  destruct (C88_line_space _ 0 _ C K eq_refl eq_refl eq_refl) as (p & cmds & path & _ & El & D & Dr & (L & H)).
  exists cmds, path. split; [exact (D [])|]. split; auto.
Qed.

(** the picture is determined by the commands, and only a wrong number of a cell is an error *)
Theorem C88_determined : forall cv ps ps', draws cv ps -> draws cv ps' -> ps = ps'.
Proof. intros cv ps ps' H H'. exact (draws_det cv ps H ps' H'). Qed.
Print Assumptions C88_determined.
Theorem C88_errors : forall m cv c, consistent m -> coords_complete m -> ndim m = 2%nat \/ ndim m = 3%nat ->
  (forall cl, In cl (cells m) -> (kind_ndim (c_kind cl) <= ndim m)%nat) ->
  ((c < List.length (cells m))%nat -> exists r, draw_cell m cv c = Ok r) /\
  ((List.length (cells m) <= c)%nat -> exists msg, draw_cell m cv c = Err msg).
Proof.
  intros m cv c C K D Dk. split; intros Hc.
  - destruct (nth_error (cells m) c) as [cl|] eqn:E; [|apply nth_error_None in E; lia].
    specialize (Dk cl (nth_error_In _ _ E)). assert (N : (kind_ndim (c_kind cl) = 1 \/ kind_ndim (c_kind cl) = 2 \/ kind_ndim (c_kind cl) = 3)%nat) by (destruct (c_kind cl); cbv; auto).
    destruct D as [D|D], N as [N|[N|N]]; try (exfalso; lia).
    + destruct (line_plane m c cl C K E D N) as (p & cmds & s & _ & _ & A & _). exists (cv ++ cmds). apply A.
    + destruct (cell_plane m c cl C K E D N) as (p & cmds & s & _ & _ & A & _). exists (cv ++ cmds). apply A.
    + destruct (line_space m c cl C K E D N) as (p & cmds & s & _ & _ & A & _). exists (cv ++ cmds). apply A.
    + destruct (shell_space m c cl C K E D N) as (p & cmds & s & _ & _ & A & _). exists (cv ++ cmds). apply A.
    + destruct (solid_space m c cl C K E D N) as (p & cmds & s & _ & _ & A & _). exists (cv ++ cmds). apply A.
  - unfold draw_cell. rewrite (proj2 (Nat.leb_le _ _) Hc). eauto.
Qed.
Print Assumptions C88_errors.
Example C88_errors_ex (X : nat -> list R) : (forall i, List.length (X i) = 2%nat) -> exists msg, draw_cell (one_cell 2 Qua8 X) [] 1 = Err msg.
Proof.
  intros LX. destruct (one_cell_ok 2 Qua8 X LX) as (C & K). apply (C88_errors _ [] 1 C K (or_introl eq_refl)); [|cbn; lia].
  intros cl [<-|[]]. cbv. lia.
Qed.

(** a line with five nodes may miss one of its own nodes *)
Theorem C88_five_nodes_refuted : exists m cmds s pt, consistent m /\ coords_complete m /\ draw_cell m [] 0 = Ok cmds /\ draws cmds [[s]] /\
  (exists cl, nth_error (cells m) 0 = Some cl /\ In (pt_id pt) (c_points cl) /\ nth_error (points m) (pt_id pt) = Some pt) /\
  forall t, ~ (piece_at s t 0 = nth 0 (pt_coords pt) 0 /\ piece_at s t 1 = nth 1 (pt_coords pt) 0).
Proof.
  set (X := fun i => nth i [[-1; 0]; [1; 0]; [0; 1]; [-1/2; 0]; [1/2; 0]] [0; 0]).
  assert (LX : forall i, List.length (X i) = 2%nat) by (intros i; unfold X; do 5 (destruct i as [|i]; [reflexivity|]); now destruct i).
  destruct (one_cell_ok 2 Lin5 X LX) as (C & K).
  destruct (C88_line_plane _ 0 _ C K eq_refl eq_refl eq_refl) as (p & cmds & s & _ & El & D & Dr & H).
  exists (one_cell 2 Lin5 X), cmds, s, (mkPoint 2 0%Z (X 2%nat)). do 2 (split; [assumption|]). split; [exact (D [])|]. split; auto. split.
  { eexists. split; [reflexivity|]. split; [cbn; lia|reflexivity]. }
  intros t (H0 & H1). destruct (H t 0%nat ltac:(lia)) as (_ & P0). destruct (H t 1%nat ltac:(lia)) as (_ & P1).
  rewrite P0 in H0 by reflexivity. rewrite P1 in H1 by reflexivity. clear P0 P1 H.
  destruct El as (W & Kp & Sp & Xp). cbn [c_kind one_cell cells] in *.
  unfold pos in H0, H1. rewrite Kp in H0, H1. unfold quartic, cubic_gap in H0, H1.
  cbn -[Rplus Rmult Rminus Ropp Rdiv Rinv IZR node_x X pow] in H0, H1. unfold Q2R in H0, H1. cbn -[Rplus Rmult Rminus Ropp Rdiv Rinv IZR node_x X pow] in H0, H1.
  rewrite !(fun a => Xp a a (mkPoint a 0%Z (X a)) 0%nat) in H0 by (first [reflexivity|cbn; lia]).
  rewrite !(fun a => Xp a a (mkPoint a 0%Z (X a)) 1%nat) in H1 by (first [reflexivity|cbn; lia]).
  unfold X in H0, H1. cbn [pt_coords nth] in H0, H1. 
  assert (Z : 2 * t - 1 = 0) by (rewrite <- H0; set (z := 2 * t - 1); field).
  rewrite Z in H1. lra.
Qed.
Print Assumptions C88_five_nodes_refuted.

(** C89: draw_shape shows every edge of the element, as the polygon with ten sides whose corners are points of the
    isoparametric edge; it refuses only a pad with missing coordinates *)
Theorem C89_edges : forall p, pad_wf p -> kind_ndim (p_kind p) <> 1%nat -> p_ok p = true ->
  exists cv paths, draw_shape_edges p = Ok cv /\ draws cv paths /\ List.length paths = kind_nedge (p_kind p) /\
    forall e, (e < kind_nedge (p_kind p))%nat -> polygon (nth e paths []) p 10 (fun t => edge_point (p_kind p) e (2 * t - 1)).
Proof. exact draw_shape_ok. Qed.
Print Assumptions C89_edges.
Theorem C89_line : forall p, pad_wf p -> kind_ndim (p_kind p) = 1%nat -> p_ok p = true ->
  exists cv path, draw_shape_edges p = Ok cv /\ draws cv [path] /\ polygon path p 10 (fun t => [2 * t - 1]).
Proof. exact draw_shape_line. Qed.
Print Assumptions C89_line.
Theorem C89_incomplete : forall p, p_ok p = false -> exists msg, draw_shape_edges p = Err msg.
Proof. intros p E. unfold draw_shape_edges. rewrite E. cbn [negb]. eauto. Qed.
Print Assumptions C89_incomplete.
Example C89_ex (X : nat -> list R) : (forall i, List.length (X i) = 3%nat) -> exists p cv paths,
  get_pad (one_cell 3 Tet10 X) 0 = Ok p /\ draw_shape_edges p = Ok cv /\ draws cv paths /\ List.length paths = 6%nat.
Proof.
  intros LX. destruct (one_cell_ok 3 Tet10 X LX) as (C & K).
  destruct (get_pad_ok _ 0 _ C K (or_intror eq_refl) eq_refl ltac:(cbv; lia)) as (p & Ep & (W & Kp & _) & Op).
  destruct (C89_edges p W ltac:(rewrite Kp; discriminate) Op) as (cv & paths & E & D & L & _).
  exists p, cv, paths. rewrite Kp in L. auto.
Qed.
