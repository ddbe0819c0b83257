(* Edges of two-dimensional cells. *)
From Coq Require Import String Reals QArith Qreals List Lia Lra Bool Arith ZArith.
From Verif Require Import Base BaseFacts Expr ExprProof ShapesData Kind MeshModel ShapesModel ShapesSpec ShapesProof ShapesShared
  GeomModel GeomProof PadModel PadSpec PadProof PadProof2 PadProof3 NormalSpec NormalProof.
Import ListNotations.
Local Open Scope list_scope.
Local Open Scope R_scope.

(* the point of local edge e at the coordinate z of the edge, in the reference coordinates of the cell *)
Notation edge_xi k e z := (seg_point (ref_coords k (edge_node_id k e 0)) (ref_coords k (edge_node_id k e 1)) z).
Notation edge_tau k e j := ((nth j (ref_coords k (edge_node_id k e 1)) 0 - nth j (ref_coords k (edge_node_id k e 0)) 0) / 2).

Lemma edge_nnode_kind k ek : kind_edge_kind k = Some ek -> kind_edge_nnode k = kind_nnode ek.
Proof. destruct k; intros [= <-]; reflexivity. Qed.
Lemma edge_kind_dim k ek : kind_edge_kind k = Some ek -> kind_ndim ek = 1%nat.
Proof. destruct k; intros [= <-]; reflexivity. Qed.

Lemma edge_pos p s e z i : pad_wf p -> kind_edge_kind (p_kind p) = Some (p_kind s) -> (e < kind_nedge (p_kind p))%nat ->
  side_pad p s (edge_node_id (p_kind p) e) -> (i < p_space p)%nat ->
  pos s [z] i = pos p (edge_xi (p_kind p) e z) i.
Proof.
  intros W Ek He (Ws & Es & X) Hi. rewrite !pos_dot by (auto; congruence).
  rewrite (dot_comm (nth i (p_xxt p) [])), (edge_conform _ _ _ _ _ Ek He) by now apply wf_row.
  rewrite dot_comm. f_equal.
  apply (nth_ext _ _ 0 0).
  - rewrite map_length, seq_length, (edge_nnode_kind _ _ Ek). apply wf_row; auto; congruence.
  - intros j Hj. rewrite wf_row in Hj by (auto; congruence).
    rewrite (nth_map_in _ _ _ 0%nat) by (rewrite seq_length, (edge_nnode_kind _ _ Ek); auto).
    rewrite seq_nth by (rewrite (edge_nnode_kind _ _ Ek); auto). cbn [Nat.add]. apply (X i j Hi Hj).
Qed.

Lemma edge_curve k e z : kind_ndim k = 2%nat -> (e < kind_nedge k)%nat ->
  curve_at 2 (fun t => edge_xi k e t) z (edge_xi k e z) (fun j => edge_tau k e j).
Proof.
  intros D He. split; [reflexivity|]. intros j Hj.
  assert (exists a b c d, ref_coords k (edge_node_id k e 0) = [a; b] /\ ref_coords k (edge_node_id k e 1) = [c; d]) as (a & b & c & d & -> & ->).
  { assert (L : forall i, (i < 2)%nat -> (edge_node_id k e i < kind_nnode k)%nat).
    { intros i Hi. apply edge_node_lt; auto. pose proof (edge_nnode_ge2 k ltac:(lia)). lia. }
    pose proof (ref_coords_length k _ (L 0%nat ltac:(lia))) as L0. pose proof (ref_coords_length k _ (L 1%nat ltac:(lia))) as L1.
    rewrite D in L0, L1.
    destruct (ref_coords k (edge_node_id k e 0)) as [|a [|b [|]]]; try discriminate L0.
    destruct (ref_coords k (edge_node_id k e 1)) as [|c [|d [|]]]; try discriminate L1. eauto 8. }
  destruct j as [|[|j]]; [| |lia]; cbn [nth seg_point].
  - apply (dlim_ext (fun t => (a + c) / 2 + t * ((c - a) / 2))); [intros; field|apply dlim_lin].
  - apply (dlim_ext (fun t => (b + d) / 2 + t * ((d - b) / 2))); [intros; field|apply dlim_lin].
Qed.

Lemma line_curve z : curve_at 1 (fun t => [t]) z [z] (fun _ => 1).
Proof. split; [reflexivity|]. intros j Hj. destruct j; [|lia]. apply (dlim_ext id); [reflexivity|apply derivable_pt_lim_id]. Qed.

Lemma edge_tangent p s e z i : pad_wf p -> kind_edge_kind (p_kind p) = Some (p_kind s) -> (e < kind_nedge (p_kind p))%nat ->
  kind_ndim (p_kind p) = 2%nat ->
  side_pad p s (edge_node_id (p_kind p) e) -> (i < p_space p)%nat ->
  JJ s [z] i 0%nat = sum_n 2 (fun j => JJ p (edge_xi (p_kind p) e z) i j * edge_tau (p_kind p) e j).
Proof.
  intros W Ek He D Sp Hi. pose proof Sp as (Ws & Es & _).
  pose proof (pos_curve s _ z [z] _ i Ws ltac:(congruence) ltac:(rewrite (edge_kind_dim _ _ Ek); apply line_curve)) as A.
  pose proof (pos_curve p _ z _ _ i W Hi ltac:(rewrite D; apply (edge_curve (p_kind p) e z D He))) as B.
  rewrite (edge_kind_dim _ _ Ek) in A. rewrite D in B.
  unfold sum_n at 1 in A. cbn [seq map sum] in A. rewrite Rmult_1_r, Rplus_0_r in A.
  eapply uniqueness_limite; [exact A|].
  eapply dlim_ext; [|exact B]. intros t. cbn beta. symmetry. now apply edge_pos.
Qed.

(* the interior is on the right of the edge *)
Lemma edge_interior k e z eta : kind_ndim k = 2%nat -> (e < kind_nedge k)%nat -> strictly_inside (kind_class k) eta ->
  edge_tau k e 0%nat * (nth 1 eta 0 - nth 1 (edge_xi k e z) 0) - edge_tau k e 1%nat * (nth 0 eta 0 - nth 0 (edge_xi k e z) 0) < 0.
Proof.
  intros D He. destruct k; try discriminate D; cbn [kind_class strictly_inside];
    (destruct eta as [|x [|y [|]]]; try contradiction); intros I;
    vm_compute in He; do 4 (try (destruct e as [|e]; [cbn; unfold Q2R; simpl; lra|])); lia.
Qed.

Lemma edge_xi_length k e z : kind_ndim k = 2%nat -> (e < kind_nedge k)%nat -> List.length (edge_xi k e z) = 2%nat.
Proof. intros D He. destruct k; try discriminate D; vm_compute in He; do 4 (try (destruct e as [|e]; [reflexivity|])); lia. Qed.

Lemma edge_normal p s e z mag un q : pad_wf p -> p_space p = 2%nat -> kind_ndim (p_kind p) = 2%nat ->
  kind_edge_kind (p_kind p) = Some (p_kind s) -> (e < kind_nedge (p_kind p))%nat ->
  side_pad p s (edge_node_id (p_kind p) e) ->
  calc_normal_vector s 2 [z] = Ok (mag, un, q) ->
  forall a, jacobian_of p (edge_xi (p_kind p) e z) a ->
  (0 < det 2 a -> 0 < mag /\ points_out p (edge_xi (p_kind p) e z) un) /\
  (det 2 a < 0 -> 0 < mag /\ points_in p (edge_xi (p_kind p) e z) un).
Proof.
  intros W Sp D Ek He Sd H a Ja. pose proof Sd as (Ws & Es & _).
  set (xi := edge_xi (p_kind p) e z) in *.
  assert (Lx : List.length xi = 2%nat) by (apply edge_xi_length; auto).
  assert (Da : det 2 a = det 2 (JJ p xi)).
  { apply det_ext. intros i j Hi Hj. apply (jacobian_unique p xi); auto; try lia. apply jj_partial; auto. lia. }
  destruct (normal_2d s 2 [z] mag un q Ws ltac:(congruence) ltac:(rewrite (edge_kind_dim _ _ Ek); reflexivity) H)
    as (Ds & _ & _ & Js & Lu & M & U0 & U1 & _ & _). cbv zeta in *.
  assert (T : forall i, (i < 2)%nat -> ent (p_jac q) i 0 = sum_n 2 (fun j => JJ p xi i j * edge_tau (p_kind p) e j)).
  { intros i Hi. transitivity (JJ s [z] i 0%nat); [|apply edge_tangent; auto; lia].
    apply (jacobian_unique s [z]); auto; try lia; apply jj_partial; auto; simpl; lia. }
  assert (T0 := T 0%nat ltac:(lia)). assert (T1 := T 1%nat ltac:(lia)). clear T.
  set (t0 := ent (p_jac q) 0 0) in *. set (t1 := ent (p_jac q) 1 0) in *.
  set (J := JJ p xi) in *.
  unfold sum_n in T0, T1. cbn [seq map sum] in T0, T1.
  assert (G : forall eta, let v i := sum_n 2 (fun j => J i j * (nth j eta 0 - nth j xi 0)) in
    t0 * v 1%nat - t1 * v 0%nat = det 2 J * (edge_tau (p_kind p) e 0%nat * (nth 1 eta 0 - nth 1 xi 0) - edge_tau (p_kind p) e 1%nat * (nth 0 eta 0 - nth 0 xi 0))).
  { intros eta v. subst v. cbv beta. unfold sum_n. cbn [seq map sum det]. rewrite T0, T1. field. }
  assert (Mp : det 2 J <> 0 -> 0 < mag).
  { intros N. rewrite M. apply sqrt_lt_R0.
    destruct (Req_dec t0 0) as [Z0|Z0]; [|nra]. destruct (Req_dec t1 0) as [Z1|Z1]; [|nra]. exfalso.
    assert (exists eta, strictly_inside (kind_class (p_kind p)) eta) as (eta & I).
    { destruct (kind_class (p_kind p)) eqn:Kc; [destruct (p_kind p); discriminate| | | |].
      - exists [1/4; 1/4]. cbn. lra. - exists [0; 0]. cbn. lra. - exists [1/4; 1/4; 1/4]. cbn. lra. - exists [0;0;0]. cbn. lra. }
    pose proof (edge_interior (p_kind p) e z eta D He I) as K. fold xi in K. specialize (G eta). cbv zeta in G.
    rewrite Z0, Z1 in G. apply N. match type of K with ?c < 0 => assert (c <> 0) by lra end. nra. }
  assert (S0 : forall eta, 0 < mag -> sum_n (p_space p) (fun i => nth i un 0 * sum_n (kind_ndim (p_kind p)) (fun j => J i j * (nth j eta 0 - nth j xi 0)))
    = det 2 J / mag * (edge_tau (p_kind p) e 0%nat * (nth 1 eta 0 - nth 1 xi 0) - edge_tau (p_kind p) e 1%nat * (nth 0 eta 0 - nth 0 xi 0))).
  { intros eta Hm. rewrite (proj2 (Rltb_iff 0 mag) Hm) in U0, U1. specialize (G eta). cbv zeta in G. rewrite Sp, D.
    unfold sum_n at 1. cbn [seq map sum].
    replace (nth 0 un 0) with (- t1 / mag) by (apply Rmult_eq_reg_l with mag; [rewrite U0; field; lra|lra]).
    replace (nth 1 un 0) with (t0 / mag) by (apply Rmult_eq_reg_l with mag; [rewrite U1; field; lra|lra]).
    match type of G with _ = ?d * ?c => replace (d / mag * c) with ((d * c) / mag) by (field; lra) end.
    rewrite <- G. field. lra. }
  rewrite Da. split; intros Hd.
  - specialize (Mp ltac:(lra)). split; auto. apply slope_out; auto; try lia. intros eta I. fold J. rewrite (S0 eta Mp).
    pose proof (edge_interior (p_kind p) e z eta D He I) as K. fold xi in K.
    assert (0 < det 2 J / mag) by (apply Rdiv_lt_0_compat; auto). nra.
  - specialize (Mp ltac:(lra)). split; auto. apply slope_in; auto; try lia. intros eta I. fold J. rewrite (S0 eta Mp).
    pose proof (edge_interior (p_kind p) e z eta D He I) as K. fold xi in K.
    assert (0 < (- det 2 J) / mag) by (apply Rdiv_lt_0_compat; lra).
    replace ((- det 2 J) / mag) with (- (det 2 J / mag)) in H0 by (field; lra). nra.
Qed.
