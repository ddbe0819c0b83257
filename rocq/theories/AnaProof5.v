(* Closed forms: integrals over the sides of a triangle. *)
From Coquelicot Require Import Coquelicot.
From Coq Require Import Reals QArith Qreals List Arith Bool Lia Lra.
From Verif Require Import Base BaseFacts Kind Expr ExprProof ShapesModel ShapesSpec ShapesProof PadModel PadSpec PadProof PadProof2 GaussModel GaussSpec GaussProof IntegModel IntegSpec AnaData AnaModel AnaSpec AnaProof AnaProof2 AnaProof3 AnaProof4.
Import ListNotations.
Local Open Scope R_scope.

Lemma lin_ints : simple_ints Lin2 2 1 (2/3) (1/3).
Proof.
  split; [|split].
  - apply (expr_value _ (C 1) _ (2#1)); [reflexivity|intros; cbn; unfold Q2R; cbn; lra|reflexivity|unfold Q2R; cbn; lra].
  - intros m Hm. change (kind_nnode Lin2) with 2%nat in Hm. apply (expr_value _ (nth m (kind_interp Lin2) (C 0)) _ 1);
      [cases2 Hm; vm_compute; reflexivity|intros; apply shape_eval|cases2 Hm; vm_compute; reflexivity|unfold Q2R; cbn; lra].
  - intros m n Hm Hn. change (kind_nnode Lin2) with 2%nat in *. 
    apply (expr_value _ (Mul (nth m (kind_interp Lin2) (C 0)) (nth n (kind_interp Lin2) (C 0))) _ (if (m =? n)%nat then 2#3 else 1#3)); 
      [cases2 Hm; cases2 Hn; vm_compute; reflexivity|intros; rewrite !shape_eval; reflexivity|cases2 Hm; cases2 Hn; vm_compute; reflexivity|].
    destruct (m =? n)%nat; unfold Q2R; cbn; lra.
Qed.
Lemma lin_cubic m n l : (m < 2)%nat -> (n < 2)%nat -> (l < 2)%nat ->
  cell_integral Lin2 (fun ksi => shape Lin2 m ksi * shape Lin2 n ksi * shape Lin2 l ksi) (if ((m =? n) && (n =? l))%nat then 1/2 else 1/6).
Proof.
  intros Hm Hn Hl. 
  apply (expr_value _ (Mul (Mul (nth m (kind_interp Lin2) (C 0)) (nth n (kind_interp Lin2) (C 0))) (nth l (kind_interp Lin2) (C 0))) _ (if ((m =? n) && (n =? l))%nat then 1#2 else 1#6)); 
      [cases2 Hm; cases2 Hn; cases2 Hl; vm_compute; reflexivity|intros; rewrite !shape_eval; reflexivity|cases2 Hm; cases2 Hn; cases2 Hl; vm_compute; reflexivity|].
  destruct ((m =? n) && (n =? l))%nat; unfold Q2R; cbn; lra.
Qed.

Section Side.
Variables (p q : pad) (t : tri3) (d : list R -> R) (side : nat).
Hypothesis W : pad_wf q.
Hypothesis K : p_kind p = Tri3.
Hypothesis N2 : p_space p = 2%nat.
Hypothesis HT : tri3_new p = Ok t.
Hypothesis HQ : side_of p q side.
Hypothesis Hs : (side < 3)%nat.
Hypothesis HM : measured q d.

Lemma side_kind : p_kind q = Lin2 /\ p_space q = 2%nat.
Proof. destruct HQ as (E & S2 & _). rewrite K in E. injection E as <-. rewrite S2, N2. auto. Qed.

Lemma side_node i a : (i < 2)%nat -> (a < 2)%nat -> node_x q i a = node_x p i (edge_node_id Tri3 side a).
Proof. intros Hi Ha. destruct HQ as (_ & _ & H). rewrite <- K. destruct side_kind as [E1 E2]. apply H; [lia|rewrite E1; exact Ha]. Qed.

Lemma lin_deriv ksi m : (m < 2)%nat -> ent (calc_deriv Lin2 ksi) m 0 = if (m =? 0)%nat then -1/2 else 1/2.
Proof. intros Hm. rewrite deriv_eval. cases2 Hm; cbn; unfold Q2R; cbn; lra. Qed.

Lemma side_length ksi : List.length ksi = 1%nat -> exists l, length_at t side = Ok l /\ d ksi = l / 2.
Proof.
  intros L. destruct side_kind as [E1 E2]. destruct (HM ksi) as (J & HJ & _ & H1 & _); [rewrite E1; exact L|].
  rewrite E1, E2 in H1. rewrite (H1 eq_refl).
  assert (QJ : forall i, (i < 2)%nat -> J i 0%nat = (node_x q i 1 - node_x q i 0) / 2).
  { intros i Hi. rewrite (jacobian_unique q ksi J _ i 0%nat HJ (jj_partial q ksi W ltac:(rewrite E1, L; auto))); [|lia|rewrite E1; change (kind_ndim Lin2) with 1%nat; lia].
    rewrite jj_ent; [|auto|lia|rewrite E1; change (kind_ndim Lin2) with 1%nat; lia]. rewrite E1. unfold sum_n. change (kind_nnode Lin2) with 2%nat. cbn [map seq sum].
    rewrite !lin_deriv by lia. cbn [Nat.eqb]. field. }
  unfold sum_n. cbn [map seq sum]. rewrite !QJ, !side_node by lia.
  assert (SQ : forall a b, sqrt ((a / 2) ^ 2 + ((b / 2) ^ 2 + 0)) = sqrt (a * a + b * b) / 2).
  { intros a b. replace ((a / 2) ^ 2 + ((b / 2) ^ 2 + 0)) with ((a * a + b * b) / (2 * 2)) by field.
    rewrite sqrt_div_alt by lra. rewrite sqrt_square by lra. reflexivity. }
  rewrite SQ. unfold tri3_new in HT. rewrite K in HT. injection HT as <-. clear - Hs. revert Hs. generalize side as sd. intros sd Hs.
  cases2 Hs; (eexists; split; [reflexivity|]); cbn [edge_node_id]; f_equal; f_equal; unfold node_x, ent; cbn; ring.
Qed.

Lemma side_coord : exists a0 a1, side_x t side = Ok (a0, a1) /\ forall ksi, pos q ksi 0 = shape Lin2 0 ksi * a0 + shape Lin2 1 ksi * a1.
Proof.
  destruct (tri_coords p t K HT) as (X0 & X1 & X2). destruct side_kind as [E1 E2].
  exists (node_x q 0 0), (node_x q 0 1). split.
  - rewrite !side_node by lia. clear - X0 X1 X2 Hs. revert Hs. generalize side as sd. intros sd Hs. unfold side_x. rewrite X0, X1, X2. cases2 Hs; reflexivity.
  - intros ksi. unfold pos. rewrite E1. unfold sum_n. change (kind_nnode Lin2) with 2%nat. cbn [map seq sum]. unfold shape. ring.
Qed.

Lemma side_const : exists l, length_at t side = Ok l /\ forall ksi, List.length ksi = 1%nat -> d ksi = l / 2.
Proof.
  destruct (side_length [0] eq_refl) as (l & E & _). exists l. split; [exact E|]. intros ksi L. destruct (side_length ksi L) as (l' & E' & ->).
  rewrite E in E'. now injection E' as ->.
Qed.

Ltac outl := cbn [nth Nat.add Nat.mul Nat.eqb]; unfold ent; cbn [nth Nat.add Nat.mul Nat.eqb]; try change (kind_nnode Lin2) with 2%nat;
  unfold sum_n, z0; cbn [map seq sum Nat.eqb]; try field.

Lemma bry_vec_01 s axi : exists v, tri3_vec_01_ns_bry t side s axi = Ok v /\
  vec_integral Lin2 2 1 (fun m _ ksi => shape Lin2 m ksi * s * axi_weight axi q ksi * d ksi) v.
Proof.
  destruct side_const as (l & EL & D). destruct side_coord as (a0 & a1 & EX & PX).
  unfold tri3_vec_01_ns_bry. rewrite EX, EL. cbn [bind]. unfold axi_weight. destruct axi.
  - eexists. split; [reflexivity|]. split; [reflexivity|]. intros m i Hm Hi. replace i with 0%nat by lia.
    apply (fit Lin2 _ _ _ _ m 0 z0 (fun j => l / 2 * s * (if (j =? 0)%nat then a0 else a1)) _ _ lin_ints Hm).
    + intros ksi L. rewrite D, PX by exact L. unfold sum_n, z0. change (kind_nnode Lin2) with 2%nat. cbn [map seq sum Nat.eqb]. ring.
    + cases2 Hm; outl.
  - eexists. split; [reflexivity|]. split; [reflexivity|]. intros m i Hm Hi. replace i with 0%nat by lia.
    apply (fit Lin2 _ _ _ _ m 0 (fun j => if (j =? m)%nat then l / 2 * s else 0) z0 _ _ lin_ints Hm).
    + intros ksi L. rewrite D by exact L. unfold sum_n, z0. change (kind_nnode Lin2) with 2%nat. cases2 Hm; cbn [map seq sum Nat.eqb]; ring.
    + cases2 Hm; outl.
Qed.

Lemma bry_mat_01 s axi : exists K, tri3_mat_01_nsn_bry t side s axi = Ok K /\
  mat_integral Lin2 2 1 2 1 (fun m _ n _ ksi => shape Lin2 m ksi * s * shape Lin2 n ksi * axi_weight axi q ksi * d ksi) K.
Proof.
  destruct side_const as (l & EL & D). destruct side_coord as (a0 & a1 & EX & PX).
  unfold tri3_mat_01_nsn_bry. rewrite EX, EL. cbn [bind]. unfold axi_weight. destruct axi.
  - eexists. split; [reflexivity|]. split; [repeat constructor|]. intros m i n j Hm Hi Hn Hj. replace i with 0%nat by lia. replace j with 0%nat by lia.
    apply (cell_ext Lin2 (fun ksi => sum_n 2 (fun k => (l / 2 * s * (if (k =? 0)%nat then a0 else a1)) * (shape Lin2 m ksi * shape Lin2 n ksi * shape Lin2 k ksi)))).
    { intros ksi L. rewrite D, PX by exact L. unfold sum_n. cbn [map seq sum Nat.eqb]. ring. }
    match goal with |- cell_integral _ _ ?v => replace v with (sum_n 2 (fun k => (l / 2 * s * (if (k =? 0)%nat then a0 else a1)) * (if ((m =? n) && (n =? k))%nat then 1/2 else 1/6))) end.
    + apply (cell_sum Lin2 2 _ (fun k ksi => shape Lin2 m ksi * shape Lin2 n ksi * shape Lin2 k ksi)). intros k Hk. now apply lin_cubic.
    + cases2 Hm; cases2 Hn; cbn [Nat.eqb andb]; outl.
  - eexists. split; [reflexivity|]. split; [repeat constructor|]. intros m i n j Hm Hi Hn Hj. replace i with 0%nat by lia. replace j with 0%nat by lia.
    apply (fit Lin2 _ _ _ _ m 0 z0 (fun k => if (k =? n)%nat then l / 2 * s else 0) _ _ lin_ints Hm).
    + intros ksi L. rewrite D by exact L. unfold sum_n, z0. change (kind_nnode Lin2) with 2%nat. cases2 Hn; cbn [map seq sum Nat.eqb]; ring.
    + cases2 Hm; cases2 Hn; outl.
Qed.
End Side.
Lemma bry_panic t side s axi : (3 <= side)%nat -> List.length (t_ll t) = 3%nat -> tri3_vec_01_ns_bry t side s axi = Panic /\ tri3_mat_01_nsn_bry t side s axi = Panic.
Proof.
  intros H L. assert (E : length_at t side = Panic) by (unfold length_at; replace (nth_error (t_ll t) side) with (@None R); [reflexivity|symmetry; apply nth_error_None; lia]).
  unfold tri3_vec_01_ns_bry, tri3_mat_01_nsn_bry. rewrite E. destruct axi; [|auto]. destruct side as [|[|[|side]]]; try lia. auto.
Qed.
