(* Closed forms: the constants of a triangle and of a tetrahedron. *)
From Coquelicot Require Import Coquelicot.
From Coq Require Import Reals QArith Qreals List Arith Bool Lia Lra.
From Verif Require Import Base Kind Expr ExprProof ShapesModel ShapesSpec ShapesProof PadModel PadSpec PadProof PadProof2 GaussModel GaussSpec GaussProof IntegModel IntegSpec AnaData AnaModel AnaSpec AnaProof.
Import ListNotations.
Local Open Scope R_scope.

Ltac cases2 H := repeat match type of H with (?m < S _)%nat => destruct m as [|m]; [clear H|apply Nat.succ_lt_mono in H] | (_ < 0)%nat => exfalso; revert H; apply Nat.nlt_0_r end.
Ltac q2r := repeat match goal with |- context [Q2R ?q] => let v := eval cbv in (Qnum q) in let w := eval cbv in (Qden q) in progress change (Q2R q) with (IZR v * / IZR (Zpos w)) end.

Lemma tri_deriv ksi m j : (m < 3)%nat -> (j < 2)%nat ->
  ent (calc_deriv Tri3 ksi) m j = match m with 0%nat => -1 | 1%nat => if (j =? 0)%nat then 1 else 0 | _ => if (j =? 0)%nat then 0 else 1 end.
Proof. intros Hm Hj. cases2 Hm; cases2 Hj; rewrite deriv_eval; cbn; unfold Q2R; cbn; lra. Qed.

(* the gradient solves linear equations *)
Lemma solid_grad p d B ksi a : pad_wf p -> solid_element p d B -> List.length ksi = kind_ndim (p_kind p) ->
  (forall i j, (i < p_space p)%nat -> (j < p_space p)%nat ->
     sum_n (kind_nnode (p_kind p)) (fun m => node_x p i m * ent (calc_deriv (p_kind p) ksi) m j) = a i j) ->
  d ksi = det (p_space p) a /\ d ksi <> 0 /\
  forall m j, (m < kind_nnode (p_kind p))%nat -> (j < p_space p)%nat ->
    sum_n (p_space p) (fun i => ent (B ksi) m i * a i j) = ent (calc_deriv (p_kind p) ksi) m j.
Proof.
  intros W E L H. destruct (solid_facts p d B ksi W E L) as (_ & D & D0 & G). split; [|split; [exact D0|]].
  - rewrite D. now apply det_ext.
  - intros m j Hm Hj. rewrite <- G by auto. apply sum_n_ext. intros i Hi. rewrite H; auto.
Qed.

Lemma tri_facts p t d B : pad_wf p -> p_kind p = Tri3 -> p_space p = 2%nat -> tri3_new p = Ok t -> solid_element p d B ->
  t_area t <> 0 /\ forall ksi, List.length ksi = 2%nat ->
    d ksi = 2 * t_area t /\ forall m i, (m < 3)%nat -> (i < 2)%nat -> ent (B ksi) m i = ent (t_bb t) m i.
Proof.
  intros W K N H HS.
  assert (F : forall ksi, List.length ksi = 2%nat -> t_area t <> 0 /\
    d ksi = 2 * t_area t /\ forall m i, (m < 3)%nat -> (i < 2)%nat -> ent (B ksi) m i = ent (t_bb t) m i).
  { intros ksi L. unfold tri3_new in H. rewrite K in H. injection H as <-. cbn [t_area t_bb].
    destruct (solid_grad p d B ksi (fun i j => node_x p i (S j) - node_x p i 0) W HS) as (D & D0 & E); [rewrite K; exact L| |].
    { rewrite K, N. intros i j _ Hj. unfold sum_n. change (kind_nnode Tri3) with 3%nat. cbn [map seq sum]. rewrite !tri_deriv by lia. cases2 Hj; cbn [Nat.eqb]; ring. }
    rewrite K, N in *. change (kind_nnode Tri3) with 3%nat in *. change (ent (p_xxt p)) with (node_x p).
    unfold det in D. 
    assert (A : d ksi = 2 * ((node_x p 0 1 * node_x p 1 2 - node_x p 0 2 * node_x p 1 1 + (node_x p 0 2 * node_x p 1 0 - node_x p 0 0 * node_x p 1 2) + (node_x p 0 0 * node_x p 1 1 - node_x p 0 1 * node_x p 1 0)) / 2)) by (rewrite D; field).
    split; [intros Z; apply D0; rewrite A, Z; ring|]. split; [exact A|]. rewrite D in D0.
    intros m i Hm Hi.
    pose proof (E m 0%nat Hm ltac:(lia)) as E0. pose proof (E m 1%nat Hm ltac:(lia)) as E1.
    unfold sum_n in E0, E1. cbn [map seq sum] in E0, E1. rewrite Rplus_0_r in E0, E1.
    destruct (cramer2 _ _ _ _ _ _ _ _ D0 E0 E1) as [X0 X1].
    rewrite !tri_deriv in X0, X1 by lia.
    cases2 Hi; [rewrite X0|rewrite X1]; cases2 Hm; unfold ent; cbn [nth Nat.eqb]; field; lra. }
  split; [apply (F [0; 0] eq_refl)|]. intros ksi L. apply (F ksi L).
Qed.

Lemma tet_deriv ksi m j : (m < 4)%nat -> (j < 3)%nat ->
  ent (calc_deriv Tet4 ksi) m j = match m with 0%nat => -1 | S m => if (j =? m)%nat then 1 else 0 end.
Proof. intros Hm Hj. cases2 Hm; cases2 Hj; rewrite deriv_eval; cbn; unfold Q2R; cbn; lra. Qed.

Lemma cramer3 (a : nat -> nat -> R) u v w x y z : det 3 a <> 0 ->
  x * a 0%nat 0%nat + y * a 1%nat 0%nat + z * a 2%nat 0%nat = u ->
  x * a 0%nat 1%nat + y * a 1%nat 1%nat + z * a 2%nat 1%nat = v ->
  x * a 0%nat 2%nat + y * a 1%nat 2%nat + z * a 2%nat 2%nat = w ->
  x = (u * (a 1%nat 1%nat * a 2%nat 2%nat - a 2%nat 1%nat * a 1%nat 2%nat) - v * (a 1%nat 0%nat * a 2%nat 2%nat - a 2%nat 0%nat * a 1%nat 2%nat) + w * (a 1%nat 0%nat * a 2%nat 1%nat - a 2%nat 0%nat * a 1%nat 1%nat)) / det 3 a /\
  y = (v * (a 0%nat 0%nat * a 2%nat 2%nat - a 2%nat 0%nat * a 0%nat 2%nat) - u * (a 0%nat 1%nat * a 2%nat 2%nat - a 2%nat 1%nat * a 0%nat 2%nat) - w * (a 0%nat 0%nat * a 2%nat 1%nat - a 2%nat 0%nat * a 0%nat 1%nat)) / det 3 a /\
  z = (u * (a 0%nat 1%nat * a 1%nat 2%nat - a 1%nat 1%nat * a 0%nat 2%nat) - v * (a 0%nat 0%nat * a 1%nat 2%nat - a 1%nat 0%nat * a 0%nat 2%nat) + w * (a 0%nat 0%nat * a 1%nat 1%nat - a 1%nat 0%nat * a 0%nat 1%nat)) / det 3 a.
Proof. intros H <- <- <-. unfold det in *. repeat split; field; exact H. Qed.

Lemma tet_facts p t d B : pad_wf p -> p_kind p = Tet4 -> tet4_new p = Ok t -> solid_element p d B ->
  e_volume t <> 0 /\ forall ksi, List.length ksi = 3%nat ->
    d ksi = 6 * e_volume t /\ forall m i, (m < 4)%nat -> (i < 3)%nat -> ent (B ksi) m i = ent (e_bb t) m i.
Proof.
  intros W K H HS.
  assert (N : p_space p = 3%nat). { destruct W as ([W|W] & W2 & _); [rewrite K, W in W2; change (kind_ndim Tet4) with 3%nat in W2; lia|exact W]. }
  assert (F : forall ksi, List.length ksi = 3%nat -> e_volume t <> 0 /\
    d ksi = 6 * e_volume t /\ forall m i, (m < 4)%nat -> (i < 3)%nat -> ent (B ksi) m i = ent (e_bb t) m i).
  { intros ksi L. unfold tet4_new in H. rewrite K in H. injection H as <-. cbn [e_volume e_bb].
    destruct (solid_grad p d B ksi (fun i j => node_x p i (S j) - node_x p i 0) W HS) as (D & D0 & E); [rewrite K; exact L| |].
    { rewrite K, N. intros i j _ Hj. unfold sum_n. change (kind_nnode Tet4) with 4%nat. cbn [map seq sum]. rewrite !tet_deriv by lia. cases2 Hj; cbn [Nat.eqb]; ring. }
    rewrite K, N in *. change (kind_nnode Tet4) with 4%nat in *. change (ent (p_xxt p)) with (node_x p).
    match goal with |- ?v / 6 <> 0 /\ _ => set (V := v) end.
    assert (A : d ksi = V) by (rewrite D; unfold V, det; ring).
    split; [lra|]. split; [lra|]. rewrite D in D0. rewrite A in D.
    intros m i Hm Hi.
    pose proof (E m 0%nat Hm ltac:(lia)) as E0. pose proof (E m 1%nat Hm ltac:(lia)) as E1. pose proof (E m 2%nat Hm ltac:(lia)) as E2.
    unfold sum_n in E0, E1, E2. cbn [map seq sum] in E0, E1, E2. rewrite Rplus_0_r, <- Rplus_assoc in E0, E1, E2.
    destruct (cramer3 _ _ _ _ _ _ _ D0 E0 E1 E2) as (X0 & X1 & X2). rewrite <- D in *.
    rewrite !tet_deriv in X0, X1, X2 by lia. clear - D0 X0 X1 X2 Hi Hm.
    cases2 Hi; [rewrite X0|rewrite X1|rewrite X2]; cases2 Hm; unfold ent; cbn [nth Nat.eqb]; apply (f_equal (fun x => x / V)); ring. }
  split; [apply (F [0; 0; 0] eq_refl)|]. intros ksi L. apply (F ksi L).
Qed.
