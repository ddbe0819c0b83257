(* The normal vectors of the edges and faces of cells point out of the cell. *)
From Coq Require Import String Reals QArith Qreals List Lia Lra Bool Arith ZArith.
From Verif Require Import Base BaseFacts Expr ExprProof ShapesData Kind MeshModel ShapesModel ShapesSpec ShapesProof ShapesShared
  GeomModel GeomProof PadModel PadSpec PadProof PadProof2 PadProof3 NormalSpec.
Import ListNotations.
Local Open Scope list_scope.
Local Open Scope R_scope.

Notation JJ p xi := (ent (mat_mul (p_geo p) (p_xxt p) (calc_deriv (p_kind p) xi))).

(** a function with negative derivative decreases *)
Lemma decreasing_at f t0 d : derivable_pt_lim f t0 d -> d < 0 ->
  exists eps, 0 < eps /\ forall t, 0 < t < eps -> f (t0 + t) - f t0 < 0.
Proof.
  intros D N. destruct (D (- d / 2) ltac:(lra)) as (del & H). exists del. split; [apply cond_pos|].
  intros t Ht. assert (A : Rabs ((f (t0 + t) - f t0) / t - d) < - d / 2) by (apply H; [lra|rewrite Rabs_pos_eq; lra]).
  apply Rabs_def2 in A. destruct A as (A & _).
  assert (B : (f (t0 + t) - f t0) / t < 0) by lra.
  replace (f (t0 + t) - f t0) with ((f (t0 + t) - f t0) / t * t) by (field; lra). nra.
Qed.

Lemma dlim_lin a d t0 : derivable_pt_lim (fun t => a + t * d) t0 d.
Proof.
  intros eps He. exists (mkposreal 1 Rlt_0_1). intros h H0 _.
  replace ((a + (t0 + h) * d - (a + t0 * d)) / h - d) with 0 by (field; auto). now rewrite Rabs_R0.
Qed.

(** the derivative of the height when the cell is entered *)
Lemma toward_curve n xi eta : List.length xi = n ->
  curve_at n (fun t => toward xi eta t) 0 xi (fun j => nth j eta 0 - nth j xi 0).
Proof.
  intros L. split.
  - unfold toward. rewrite L. apply (nth_ext _ _ 0 0); [now rewrite map_length, seq_length|].
    intros j Hj. rewrite map_length, seq_length in Hj. rewrite (nth_map_in _ _ _ 0%nat) by now rewrite seq_length.
    rewrite seq_nth by auto. simpl. ring.
  - intros j Hj. apply (dlim_ext (fun t => nth j xi 0 + t * (nth j eta 0 - nth j xi 0))).
    + intros t. unfold toward. rewrite L. rewrite (nth_map_in _ _ _ 0%nat) by now rewrite seq_length. rewrite seq_nth by auto. reflexivity.
    + apply dlim_lin.
Qed.

Lemma height_curve p u xi eta : pad_wf p -> List.length xi = kind_ndim (p_kind p) ->
  derivable_pt_lim (fun t => height p u xi (toward xi eta t)) 0
    (sum_n (p_space p) (fun i => nth i u 0 * sum_n (kind_ndim (p_kind p)) (fun j => JJ p xi i j * (nth j eta 0 - nth j xi 0)))).
Proof.
  intros W L. unfold height. apply dlim_sum_n. intros i Hi.
  pose proof (pos_curve p _ 0 xi _ i W Hi (toward_curve _ xi eta L)) as P.
  set (d := sum_n _ _) in *. clearbody d.
  replace (nth i u 0 * d) with (0 * (pos p (toward xi eta 0) i - pos p xi i) + nth i u 0 * (d - 0)) by ring.
  apply (derivable_pt_lim_mult (fun _ => nth i u 0) (fun t => pos p (toward xi eta t) i - pos p xi i)); [apply derivable_pt_lim_const|].
  apply (derivable_pt_lim_minus (fun t => pos p (toward xi eta t) i) (fun _ => pos p xi i)); [exact P|apply derivable_pt_lim_const].
Qed.

Lemma toward_0 xi eta : toward xi eta 0 = xi.
Proof. apply (toward_curve (List.length xi) xi eta eq_refl). Qed.
Lemma height_0 p u xi : height p u xi xi = 0.
Proof. unfold height. apply sum_n_zero. intros; ring. Qed.

(* [slope] = derivative of the height *)
Lemma slope_out p u xi : pad_wf p -> List.length xi = kind_ndim (p_kind p) ->
  (forall eta, strictly_inside (kind_class (p_kind p)) eta ->
     sum_n (p_space p) (fun i => nth i u 0 * sum_n (kind_ndim (p_kind p)) (fun j => JJ p xi i j * (nth j eta 0 - nth j xi 0))) < 0) ->
  points_out p xi u.
Proof.
  intros W L H eta I. destruct (decreasing_at _ _ _ (height_curve p u xi eta W L) (H eta I)) as (eps & E & K).
  exists eps. split; auto. intros t Ht. specialize (K t Ht). rewrite Rplus_0_l, toward_0, height_0 in K. lra.
Qed.
Lemma slope_in p u xi : pad_wf p -> List.length xi = kind_ndim (p_kind p) ->
  (forall eta, strictly_inside (kind_class (p_kind p)) eta ->
     0 < sum_n (p_space p) (fun i => nth i u 0 * sum_n (kind_ndim (p_kind p)) (fun j => JJ p xi i j * (nth j eta 0 - nth j xi 0)))) ->
  points_in p xi u.
Proof.
  intros W L H eta I. pose proof (height_curve p u xi eta W L) as D. apply derivable_pt_lim_opp in D.
  destruct (decreasing_at _ _ _ D ltac:(specialize (H eta I); lra)) as (eps & E & K).
  exists eps. split; auto. intros t Ht. specialize (K t Ht). unfold opp_fct in K. rewrite Rplus_0_l, toward_0, height_0 in K. lra.
Qed.
