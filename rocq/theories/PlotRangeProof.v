From Coq Require Import String List Arith Bool QArith Lia Lqa.
From Verif Require Import Base BaseFacts Kind MeshModel MeshQueryModel MeshQuerySpec MeshQueryProof PlotRangeModel PlotRangeSpec.
Import ListNotations.
Open Scope Q_scope.

Lemma in_coords (m : mesh Q) i x : coords_complete m -> (i < ndim m)%nat ->
  (coord_of (map pt_coords (points m)) i x <-> exists p, In p (points m) /\ coord i p = x).
Proof.
  intros C Hi. unfold coord_of, coord. split.
  - intros (c & H & E). apply in_map_iff in H as (p & <- & I). exists p. split; auto. now apply nth_error_nth.
  - intros (p & I & <-). exists (pt_coords p). split; [now apply in_map|]. apply nth_error_nth'. specialize (C p I). lia.
Qed.
Lemma limits_at m i : coords_complete m -> points m <> [] -> (i < ndim m)%nat ->
  exists lim p q, get_limits m = Ok lim /\ get (fst lim) i = Ok (Some (coord i p)) /\ get (snd lim) i = Ok (Some (coord i q)) /\ lowest i m p /\ highest i m q.
Proof.
  intros C N Hi. destruct (get_limits_spec m C N) as (lim & E & L1 & L2 & B). destruct (B i Hi) as (a & b & A1 & (A2 & A3) & B1 & (B2 & B3)).
  apply (in_coords m i _ C Hi) in A2 as (p & P1 & <-). apply (in_coords m i _ C Hi) in B2 as (q & Q1 & <-). exists lim, p, q. split; auto.
  unfold get. rewrite A1, B1. split; auto. split; auto. split; split; auto; intros r Hr; [apply A3|apply B3]; apply (in_coords m i _ C Hi); exists r; auto.
Qed.
Lemma Qpos_iff x : Qpos x = true <-> 0 < x.
Proof. unfold Qpos. rewrite negb_true_iff. destruct (Qle_bool x 0) eqn:E; [apply Qle_bool_iff in E; split; [discriminate|lra]|]. split; auto. intros _.
  apply Qnot_le_lt. intros H. apply Qle_bool_iff in H. congruence. Qed.
Lemma config_ok mr m : coords_complete m -> points m <> [] -> (2 <= ndim m)%nat ->
  exists p q s t, lowest 0 m p /\ highest 0 m q /\ lowest 1 m s /\ highest 1 m t /\
    config_plot_range mr m = Ok (if Qpos (coord 0 q - coord 0 p) && Qpos (coord 1 t - coord 1 s)
      then Range2 (coord 0 p - mr * (coord 0 q - coord 0 p)) (coord 0 q + mr * (coord 0 q - coord 0 p))
                  (coord 1 s - mr * (coord 1 t - coord 1 s)) (coord 1 t + mr * (coord 1 t - coord 1 s)) else Auto).
Proof.
  intros C N D. destruct (limits_at m 0 C N ltac:(lia)) as (lim & p & q & E & X0 & X1 & P & Q).
  destruct (limits_at m 1 C N ltac:(lia)) as (lim' & s & t & E' & Y0 & Y1 & S & T). rewrite E in E'. injection E' as <-.
  exists p, q, s, t. repeat (split; auto). unfold config_plot_range. rewrite E. cbn [bind]. rewrite X0. cbn [bind]. rewrite X1. cbn [bind].
  rewrite Y0. cbn [bind]. rewrite Y1. cbn [bind]. destruct (_ && _); reflexivity.
Qed.
Lemma not_flat i m p q : lowest i m p -> highest i m q -> (0 < coord i q - coord i p <-> ~ flat i m).
Proof.
  intros (P1 & P2) (Q1 & Q2). split.
  - intros H F. specialize (F p q P1 Q1). lra.
  - intros H. destruct (Qlt_le_dec 0 (coord i q - coord i p)) as [L|L]; auto. exfalso. apply H. intros a b Ha Hb.
    pose proof (P2 a Ha). pose proof (P2 b Hb). pose proof (Q2 a Ha). pose proof (Q2 b Hb). lra.
Qed.

Lemma range_contains mr m : coords_complete m -> points m <> [] -> (2 <= ndim m)%nat -> 0 <= mr ->
  exists r, config_plot_range mr m = Ok r /\ forall p, In p (points m) -> shows r (coord 0 p) (coord 1 p).
Proof.
  intros C N D M. destruct (config_ok mr m C N D) as (p & q & s & t & P & Q & S & T & E). rewrite E. eexists. split; [reflexivity|].
  intros a Ha. destruct (_ && _) eqn:EB; cbn [shows]; auto. apply andb_prop in EB as (B1 & B2). apply Qpos_iff in B1, B2.
  pose proof (proj2 P a Ha). pose proof (proj2 Q a Ha). pose proof (proj2 S a Ha). pose proof (proj2 T a Ha).
  set (dx := coord 0 q - coord 0 p) in *. set (dy := coord 1 t - coord 1 s) in *.
  assert (0 <= mr * dx) by (apply Qmult_le_0_compat; lra). assert (0 <= mr * dy) by (apply Qmult_le_0_compat; lra). lra.
Qed.
Lemma range_exact mr m p q s t : coords_complete m -> points m <> [] -> (2 <= ndim m)%nat ->
  lowest 0 m p -> highest 0 m q -> lowest 1 m s -> highest 1 m t ->
  (flat 0 m \/ flat 1 m -> config_plot_range mr m = Ok Auto) /\
  (~ flat 0 m -> ~ flat 1 m -> exists a b c d, config_plot_range mr m = Ok (Range2 a b c d) /\
     a == coord 0 p - mr * (coord 0 q - coord 0 p) /\ b == coord 0 q + mr * (coord 0 q - coord 0 p) /\
     c == coord 1 s - mr * (coord 1 t - coord 1 s) /\ d == coord 1 t + mr * (coord 1 t - coord 1 s)).
Proof.
  intros C N D P Q S T. destruct (config_ok mr m C N D) as (p' & q' & s' & t' & P' & Q' & S' & T' & E).
  assert (EP : coord 0 p' == coord 0 p) by (pose proof (proj2 P p' (proj1 P')); pose proof (proj2 P' p (proj1 P)); lra).
  assert (EQ : coord 0 q' == coord 0 q) by (pose proof (proj2 Q q' (proj1 Q')); pose proof (proj2 Q' q (proj1 Q)); lra).
  assert (ES : coord 1 s' == coord 1 s) by (pose proof (proj2 S s' (proj1 S')); pose proof (proj2 S' s (proj1 S)); lra).
  assert (ET : coord 1 t' == coord 1 t) by (pose proof (proj2 T t' (proj1 T')); pose proof (proj2 T' t (proj1 T)); lra).
  rewrite E. split.
  - intros F. destruct (_ && _) eqn:EB; auto. apply andb_prop in EB as (B1 & B2). apply Qpos_iff in B1, B2.
    apply (not_flat 0 m p' q') in B1; auto. apply (not_flat 1 m s' t') in B2; auto. tauto.
  - intros F0 F1. apply (not_flat 0 m p' q' P' Q') in F0. apply (not_flat 1 m s' t' S' T') in F1.
    apply Qpos_iff in F0, F1. rewrite F0, F1. cbn [andb]. do 4 eexists. split; [reflexivity|]. rewrite EP, EQ, ES, ET. repeat split; reflexivity.
Qed.
Lemma range_choice r2 r3 mr m :
  (forall a b c d, ndim m = 2%nat -> r2 = Some (a, b, c, d) -> plot_range r2 r3 mr m = Ok (Range2 a b c d)) /\
  (forall a b c d e f, ndim m = 3%nat -> r3 = Some (a, b, c, d, e, f) -> plot_range r2 r3 mr m = Ok (Range3 a b c d e f)) /\
  ((ndim m = 2%nat /\ r2 = None) \/ (ndim m = 3%nat /\ r3 = None) -> plot_range r2 r3 mr m = config_plot_range mr m).
Proof.
  unfold plot_range. split; [|split].
  - intros a b c d -> ->. reflexivity.
  - intros a b c d e f -> ->. reflexivity.
  - intros [(-> & ->)|(-> & ->)]; reflexivity.
Qed.
