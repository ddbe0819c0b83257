(* The checks of normal vectors. *)
From Coq Require Import String Reals QArith Qreals List Lia Lra Bool Arith ZArith Permutation.
From Verif Require Import Base BaseFacts Expr ExprProof ShapesData Kind MeshModel GraphModel MeshQuerySpec TopoModel TopoSpec TopoProof TopoFeat3
  ShapesModel ShapesSpec ShapesProof ShapesShared
  GeomModel GeomProof PadModel PadSpec PadProof PadProof2 PadProof3 PadProof4 NormalModel NormalSpec NormalProof NormalProof2 NormalProof3 NormalProof4.
Import ListNotations.
Local Open Scope string_scope.
Local Open Scope list_scope.
Local Open Scope R_scope.

Lemma deriv_zeros k n n' : (kind_ndim k <= n)%nat -> (kind_ndim k <= n')%nat -> calc_deriv k (repeat 0 n) = calc_deriv k (repeat 0 n').
Proof.
  intros H1 H2. unfold calc_deriv. apply map_ext_in. intros r Hr. apply map_ext_in. intros e He.
  apply (eval_below (kind_ndim k)).
  - intros j Hj. unfold env. now rewrite !nth_repeat.
  - pose proof (kind_deriv_below k) as B. rewrite forallb_forall in B. specialize (B _ Hr). rewrite forallb_forall in B. auto.
Qed.

Lemma element_pos m kd ps p p' ksi i : sound_side m kd ps -> element_of m (mkCell 0 0%Z kd ps) p -> element_of m (mkCell 0 0%Z kd ps) p' ->
  (i < ndim m)%nat -> pos p ksi i = pos p' ksi i.
Proof.
  intros (_ & L & R) (_ & K1 & _ & X1) (_ & K2 & _ & X2) Hi. cbn [c_points c_kind] in *.
  unfold pos. rewrite K1, K2. apply sum_n_ext. intros a Ha. f_equal.
  destruct (nth_error ps a) as [id|] eqn:Eid; [|apply nth_error_None in Eid; lia].
  assert (Hid : (id < List.length (points m))%nat) by (apply R; eapply nth_error_In; eauto).
  destruct (nth_error (points m) id) as [pt|] eqn:Ept; [|apply nth_error_None in Ept; lia].
  rewrite (X1 a id pt i), (X2 a id pt i); auto.
Qed.

Lemma element_jac m kd ps p p' ksi a a' i j : sound_side m kd ps -> element_of m (mkCell 0 0%Z kd ps) p -> element_of m (mkCell 0 0%Z kd ps) p' ->
  jacobian_of p ksi a -> jacobian_of p' ksi a' -> (i < ndim m)%nat -> (j < kind_ndim kd)%nat -> a i j = a' i j.
Proof.
  intros Sd E E' J J' Hi Hj. pose proof E as (_ & K1 & S1 & _). pose proof E' as (_ & K2 & S2 & _). cbn [c_kind] in *.
  specialize (J i j ltac:(congruence) ltac:(congruence)). specialize (J' i j ltac:(congruence) ltac:(congruence)). unfold partial in *.
  eapply uniqueness_limite; [exact J|]. eapply dlim_ext; [|exact J']. intros t. cbn beta. symmetry. eapply element_pos; eauto.
Qed.

Lemma sqrt_zero_or x : 0 < sqrt x \/ sqrt x = 0.
Proof. pose proof (sqrt_pos x). lra. Qed.

Lemma normal_of_unique m kd ps g u g' u' : (ndim m = 2 \/ ndim m = 3)%nat -> sound_side m kd ps ->
  normal_of m kd ps g u -> normal_of m kd ps g' u' -> g = g' /\ u = u'.
Proof.
  intros Dm Sd (p & a & E & H) (p' & a' & E' & H').
  destruct Dm as [D|D]; rewrite D in *.
  - destruct H as (J & M & U & Z). destruct H' as (J' & M' & U' & Z'). pose proof (proj1 Sd) as Dk. rewrite D in Dk.
    assert (Q : forall i, (i < 2)%nat -> a i 0%nat = a' i 0%nat) by (intros i Hi; apply (element_jac m kd ps p p' [0]); auto; lia).
    rewrite <- !Q in M', U' by lia. rewrite <- M in M'. subst g'. split; auto.
    destruct (sqrt_zero_or (a 1%nat 0%nat ^ 2 + a 0%nat 0%nat ^ 2)) as [P|P]; rewrite <- M in P; [rewrite U, U' by auto|rewrite Z, Z' by auto]; reflexivity.
  - destruct H as (J & M & U & Z). destruct H' as (J' & M' & U' & Z'). pose proof (proj1 Sd) as Dk. rewrite D in Dk.
    assert (Q : forall i j, (i < 3)%nat -> (j < 2)%nat -> a i j = a' i j) by (intros i j Hi Hj; apply (element_jac m kd ps p p' [0; 0]); auto; lia).
    cbv zeta in *. rewrite <- !Q in M', U' by lia. rewrite <- M in M'. subst g'. split; auto.
    match type of M with _ = sqrt ?x => destruct (sqrt_zero_or x) as [P|P] end; rewrite <- M in P; [rewrite U, U' by auto|rewrite Z, Z' by auto]; reflexivity.
Qed.

(* what the code computes *)
Lemma side_normal m kd ps ksi : coords_complete m -> (ndim m = 2 \/ ndim m = 3)%nat -> sound_side m kd ps -> ksi = repeat 0 (ndim m) ->
  exists p0 s g u q, pad_new (ndim m) kd = Ok p0 /\ mesh_set_pad m p0 ps = Ok s /\ calc_normal_vector s (ndim m) ksi = Ok (g, u, q) /\
    List.length u = ndim m /\ normal_of m kd ps g u.
Proof.
  intros K Dm Sd ->. pose proof Sd as (Dk & L & R).
  destruct (pad_new_ok (ndim m) kd Dm ltac:(lia)) as (p0 & E0 & W0 & K0 & S0 & _).
  destruct (mesh_set_pad_points m (mkCell 0 0%Z kd ps) p0 K L R W0 K0 S0) as (s & Es & Hs & _). cbn [c_points] in Es.
  pose proof Hs as (Ws & Ks & Ss & _). cbn [c_kind] in Ks.
  assert (Eq : calc_normal_vector s (ndim m) (repeat 0 (ndim m)) = calc_normal_vector s (p_space s) (repeat 0 (kind_ndim kd))).
  { unfold calc_normal_vector. rewrite Ss, Ks. rewrite (deriv_zeros kd (ndim m) (kind_ndim kd)) by lia. reflexivity. }
  destruct (normal_total s (repeat 0 (kind_ndim kd)) Ws ltac:(rewrite Ks, Ss; lia)) as (g & u & q & N).
  exists p0, s, g, u, q. split; auto. split; auto. split; [congruence|].
  assert (J : jacobian_of s (repeat 0 (kind_ndim kd)) (JJ s (repeat 0 (kind_ndim kd)))) by (apply jj_partial; auto; rewrite Ks, repeat_length; auto).
  destruct Dm as [D|D].
  - assert (Dk1 : kind_ndim kd = 1%nat) by lia. rewrite Dk1 in *. cbn [repeat] in *. rewrite Ss, D in N. rewrite D in Ss.
    destruct (normal_2d s 2 [0] g u q Ws Ss ltac:(rewrite Ks, Dk1; reflexivity) N) as (_ & _ & _ & J' & Lu & M & U0 & U1 & _ & Z). cbv zeta in *.
    split; [congruence|]. exists s, (ent (p_jac q)). rewrite D. split; [exact Hs|]. split; auto.
    split; [rewrite M; f_equal; ring|]. split; auto. intros P. rewrite (proj2 (Rltb_iff 0 g) P) in U0, U1.
    destruct u as [|u0 [|u1 [|]]]; try discriminate Lu. cbn [nth] in *.
    f_equal; [|f_equal]; (apply Rmult_eq_reg_l with g; [|lra]); [rewrite U0|rewrite U1]; field; lra.
  - assert (Dk2 : kind_ndim kd = 2%nat) by lia. rewrite Dk2 in *. cbn [repeat] in *. rewrite Ss, D in N. rewrite D in Ss.
    destruct (normal_cross s 3 [0; 0] g u q Ws Ss N) as (_ & M & U).
    destruct (normal_3d s 3 [0; 0] g u q Ws Ss ltac:(rewrite Ks, Dk2; reflexivity) N) as (_ & _ & _ & _ & Lu & _ & _ & _ & _ & _ & Z). cbv zeta in *. cbn [cross] in *.
    split; [congruence|]. exists s, (JJ s [0; 0]). rewrite D. split; [exact Hs|]. split; auto. split; [exact M|]. split; auto.
    intros P. specialize (U P). destruct u as [|u0 [|u1 [|u2 [|]]]]; try discriminate Lu.
    pose proof (U 0%nat ltac:(lia)) as A0. pose proof (U 1%nat ltac:(lia)) as A1. pose proof (U 2%nat ltac:(lia)) as A2. cbn [nth cross] in *. congruence.
Qed.

Lemma near_dec tol x y : {near tol x y} + {~ near tol x y}.
Proof. unfold near. destruct (Rle_dec (Rabs (x - y)) tol); auto. Qed.
Lemma near_test tol x y : Rltb tol (Rabs (x - y)) = if near_dec tol x y then false else true.
Proof.
  unfold Rltb. destruct (Rlt_dec tol (Rabs (x - y))) as [A|A], (near_dec tol x y) as [B|B]; unfold near in *; auto; [lra|]. exfalso. apply B. lra.
Qed.

Lemma check_components_spec msg u v tol : forall n, (n <= List.length u)%nat -> (n <= List.length v)%nat ->
  (check_components n msg u v tol = Ok tt /\ components_near n tol u v) \/ (check_components n msg u v tol = Err msg /\ ~ components_near n tol u v).
Proof.
  induction n as [|n IH]; intros Lu Lv; [left; split; [reflexivity|intros i Hi; lia]|].
  unfold check_components in *. rewrite seq_S, foldM_app. cbn [Nat.add].
  destruct IH as [(-> & A)|(-> & A)]; try lia; cbn [bind].
  - cbn [foldM]. rewrite (get_ok u n 0) by lia. rewrite (get_ok v n 0) by lia. cbn [bind]. rewrite near_test.
    destruct (near_dec tol (nth n u 0) (nth n v 0)) as [B|B]; cbn [bind].
    + left. split; [reflexivity|]. intros i Hi. destruct (Nat.eq_dec i n) as [->|]; auto. apply (A i). lia.
    + right. split; [reflexivity|]. intros F. apply B. apply (F n). lia.
  - right. split; [reflexivity|]. intros F. apply A. intros i Hi. apply (F i). lia.
Qed.

Lemma check_one_spec m msg kd ps ksi mag un tol g u : coords_complete m -> (ndim m = 2 \/ ndim m = 3)%nat -> sound_side m kd ps ->
  ksi = repeat 0 (ndim m) -> List.length un = ndim m -> normal_of m kd ps g u ->
  check_one m msg kd ps ksi mag un tol =
    if near_dec tol g mag then check_components (ndim m) msg u un tol else Panic.
Proof.
  intros K Dm Sd E Lu N. destruct (side_normal m kd ps ksi K Dm Sd E) as (p0 & s & g' & u' & q & E0 & E1 & E2 & _ & N').
  destruct (normal_of_unique m kd ps g u g' u' Dm Sd N N') as (<- & <-).
  unfold check_one. rewrite E0. cbn [bind]. rewrite E1. cbn [bind]. rewrite E2. cbn [bind fst snd]. unfold approx_eq. rewrite near_test.
  destruct (near_dec tol g mag); reflexivity.
Qed.
Lemma normal_of_length m kd ps g u : (ndim m = 2 \/ ndim m = 3)%nat -> normal_of m kd ps g u -> List.length u = ndim m.
Proof.
  intros [D|D] (p & a & _ & H); rewrite D in *; destruct H as (_ & M & U & Z); cbv zeta in *;
    match type of M with _ = sqrt ?x => destruct (sqrt_zero_or x) as [P|P] end; rewrite <- M in P; [rewrite U by auto|rewrite Z by auto|rewrite U by auto|rewrite Z by auto]; reflexivity.
Qed.

(** a generic loop over the solutions *)
Section Loop.
Variables (A : Type) (f : A -> res unit).
Lemma loop_ok l : foldM (fun (_ : unit) x => f x) l tt = Ok tt <-> forall x, In x l -> f x = Ok tt.
Proof.
  induction l as [|x l IH]; cbn [foldM]; [split; [intros _ y []|reflexivity]|].
  split.
  - intros H. apply bind_ok in H as ([] & E & H). intros y [<-|Hy]; auto. apply IH; auto.
  - intros H. rewrite (H x (or_introl eq_refl)). cbn [bind]. apply IH. intros y Hy. apply H. now right.
Qed.
Lemma loop_first l1 x l2 r : (forall y, In y l1 -> f y = Ok tt) -> f x = r -> r <> Ok tt -> foldM (fun (_ : unit) x => f x) (l1 ++ x :: l2) tt = r.
Proof.
  intros H E N. rewrite foldM_app. rewrite (proj2 (loop_ok l1) H). cbn [bind foldM]. rewrite E. destruct r as [[]| | |]; try reflexivity. contradiction.
Qed.
End Loop.

Section Checks.
Variable m : mesh R.
Hypothesis K : coords_complete m.

Definition agrees {Key Side : Type} (find : Key -> option Side) (kd : Side -> geokind) (ps : Side -> list nat) (tol : R) (s : Key * (R * list R)) : Prop :=
  exists sd g u, find (fst s) = Some sd /\ normal_of m (kd sd) (ps sd) g u /\ near tol g (fst (snd s)) /\ components_near (ndim m) tol u (snd (snd s)).

Section Generic.
Variables (Key Side : Type) (find : Key -> option Side) (kd : Side -> geokind) (ps : Side -> list nat) (tol : R) (no wrong : string) (ksi : list R).
Hypothesis D : (ndim m = 2 \/ ndim m = 3)%nat.
Hypothesis Eksi : ksi = repeat 0 (ndim m).
Hypothesis Sound : forall k sd, find k = Some sd -> sound_side m (kd sd) (ps sd).
Definition one (s : Key * (R * list R)) : res unit :=
  match find (fst s) with
  | None => Err no
  | Some sd => check_one m wrong (kd sd) (ps sd) ksi (fst (snd s)) (snd (snd s)) tol
  end.

Lemma one_cases s : List.length (snd (snd s)) = ndim m ->
  (find (fst s) = None -> one s = Err no) /\
  (forall sd, find (fst s) = Some sd -> exists g u, normal_of m (kd sd) (ps sd) g u /\
     (~ near tol g (fst (snd s)) -> one s = Panic) /\
     (near tol g (fst (snd s)) -> ~ components_near (ndim m) tol u (snd (snd s)) -> one s = Err wrong) /\
     (near tol g (fst (snd s)) -> components_near (ndim m) tol u (snd (snd s)) -> one s = Ok tt)).
Proof.
  intros L. unfold one. split; [intros ->; reflexivity|]. intros sd E. rewrite E. pose proof (Sound _ _ E) as Sd.
  destruct (side_normal m _ _ ksi K D Sd Eksi) as (_ & _ & g & u & _ & _ & _ & _ & Lu & N). exists g, u. split; auto.
  rewrite (check_one_spec m wrong _ _ ksi _ _ tol g u K D Sd Eksi L N).
  destruct (check_components_spec wrong u (snd (snd s)) tol (ndim m) ltac:(lia) ltac:(lia)) as [(-> & A)|(-> & A)];
    destruct (near_dec tol g (fst (snd s))); repeat split; intros; try contradiction; reflexivity.
Qed.

Lemma one_ok s : List.length (snd (snd s)) = ndim m -> one s = Ok tt <-> agrees find kd ps tol s.
Proof.
  intros L. destruct (one_cases s L) as (A & B). split.
  - intros H. destruct (find (fst s)) as [sd|] eqn:E; [|rewrite A in H by auto; discriminate].
    destruct (B sd eq_refl) as (g & u & N & B1 & B2 & B3). exists sd, g, u. split; auto. split; auto.
    destruct (near_dec tol g (fst (snd s))) as [P|P]; [|rewrite B1 in H by auto; discriminate]. split; auto.
    destruct (check_components_spec wrong u (snd (snd s)) tol (ndim m)) as [(_ & Q)|(_ & Q)]; try (rewrite ?L, ?(normal_of_length _ _ _ _ _ D N); lia); auto.
    rewrite B2 in H by auto. discriminate.
  - intros (sd & g & u & E & N & P & Q). destruct (B sd E) as (g' & u' & N' & _ & _ & B3).
    destruct (normal_of_unique m _ _ g u g' u' D (Sound _ _ E) N N') as (<- & <-). auto.
Qed.
End Generic.
End Checks.
