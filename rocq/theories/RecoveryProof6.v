(* Concrete library functions for the examples *)
From Coq Require Import String Reals QArith Qreals List Arith Lia Lra Bool ZArith.
From Verif Require Import Base BaseFacts Kind Expr ExprProof ShapesModel ShapesSpec ShapesProof GeomModel PadModel PadSpec PadProof PadProof2 GaussData GaussModel GaussSpec GaussProof2 GaussProof3
  TopoModel IntegModel IntegSpec IntegProof IntegProof2 IntegProof5 RecoveryData RecoveryModel RecoverySpec RecoveryProof RecoveryRank RecoveryRank2 RecoveryProof2 RecoveryProof3 RecoveryProof4.
Import ListNotations.
Local Open Scope list_scope.
Local Open Scope R_scope.

Definition mat_dec : forall a b : mat, {a = b} + {a <> b} := list_eq_dec (list_eq_dec Req_EM_T).
(* knows one matrix *)
Definition knows (a b : mat) (x : mat) : res mat := if mat_dec x a then Ok b else Err "unknown"%string.
Lemma knows_it a b : knows a b a = Ok b.
Proof. unfold knows. destruct (mat_dec a a); [reflexivity|contradiction]. Qed.
Lemma is_matrix_unique nr nc mr mc a : (0 < nr)%nat -> is_matrix nr nc a -> is_matrix mr mc a -> mr = nr /\ mc = nc.
Proof.
  intros H (L1 & F1) (L2 & F2). split; [lia|]. destruct a as [|r a]; cbn [List.length] in *; [lia|].
  inversion_clear F1. inversion_clear F2. congruence.
Qed.
Lemma knows_pinv nr nc a b : (0 < nr)%nat -> is_matrix nr nc a -> is_pinv nr nc a b -> lib_pinv (knows a b).
Proof.
  intros H M P mr mc x y Mx E. unfold knows in E. destruct (mat_dec x a) as [->|]; [|discriminate]. injection E as <-.
  destruct (is_matrix_unique _ _ _ _ _ H M Mx) as [-> ->]. exact P.
Qed.
Lemma knows_inverse n a b : (0 < n)%nat -> is_matrix n n a -> is_inverse n a b -> lib_inverse (knows a b).
Proof.
  intros H M P m x y Mx E. unfold knows in E. destruct (mat_dec x a) as [->|]; [|discriminate]. injection E as <-.
  destruct (is_matrix_unique _ _ _ _ _ H M Mx) as [-> _]. exact P.
Qed.
Definition nothing : mat -> res mat := fun _ => Err "nothing"%string.
Lemma nothing_inverse : lib_inverse nothing. Proof. intros n a b _ E. discriminate. Qed.
Lemma nothing_pinv : lib_pinv nothing. Proof. intros n m a b _ E. discriminate. Qed.

Definition bare (k : geokind) : pad := mkPad k 3 [] [] [] [] [] [] false.
Lemma interp_of_rule k n g : gauss_new_sized (kind_class k) n = Ok g ->
  get_interp_matrix (bare k) g = Ok (map (fun p => calc_interp k (ksi_of k g p)) (seq 0 n), snd (match get_interp_matrix (bare k) g with Ok r => r | _ => ([], bare k) end)).
Proof.
  intros G. destruct (rule_points _ _ _ 0 G) as [Np _]. destruct (interp_matrix_ok (bare k) g) as (pp & q & E & S & M & V). rewrite E. f_equal. cbn [snd]. f_equal.
  rewrite Np in *. destruct M as [L F]. apply (nth_ext _ _ [] []); [rewrite map_length, seq_length; auto|]. intros p Hp.
  rewrite (nth_map_seq (fun p => calc_interp k (ksi_of k g p))) by lia. rewrite Forall_forall in F.
  apply (nth_ext _ _ 0 0); [rewrite interp_length; apply F, nth_In; auto|]. intros m Hm. rewrite (F (nth p pp [])) in Hm by (now apply nth_In).
  apply (V p m); [lia|exact Hm].
Qed.

(* a matrix given by a function *)
Definition tabulate (nr nc : nat) (f : nat -> nat -> R) : mat := map (fun i => map (f i) (seq 0 nc)) (seq 0 nr).
Lemma tabulate_matrix nr nc f : is_matrix nr nc (tabulate nr nc f).
Proof.
  split; [unfold tabulate; now rewrite map_length, seq_length|]. apply Forall_forall. intros r Hr. unfold tabulate in Hr. apply in_map_iff in Hr as (i & <- & _). now rewrite map_length, seq_length.
Qed.
Lemma interp_tab k n g : map (fun p => calc_interp k (ksi_of k g p)) (seq 0 n) = tabulate n (kind_nnode k) (fun p m => nth m (calc_interp k (ksi_of k g p)) 0).
Proof.
  unfold tabulate. apply map_ext. intros p. apply (nth_ext _ _ 0 0); [rewrite interp_length, map_length, seq_length; auto|]. intros m Hm.
  rewrite interp_length in Hm. now rewrite (nth_map_seq (fun m => nth m (calc_interp k (ksi_of k g p)) 0)).
Qed.

(** Qua8 with one point *)
Definition qua1 : gauss := mkGauss CQua ip_qua_legendre_1.
Lemma qua1_sized : gauss_new_sized (kind_class Qua8) 1 = Ok qua1. Proof. reflexivity. Qed.
Lemma qua1_ksi : ksi_of Qua8 qua1 0 = [0; 0].
Proof. unfold ksi_of, pt. cbn [kind_ndim map seq]. cbn. rewrite !f64_0. reflexivity. Qed.
Definition qua1_e : mat := [[- / 5]; [- / 5]; [- / 5]; [- / 5]; [2 / 5]; [2 / 5]; [2 / 5]; [2 / 5]].
Definition qua1_p : mat := [[- / 4; - / 4; - / 4; - / 4; / 2; / 2; / 2; / 2]].
Lemma qua1_interp : map (fun p => calc_interp Qua8 (ksi_of Qua8 qua1 p)) (seq 0 1) = qua1_p.
Proof.
  cbn [seq map]. rewrite qua1_ksi. unfold qua1_p. f_equal.
  unfold calc_interp, env. cbn -[Q2R]. repeat (f_equal; [unfold Q2R; cbn [Qnum Qden]; lra|]). f_equal. unfold Q2R; cbn [Qnum Qden]; lra.
Qed.
Ltac pinv_case := unfold prod, sum_n; cbn [seq map fold_right sum ent nth]; lra.
Lemma qua1_pinv : is_pinv 1 8 qua1_p qua1_e.
Proof.
  split; [|split; [|split; [|split]]].
  - split; [reflexivity|]. unfold qua1_e. repeat constructor.
  - intros i j Hi Hj. do 1 (destruct i as [|i]; [|]); [|lia]. do 8 (destruct j as [|j]; [unfold prod, sum_n, ent, qua1_p, qua1_e; cbn [seq map fold_right sum nth]; lra|]). lia.
  - intros i j Hi Hj. destruct j as [|j]; [|lia]. do 8 (destruct i as [|i]; [unfold prod, sum_n, ent, qua1_p, qua1_e; cbn [seq map fold_right sum nth]; lra|]). lia.
  - intros i j Hi Hj. destruct i as [|i]; [|lia]. destruct j as [|j]; [|lia]. reflexivity.
  - intros i j Hi Hj. do 8 (destruct i as [|i]; [do 8 (destruct j as [|j]; [unfold prod, sum_n, ent, qua1_p, qua1_e; cbn [seq map fold_right sum nth]; lra|]); lia|]). lia.
Qed.
Lemma qua1_run inv : exists q, get_extrap_matrix inv (knows qua1_p qua1_e) (bare Qua8) qua1 = Ok (qua1_e, q).
Proof.
  destruct (extrap_eq inv (knows qua1_p qua1_e) (bare Qua8) qua1 1 qua1_sized) as (pp & q & E & _ & _ & _ & _ & E2 & _).
  rewrite E2 by (right; reflexivity). rewrite (interp_of_rule Qua8 1 qua1 qua1_sized), qua1_interp in E. injection E as <- _. rewrite knows_it. cbn [bind]. eauto.
Qed.

(** lines: the points -a, (0,) a *)
Definition lin2 : gauss := mkGauss CLin ip_lin_legendre_2.
Definition lin3 : gauss := mkGauss CLin ip_lin_legendre_3.
Definition a2 : R := f64 2662558164157085696.
Definition a3 : R := f64 3572196629461372928.
Lemma a2_pos : 0 < a2 < 1. Proof. unfold a2. rewrite <- f64_0, <- f64_1. split; apply f64_lt; reflexivity. Qed.
Lemma a3_pos : 0 < a3 < 1. Proof. unfold a3. rewrite <- f64_0, <- f64_1. split; apply f64_lt; reflexivity. Qed.
Lemma f64_neg z : f64 (- z) = - f64 z. Proof. unfold f64. rewrite opp_IZR. unfold Rdiv. ring. Qed.
Lemma lin2_ksi k p : kind_class k = CLin -> ksi_of k lin2 p = match p with 0%nat => [- a2] | 1%nat => [a2] | _ => ksi_of k lin2 p end.
Proof. intros C. destruct p as [|[|p]]; auto; destruct k; try discriminate; unfold ksi_of, pt; cbn; try (change (f64 (-2662558164157085696)) with (f64 (Z.opp 2662558164157085696)); rewrite f64_neg); reflexivity. Qed.
Lemma lin3_ksi k p : kind_class k = CLin -> ksi_of k lin3 p = match p with 0%nat => [- a3] | 1%nat => [0] | 2%nat => [a3] | _ => ksi_of k lin3 p end.
Proof. intros C. destruct p as [|[|[|p]]]; auto; destruct k; try discriminate; unfold ksi_of, pt; cbn; try (change (f64 (-3572196629461372928)) with (f64 (Z.opp 3572196629461372928)); rewrite f64_neg); rewrite ?f64_0; reflexivity. Qed.

(* two points, two nodes *)
Definition l22_p : mat := [[(1 + a2) / 2; (1 - a2) / 2]; [(1 - a2) / 2; (1 + a2) / 2]].
Definition l22_e : mat := [[(1 + / a2) / 2; (1 - / a2) / 2]; [(1 - / a2) / 2; (1 + / a2) / 2]].
Lemma l22_interp : map (fun p => calc_interp Lin2 (ksi_of Lin2 lin2 p)) (seq 0 2) = l22_p.
Proof.
  cbn [seq map]. rewrite !(lin2_ksi Lin2) by reflexivity. unfold l22_p, calc_interp, env. cbn -[Q2R]. generalize a2. intros a.
  f_equal; [|f_equal]; repeat (f_equal; unfold Q2R; cbn [Qnum Qden]; try lra).
Qed.
Lemma l22_inverse : is_inverse 2 l22_p l22_e.
Proof.
  pose proof a2_pos as P. unfold is_inverse, l22_p, l22_e. generalize dependent a2. intros a P. split; [split; [reflexivity|repeat constructor]|].
  intros i j Hi Hj. do 2 (destruct i as [|i]; [do 2 (destruct j as [|j]; [unfold sum_n, ent, delta; cbn [seq map fold_right sum nth Nat.eqb]; split; field; lra|]); lia|]). lia.
Qed.
Lemma lin2_sized k : kind_class k = CLin -> gauss_new_sized (kind_class k) 2 = Ok lin2. Proof. intros ->. reflexivity. Qed.
Lemma lin3_sized k : kind_class k = CLin -> gauss_new_sized (kind_class k) 3 = Ok lin3. Proof. intros ->. reflexivity. Qed.
Lemma l22_run pinv : exists q, get_extrap_matrix (knows l22_p l22_e) pinv (bare Lin2) lin2 = Ok (l22_e, q).
Proof.
  destruct (extrap_eq (knows l22_p l22_e) pinv (bare Lin2) lin2 2 (lin2_sized Lin2 eq_refl)) as (pp & q & E & _ & _ & _ & E1 & _).
  rewrite E1 by reflexivity. rewrite (interp_of_rule Lin2 2 lin2 (lin2_sized Lin2 eq_refl)), l22_interp in E. injection E as <- _. rewrite knows_it. cbn [bind]. eauto.
Qed.

(* three points, two nodes *)
Definition l23_p : mat := [[(1 + a3) / 2; (1 - a3) / 2]; [1 / 2; 1 / 2]; [(1 - a3) / 2; (1 + a3) / 2]].
Definition l23_e : mat := [[1 / 3 + / (2 * a3); 1 / 3; 1 / 3 - / (2 * a3)]; [1 / 3 - / (2 * a3); 1 / 3; 1 / 3 + / (2 * a3)]].
Lemma l23_interp : map (fun p => calc_interp Lin2 (ksi_of Lin2 lin3 p)) (seq 0 3) = l23_p.
Proof.
  cbn [seq map]. rewrite !(lin3_ksi Lin2) by reflexivity. unfold l23_p, calc_interp, env. cbn -[Q2R]. generalize a3. intros a.
  f_equal; [|f_equal; [|f_equal]]; repeat (f_equal; unfold Q2R; cbn [Qnum Qden]; try lra).
Qed.
Lemma l23_pinv : is_pinv 3 2 l23_p l23_e.
Proof.
  pose proof a3_pos as P. unfold is_pinv, l23_p, l23_e. generalize dependent a3. intros a P. split; [split; [reflexivity|repeat constructor]|].
  split; [|split; [|split]]; intros i j Hi Hj;
  do 3 (destruct i as [|i]; [do 3 (destruct j as [|j]; [try lia; unfold prod, sum_n, ent; cbn [seq map fold_right sum nth]; field; lra|]); lia|]); lia.
Qed.
Lemma l23_run inv : exists q, get_extrap_matrix inv (knows l23_p l23_e) (bare Lin2) lin3 = Ok (l23_e, q).
Proof.
  destruct (extrap_eq inv (knows l23_p l23_e) (bare Lin2) lin3 3 (lin3_sized Lin2 eq_refl)) as (pp & q & E & _ & _ & _ & _ & E2 & _).
  rewrite E2 by (left; vm_compute; lia). rewrite (interp_of_rule Lin2 3 lin3 (lin3_sized Lin2 eq_refl)), l23_interp in E. injection E as <- _. rewrite knows_it. cbn [bind]. eauto.
Qed.

(* two points, three nodes *)
Definition l32_p : mat := [[(a2 * a2 + a2) / 2; (a2 * a2 - a2) / 2; 1 - a2 * a2]; [(a2 * a2 - a2) / 2; (a2 * a2 + a2) / 2; 1 - a2 * a2]].
Definition l32_i : mat :=
  let d := a2 * a2 * (a2 * a2) / 2 + (1 - a2 * a2) * (1 - a2 * a2) in
  [[a2 * a2 / 4 / d + / (2 * a2); a2 * a2 / 4 / d - / (2 * a2)]; [a2 * a2 / 4 / d - / (2 * a2); a2 * a2 / 4 / d + / (2 * a2)];
   [(1 - a2 * a2) / 2 / d; (1 - a2 * a2) / 2 / d]].
Lemma l32_interp : map (fun p => calc_interp Lin3 (ksi_of Lin3 lin2 p)) (seq 0 2) = l32_p.
Proof.
  cbn [seq map]. rewrite !(lin2_ksi Lin3) by reflexivity. unfold l32_p, calc_interp, env. cbn -[Q2R]. generalize a2. intros a.
  f_equal; [|f_equal]; repeat (f_equal; unfold Q2R; cbn [Qnum Qden]; try lra).
Qed.
Lemma l32_pinv : is_pinv 2 3 l32_p l32_i.
Proof.
  pose proof a2_pos as P. unfold is_pinv, l32_p, l32_i. generalize dependent a2. intros a P.
  assert (D : a * a * (a * a) + 2 * ((1 - a * a) * (1 - a * a)) <> 0).
  { assert (0 < a * a * (a * a)) by (repeat apply Rmult_lt_0_compat; lra). pose proof (Rle_0_sqr (1 - a * a)) as Q. unfold Rsqr in Q. lra. }
  split; [split; [reflexivity|repeat constructor]|].
  split; [|split; [|split]]; intros i j Hi Hj;
  do 3 (destruct i as [|i]; [do 3 (destruct j as [|j]; [try lia; unfold prod, sum_n, ent; cbn [seq map fold_right sum nth]; field; repeat split; solve [lra | intro; apply D; lra]|]); lia|]); lia.
Qed.
Lemma l32_run inv : exists e q, get_extrap_matrix inv (knows l32_p l32_i) (bare Lin3) lin2 = Ok (e, q) /\ get_interp_matrix (bare Lin3) lin2 = Ok (l32_p, q).
Proof.
  destruct (extrap_eq inv (knows l32_p l32_i) (bare Lin3) lin2 2 (lin2_sized Lin3 eq_refl)) as (pp & q & E & _ & _ & _ & _ & _ & E3).
  destruct (E3 ltac:(vm_compute; lia)) as (tab & step & _ & _ & E4 & _).
  pose proof E as E'. rewrite (interp_of_rule Lin3 2 lin2 (lin2_sized Lin3 eq_refl)), l32_interp in E'. injection E' as <- _. rewrite knows_it in E4. cbn [bind] in E4. eauto.
Qed.
