(* C71, C72: from nodes to integration points and back. *)
From Coq Require Import Reals List Arith Bool Lia Lra.
From Verif Require Import Base Kind ShapesModel ShapesSpec GeomModel PadModel PadSpec PadProof PadProof2 GaussModel GaussSpec GaussProof2 GaussProof3
  IntegModel IntegSpec RecoveryModel RecoverySpec RecoveryProof RecoveryProof3 RecoveryProof4 RecoveryProof5 RecoveryProof6.
Import ListNotations.
Local Open Scope list_scope.
Local Open Scope R_scope.

(** ** C71 *)
(** get_points_coords: one row per point, the images of the reference coordinates under the isoparametric map *)
Theorem C71_points : forall pd g, pad_wf pd -> p_ok pd = true ->
  exists xs q, get_points_coords pd g = Ok (xs, q) /\ same_element pd q /\ List.length xs = npoint g /\
    forall p, (p < npoint g)%nat -> List.length (nth p xs []) = p_space pd /\
      forall i, (i < p_space pd)%nat -> nth i (nth p xs []) 0 = pos pd (ksi_of (p_kind pd) g p) i.
Proof. exact points_coords_ok. Qed.
Print Assumptions C71_points.
Definition seg_pad : pad := mkPad Lin2 2 [] [] [] [] [] [[1; 4]; [1; 5]] true.
Lemma seg_wf : pad_wf seg_pad.
Proof. split; [now left|]. split; [vm_compute; lia|]. split; [reflexivity|]. repeat constructor. Qed.
Example C71_points_ex : pad_wf seg_pad /\ p_ok seg_pad = true /\ npoint lin3 = 3%nat /\ pos seg_pad (ksi_of Lin2 lin3 1) 0 = 5 / 2.
Proof.
  split; [exact seg_wf|]. split; [reflexivity|]. split; [reflexivity|]. rewrite (lin3_ksi Lin2) by reflexivity.
  unfold pos, sum_n, node_x, calc_interp, env. cbn -[Q2R]. unfold Q2R. cbn [QArith_base.Qnum QArith_base.Qden]. lra.
Qed.

(** and an error before the coordinates of the nodes are set *)
Theorem C71_unset : forall pd g, p_ok pd = false -> (0 < npoint g)%nat -> exists msg, get_points_coords pd g = Err msg.
Proof. exact points_coords_err. Qed.
Print Assumptions C71_unset.
Example C71_unset_ex : p_ok (bare Lin2) = false /\ (0 < npoint lin3)%nat.
Proof. split; [reflexivity|]. vm_compute. lia. Qed.

(** get_interp_matrix: always succeeds; row p holds the interpolation functions at point p and adds up to one *)
Theorem C71_matrix : forall pd g, exists pp q, get_interp_matrix pd g = Ok (pp, q) /\ same_element pd q /\
  is_matrix (npoint g) (kind_nnode (p_kind pd)) pp /\
  forall p, (p < npoint g)%nat ->
    (forall m, (m < kind_nnode (p_kind pd))%nat -> ent pp p m = nth m (calc_interp (p_kind pd) (ksi_of (p_kind pd) g p)) 0) /\
    sum_n (kind_nnode (p_kind pd)) (ent pp p) = 1.
Proof.
  intros pd g. destruct (interp_matrix_ok pd g) as (pp & q & E & S & M & V). exists pp, q. split; auto. split; auto. split; auto.
  intros p Hp. split; auto. rewrite <- (interp_one (p_kind pd) (ksi_of (p_kind pd) g p)). apply sum_n_ext. auto.
Qed.
Print Assumptions C71_matrix.
Example C71_matrix_ex : exists q, get_interp_matrix (bare Lin3) lin2 = Ok (l32_p, q).
Proof. destruct (l32_run nothing) as (e & q & _ & E). eauto. Qed.

(** the matrix carries nodal values to the values of the field at the points: of the coordinates to the coordinates
    of the points, of an affine function of the coordinates to its values there *)
Theorem C71_values : forall pd g pp q u p, get_interp_matrix pd g = Ok (pp, q) -> (p < npoint g)%nat ->
  times (kind_nnode (p_kind pd)) pp u p = field pd u (ksi_of (p_kind pd) g p).
Proof.
  intros pd g pp q u p E Hp. destruct (interp_matrix_ok pd g) as (pp' & q' & E' & _ & _ & V). rewrite E in E'. injection E' as <- <-.
  unfold times, field. apply sum_n_ext. intros m Hm. now rewrite V.
Qed.
Print Assumptions C71_values.
Theorem C71_affine : forall pd g pp q xs q' a0 a p, pad_wf pd -> get_interp_matrix pd g = Ok (pp, q) -> get_points_coords pd g = Ok (xs, q') -> (p < npoint g)%nat ->
  times (kind_nnode (p_kind pd)) pp (fun m => a0 + sum_n (p_space pd) (fun i => a i * node_x pd i m)) p = a0 + sum_n (p_space pd) (fun i => a i * nth i (nth p xs []) 0).
Proof.
  intros pd g pp q xs q' a0 a p W E X Hp. destruct (p_ok pd) eqn:OK.
  2:{ destruct (points_coords_err pd g OK ltac:(lia)) as (msg & H). congruence. }
  destruct (points_coords_ok pd g W OK) as (xs' & q1 & X' & _ & _ & P). rewrite X in X'. injection X' as <- <-. destruct (P p Hp) as [_ P']. clear P.
  rewrite (C71_values pd g pp q _ p E Hp). unfold field.
  rewrite (sum_n_ext _ _ (fun m => nth m (calc_interp (p_kind pd) (ksi_of (p_kind pd) g p)) 0 * a0 + nth m (calc_interp (p_kind pd) (ksi_of (p_kind pd) g p)) 0 * sum_n (p_space pd) (fun i => node_x pd i m * a i))).
  2:{ intros m _. rewrite Rmult_plus_distr_l. f_equal. f_equal. apply sum_n_ext. intros; ring. }
  rewrite sum_n_plus, sum_n_scal_r, interp_one, Rmult_1_l. f_equal.
  rewrite (mul_assoc _ _ (fun m => nth m (calc_interp (p_kind pd) (ksi_of (p_kind pd) g p)) 0) (fun m i => node_x pd i m) a). apply sum_n_ext. intros i Hi. rewrite P' by auto. unfold pos. ring.
Qed.
Print Assumptions C71_affine.
Example C71_values_ex : exists pp q, get_interp_matrix seg_pad lin3 = Ok (pp, q) /\ (2 < npoint lin3)%nat.
Proof. destruct (C71_matrix seg_pad lin3) as (pp & q & E & _). exists pp, q. split; [exact E|vm_compute; lia]. Qed.
Example C71_affine_ex : exists xs q', get_points_coords seg_pad lin3 = Ok (xs, q').
Proof. destruct (C71_points seg_pad lin3 seg_wf eq_refl) as (xs & q & E & _). eauto. Qed.

(** ** C72 *)
Local Notation k pd := (p_kind pd).
Local Notation nv pd := (kind_nnode (p_kind pd)).

(** get_extrap_matrix with a rule of the class of the element: the outcome is that of the library call; the
    tables have an entry for every rule (no panic) *)
Theorem C72_outcome : forall mat_inv mat_pinv pd g n, gauss_new_sized (kind_class (k pd)) n = Ok g ->
  exists pp q, get_interp_matrix pd g = Ok (pp, q) /\
  match (if (n =? nv pd)%nat then mat_inv pp else mat_pinv pp) with
  | Ok _ => exists e, get_extrap_matrix mat_inv mat_pinv pd g = Ok (e, q)
  | Err m => get_extrap_matrix mat_inv mat_pinv pd g = Err m
  | Panic => get_extrap_matrix mat_inv mat_pinv pd g = Panic
  | NoFuel => get_extrap_matrix mat_inv mat_pinv pd g = NoFuel
  end.
Proof. exact extrap_outcome. Qed.
Print Assumptions C72_outcome.
Example C72_outcome_ex : gauss_new_sized (kind_class Lin3) 2 = Ok lin2 /\ knows l32_p l32_i l32_p = Ok l32_i.
Proof. split; [reflexivity|apply knows_it]. Qed.

(** with as many points as nodes, the matrix given to mat_inverse is never singular *)
Theorem C72_total : forall mat_inv mat_pinv pd g n, gauss_new_sized (kind_class (k pd)) n = Ok g ->
  lib_inverse_total mat_inv -> lib_pinv_total mat_pinv -> exists e q, get_extrap_matrix mat_inv mat_pinv pd g = Ok (e, q).
Proof. exact extrap_total. Qed.
Print Assumptions C72_total.
Example C72_total_ex : exists g, gauss_new_sized (kind_class Hex20) 27 = Ok g /\ lib_inverse_total (fun a => Ok a) /\ lib_pinv_total (fun a => Ok a).
Proof. eexists. split; [reflexivity|]. split; [intros n a _ _; eauto|intros n m a _; eauto]. Qed.

(** one row per node, one column per point *)
Theorem C72_shape : forall mat_inv mat_pinv pd g n, gauss_new_sized (kind_class (k pd)) n = Ok g -> lib_inverse mat_inv -> lib_pinv mat_pinv ->
  forall e q, get_extrap_matrix mat_inv mat_pinv pd g = Ok (e, q) -> same_element pd q /\ is_matrix (nv pd) n e.
Proof. exact extrap_shape. Qed.
Print Assumptions C72_shape.
Example C72_shape_ex : exists e q, lib_inverse nothing /\ lib_pinv (knows l32_p l32_i) /\ get_extrap_matrix nothing (knows l32_p l32_i) (bare Lin3) lin2 = Ok (e, q).
Proof.
  destruct (l32_run nothing) as (e & q & E & _). exists e, q. split; [exact nothing_inverse|]. split; auto. apply (knows_pinv 2 3); [lia| |exact l32_pinv].
  unfold l32_p. split; [reflexivity|repeat constructor].
Qed.

(** with at least as many points as nodes, sampling a field at the points and extrapolating returns its nodal values *)
Theorem C72_recovers : forall mat_inv mat_pinv pd g n, gauss_new_sized (kind_class (k pd)) n = Ok g -> lib_inverse mat_inv -> lib_pinv mat_pinv ->
  forall e q, get_extrap_matrix mat_inv mat_pinv pd g = Ok (e, q) ->
  forall u m, (nv pd <= n)%nat -> (m < nv pd)%nat -> times n e (fun p => field pd u (ksi_of (k pd) g p)) m = u m.
Proof. exact extrap_recovers. Qed.
Print Assumptions C72_recovers.
Example C72_recovers_ex : exists e q, lib_inverse (knows l22_p l22_e) /\ lib_pinv nothing /\ get_extrap_matrix (knows l22_p l22_e) nothing (bare Lin2) lin2 = Ok (e, q).
Proof.
  destruct (l22_run nothing) as (q & E). exists l22_e, q. split; [|split; auto using nothing_pinv].
  apply (knows_inverse 2); [lia| |exact l22_inverse]. unfold l22_p. split; [reflexivity|repeat constructor].
Qed.

(** with more points than nodes, the result fits the values at the points best, in the sense of least squares *)
Theorem C72_least_squares : forall mat_inv mat_pinv pd g n, gauss_new_sized (kind_class (k pd)) n = Ok g -> lib_inverse mat_inv -> lib_pinv mat_pinv ->
  forall e q, get_extrap_matrix mat_inv mat_pinv pd g = Ok (e, q) ->
  forall v u, (nv pd < n)%nat ->
  sum_n n (fun p => (field pd (times n e v) (ksi_of (k pd) g p) - v p) ^ 2) <= sum_n n (fun p => (field pd u (ksi_of (k pd) g p) - v p) ^ 2).
Proof. exact extrap_least. Qed.
Print Assumptions C72_least_squares.
Example C72_least_squares_ex : exists e q, lib_inverse nothing /\ lib_pinv (knows l23_p l23_e) /\ get_extrap_matrix nothing (knows l23_p l23_e) (bare Lin2) lin3 = Ok (e, q).
Proof.
  destruct (l23_run nothing) as (q & E). exists l23_e, q. split; [exact nothing_inverse|]. split; auto. apply (knows_pinv 3 2); [lia| |exact l23_pinv].
  unfold l23_p. split; [reflexivity|repeat constructor].
Qed.

(** with at most as many points as nodes, the extrapolated field takes the given values at the points; five rules
    of small rank excepted *)
Theorem C72_back : forall mat_inv mat_pinv pd g n, gauss_new_sized (kind_class (k pd)) n = Ok g -> lib_inverse mat_inv -> lib_pinv mat_pinv ->
  forall e q, get_extrap_matrix mat_inv mat_pinv pd g = Ok (e, q) ->
  forall v p, (n <= nv pd)%nat -> dependent_rule (k pd) n = false -> (p < n)%nat -> field pd (times n e v) (ksi_of (k pd) g p) = v p.
Proof. exact extrap_back. Qed.
Print Assumptions C72_back.
Example C72_back_ex : exists e q, lib_inverse nothing /\ lib_pinv (knows l32_p l32_i) /\ get_extrap_matrix nothing (knows l32_p l32_i) (bare Lin3) lin2 = Ok (e, q) /\
  (2 <= kind_nnode Lin3)%nat /\ dependent_rule Lin3 2 = false.
Proof. destruct C72_shape_ex as (e & q & A & B & C). exists e, q. split; [exact A|]. split; [exact B|]. split; [exact C|]. split; [vm_compute; lia|reflexivity]. Qed.

(** the exception is genuine for four of them, the default rule of Qua17 among them: some values at the points are
    not those of any field *)
Theorem C72_back_refuted : forall kd n g pd, In (kd, n) [(Qua12, 9); (Qua17, 16); (Hex8, 6); (Hex32, 27)]%nat -> p_kind pd = kd ->
  gauss_new_sized (kind_class kd) n = Ok g ->
  exists v : nat -> R, forall u, ~ (forall p, (p < n)%nat -> field pd u (ksi_of kd g p) = v p).
Proof. exact dependent_values. Qed.
Print Assumptions C72_back_refuted.
Example C72_back_refuted_ex : gauss_new_sized (kind_class Qua17) 16 = Ok (gauss_new Qua17).
Proof. exact (default_sized Qua17). Qed.

(** affine fields are recovered: exactly with at least as many points as nodes *)
Theorem C72_affine_exact : forall mat_inv mat_pinv pd g n, gauss_new_sized (kind_class (k pd)) n = Ok g -> lib_inverse mat_inv -> lib_pinv mat_pinv ->
  forall e q, get_extrap_matrix mat_inv mat_pinv pd g = Ok (e, q) ->
  forall a0 a m, (nv pd <= n)%nat -> (m < nv pd)%nat ->
  times n e (fun p => affine_at (kind_ndim (k pd)) a0 a (ksi_of (k pd) g p)) m = affine_at (kind_ndim (k pd)) a0 a (ref_coords (k pd) m).
Proof. exact extrap_affine_exact. Qed.
Print Assumptions C72_affine_exact.
Example C72_affine_exact_ex : (kind_nnode Lin2 <= 2)%nat /\ exists e q, get_extrap_matrix (knows l22_p l22_e) nothing (bare Lin2) lin2 = Ok (e, q).
Proof. split; [vm_compute; lia|]. destruct (l22_run nothing) as (q & E). eauto. Qed.
(** and otherwise (with two or more points) up to the error of the tables *)
Theorem C72_affine : forall mat_inv mat_pinv pd g n, gauss_new_sized (kind_class (k pd)) n = Ok g -> lib_inverse mat_inv -> lib_pinv mat_pinv ->
  forall e q, get_extrap_matrix mat_inv mat_pinv pd g = Ok (e, q) ->
  forall pp ppi a0 a m, (1 < n < nv pd)%nat -> (m < nv pd)%nat -> get_interp_matrix pd g = Ok (pp, q) -> mat_pinv pp = Ok ppi ->
  Rabs (times n e (fun p => affine_at (kind_ndim (k pd)) a0 a (ksi_of (k pd) g p)) m - affine_at (kind_ndim (k pd)) a0 a (ref_coords (k pd) m))
    <= 4 * hxi_eps * (1 + sum_n n (fun l => Rabs (ent ppi m l))) * (Rabs a0 + sum_n (kind_ndim (k pd)) (fun i => Rabs (a i))).
Proof. exact extrap_affine. Qed.
Print Assumptions C72_affine.
Example C72_affine_ex : (1 < 2 < kind_nnode Lin3)%nat /\ exists e q, get_extrap_matrix nothing (knows l32_p l32_i) (bare Lin3) lin2 = Ok (e, q) /\ get_interp_matrix (bare Lin3) lin2 = Ok (l32_p, q) /\ knows l32_p l32_i l32_p = Ok l32_i.
Proof. split; [vm_compute; lia|]. destruct (l32_run nothing) as (e & q & A & B). exists e, q. repeat split; auto. apply knows_it. Qed.

(** with a single point the value is distributed in proportion to the interpolation functions *)
Theorem C72_single : forall mat_inv mat_pinv pd g n, gauss_new_sized (kind_class (k pd)) n = Ok g -> lib_inverse mat_inv -> lib_pinv mat_pinv ->
  forall e q, get_extrap_matrix mat_inv mat_pinv pd g = Ok (e, q) ->
  forall m, n = 1%nat -> (m < nv pd)%nat ->
  ent e m 0 * sum_n (nv pd) (fun j => nth j (calc_interp (k pd) (ksi_of (k pd) g 0)) 0 ^ 2) = nth m (calc_interp (k pd) (ksi_of (k pd) g 0)) 0.
Proof. exact extrap_single. Qed.
Print Assumptions C72_single.
Example C72_single_ex : exists e q, lib_inverse nothing /\ lib_pinv (knows qua1_p qua1_e) /\ get_extrap_matrix nothing (knows qua1_p qua1_e) (bare Qua8) qua1 = Ok (e, q).
Proof.
  destruct (qua1_run nothing) as (q & E). exists qua1_e, q. split; [exact nothing_inverse|]. split; auto. apply (knows_pinv 1 8); [lia| |exact qua1_pinv].
  unfold qua1_p. split; [reflexivity|repeat constructor].
Qed.
(** so that a constant is not recovered: with one point, a constant positive field on a Qua8 becomes negative at the corners *)
Theorem C72_constant_refuted : exists mat_inv mat_pinv pd g e q,
  lib_inverse mat_inv /\ lib_pinv mat_pinv /\ p_kind pd = Qua8 /\ gauss_new_sized (kind_class Qua8) 1 = Ok g /\
  get_extrap_matrix mat_inv mat_pinv pd g = Ok (e, q) /\
  forall m, (m < 4)%nat -> times 1 e (fun _ => 1) m = - / 5.
Proof.
  destruct C72_single_ex as (e & q & A & B & C). exists nothing, (knows qua1_p qua1_e), (bare Qua8), qua1, e, q.
  destruct (qua1_run nothing) as (q' & E). rewrite C in E. injection E as -> _. repeat (split; [auto; fail|]).
  intros m Hm. do 4 (destruct m as [|m]; [unfold times, sum_n, ent, qua1_e; cbn [seq map fold_right sum nth]; lra|]). lia.
Qed.
Print Assumptions C72_constant_refuted.
