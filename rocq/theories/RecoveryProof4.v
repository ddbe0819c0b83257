(* Proofs about the recovery functions: the properties *)
From Coq Require Import String Reals List Arith Lia Lra Bool ZArith QArith Qreals.
From Verif Require Import Base BaseFacts Kind ShapesModel ShapesSpec ShapesProof GeomModel PadModel PadSpec PadProof PadProof2 GaussModel GaussSpec GaussProof2 GaussProof3
  TopoModel IntegModel IntegSpec IntegProof IntegProof2 IntegProof5 ConvertProof2 RecoveryData RecoveryModel RecoverySpec RecoveryProof RecoveryRank RecoveryRank2 RecoveryProof2 RecoveryProof3.
Import ListNotations.
Local Open Scope list_scope.
Local Open Scope R_scope.

Lemma affine_nodes k a0 a ksi :
  sum_n (kind_nnode k) (fun m => nth m (calc_interp k ksi) 0 * affine_at (kind_ndim k) a0 a (ref_coords k m)) = affine_at (kind_ndim k) a0 a ksi.
Proof.
  unfold affine_at.
  rewrite (sum_n_ext _ _ (fun m => nth m (calc_interp k ksi) 0 * a0 + nth m (calc_interp k ksi) 0 * sum_n (kind_ndim k) (fun l => nth l (ref_coords k m) 0 * a l))).
  2:{ intros m _. rewrite Rmult_plus_distr_l. f_equal. f_equal. apply sum_n_ext. intros; ring. }
  rewrite sum_n_plus, sum_n_scal_r, interp_one, Rmult_1_l. f_equal.
  rewrite (mul_assoc _ _ (fun m => nth m (calc_interp k ksi) 0) (fun m l => nth l (ref_coords k m) 0) a). apply sum_n_ext. intros l Hl. rewrite interp_coord by auto. ring.
Qed.

Lemma dep_lt kk nn : dependent_rule kk nn = true -> (nn < kind_nnode kk)%nat.
Proof. destruct kk; try discriminate; repeat (match goal with x : nat |- _ => destruct x as [|x] end; try discriminate); intros _; vm_compute; lia. Qed.

Section Extrap.
Variables (mat_inv mat_pinv : mat -> res mat) (pd : pad) (g : gauss) (n : nat).
Notation k := (p_kind pd).
Notation nv := (kind_nnode k).
Hypothesis G : gauss_new_sized (kind_class k) n = Ok g.

Lemma extrap_outcome : exists pp q, get_interp_matrix pd g = Ok (pp, q) /\
  match (if (n =? nv)%nat then mat_inv pp else mat_pinv pp) with
  | Ok _ => exists e, get_extrap_matrix mat_inv mat_pinv pd g = Ok (e, q)
  | Err m => get_extrap_matrix mat_inv mat_pinv pd g = Err m
  | Panic => get_extrap_matrix mat_inv mat_pinv pd g = Panic
  | NoFuel => get_extrap_matrix mat_inv mat_pinv pd g = NoFuel
  end.
Proof.
  destruct (extrap_eq mat_inv mat_pinv pd g n G) as (pp & q & E & S & M & V & E1 & E2 & E3). exists pp, q. split; auto.
  destruct (Nat.eqb_spec n nv) as [H|H].
  - rewrite (E1 H). destruct (mat_inv pp); cbn [bind]; eauto.
  - pose proof (kind_nnode_2 k) as K2. destruct (lt_dec 1 n) as [L1|L1]; [destruct (lt_dec n nv) as [L2|L2]|].
    + destruct (E3 ltac:(lia)) as (tab & step & _ & _ & E4 & _). rewrite E4. destruct (mat_pinv pp); cbn [bind]; eauto.
    + rewrite E2 by lia. destruct (mat_pinv pp); cbn [bind]; eauto.
    + assert (n = 1%nat). { destruct (sized_in _ _ _ G) as [I _]. destruct k; simpl in I; lia. }
      rewrite E2 by lia. destruct (mat_pinv pp); cbn [bind]; eauto.
Qed.
Lemma extrap_total : lib_inverse_total mat_inv -> lib_pinv_total mat_pinv -> exists e q, get_extrap_matrix mat_inv mat_pinv pd g = Ok (e, q).
Proof.
  intros TI TP. destruct (extrap_eq mat_inv mat_pinv pd g n G) as (pp & q & E & S & M & V & _). destruct extrap_outcome as (pp' & q' & E' & O).
  rewrite E in E'. injection E' as <- <-. destruct (Nat.eqb_spec n nv) as [H|H].
  - destruct (TI n pp ltac:(rewrite H in M |- *; exact M)) as (b & B).
    + intros u Z0. assert (D : dependent_rule k n = false) by (rewrite H; destruct k; reflexivity).
      intros i Hi. rewrite H in Hi. revert i Hi. apply (right_rank k n g u G D ltac:(lia)). intros p Hp. specialize (Z0 p Hp). unfold times in Z0. rewrite H in Z0.
      etransitivity; [|exact Z0]. apply sum_n_ext. intros m Hm. rewrite V by auto. reflexivity.
    + rewrite B in O. destruct O as (e & ->). eauto.
  - destruct (TP n nv pp M) as (b & B). rewrite B in O. destruct O as (e & ->). eauto.
Qed.

Hypothesis (LI : lib_inverse mat_inv) (LP : lib_pinv mat_pinv).
Variables (e : mat) (q : pad).
Hypothesis HE : get_extrap_matrix mat_inv mat_pinv pd g = Ok (e, q).

Lemma extrap_cases : exists pp, get_interp_matrix pd g = Ok (pp, q) /\ same_element pd q /\ is_matrix n nv pp /\
  (forall p m, (p < n)%nat -> (m < nv)%nat -> ent pp p m = nth m (calc_interp k (ksi_of k g p)) 0) /\
  ((n = nv /\ is_inverse n pp e) \/ ((nv < n \/ n = 1)%nat /\ is_pinv n nv pp e) \/
   ((1 < n < nv)%nat /\ exists ppi tab, mat_pinv pp = Ok ppi /\ is_pinv n nv pp ppi /\ get_tr_pinv_hxi (kind_class k) n = Ok tab /\ List.length tab = n /\ bottom pd g n tab ppi e)).
Proof.
  destruct (extrap_eq mat_inv mat_pinv pd g n G) as (pp & q' & E & S & M & V & E1 & E2 & E3). pose proof (kind_nnode_2 k) as K2.
  destruct (Nat.eq_dec n nv) as [H|H]; [|destruct (lt_dec 1 n) as [L1|L1]; [destruct (lt_dec n nv) as [L2|L2]|]].
  - rewrite (E1 H) in HE. destruct (mat_inv pp) as [b| | |] eqn:B; try discriminate. cbn [bind] in HE. injection HE as -> ->.
    exists pp. do 4 (split; [assumption|]). left. split; auto. apply LI; auto. rewrite H in M |- *. exact M.
  - destruct (E3 ltac:(lia)) as (tab & step & ET & L & E4 & B). rewrite E4 in HE. destruct (mat_pinv pp) as [b| | |] eqn:BP; try discriminate. cbn [bind] in HE. injection HE as <- ->.
    exists pp. do 4 (split; [assumption|]). right. right. split; [lia|]. exists b, tab. split; auto.
  - rewrite E2 in HE by lia. destruct (mat_pinv pp) as [b| | |] eqn:BP; try discriminate. cbn [bind] in HE. injection HE as -> ->.
    exists pp. do 4 (split; [assumption|]). right. left. split; [lia|]. apply LP; auto.
  - assert (n = 1%nat) by (destruct (sized_in _ _ _ G) as [I _]; destruct k; simpl in I; lia).
    rewrite E2 in HE by lia. destruct (mat_pinv pp) as [b| | |] eqn:BP; try discriminate. cbn [bind] in HE. injection HE as -> ->.
    exists pp. do 4 (split; [assumption|]). right. left. split; [lia|]. apply LP; auto.
Qed.

Lemma extrap_shape : same_element pd q /\ is_matrix nv n e.
Proof.
  destruct extrap_cases as (pp & E & S & M & V & [(H & I & _)|[(H & I & _)|(H & ppi & tab & _ & _ & _ & _ & I & _)]]); split; auto. now rewrite <- H in *.
Qed.
Lemma field_times pp u p : (forall p m, (p < n)%nat -> (m < nv)%nat -> ent pp p m = nth m (calc_interp k (ksi_of k g p)) 0) -> (p < n)%nat ->
  field pd u (ksi_of k g p) = times nv pp u p.
Proof. intros V Hp. unfold field, times. apply sum_n_ext. intros m Hm. now rewrite V. Qed.
Lemma nodes_dep : (nv <= n)%nat -> dependent_rule k n = false.
Proof. intros H. destruct (dependent_rule k n) eqn:D; auto. apply dep_lt in D. lia. Qed.

Lemma extrap_recovers u m : (nv <= n)%nat -> (m < nv)%nat -> times n e (fun p => field pd u (ksi_of k g p)) m = u m.
Proof.
  intros H Hm. pose proof (kind_nnode_2 k) as K2. destruct extrap_cases as (pp & E & S & M & V & C).
  assert (X : times n e (fun p => field pd u (ksi_of k g p)) m = sum_n nv (fun j => prod n (ent e) (ent pp) m j * u j)).
  { unfold times, prod. rewrite (sum_n_ext n _ (fun p => ent e m p * sum_n nv (fun j => ent pp p j * u j))) by (intros p Hp; rewrite (field_times pp u p V Hp); reflexivity).
    apply (mul_assoc n nv (fun p => ent e m p) (fun p j => ent pp p j) u). }
  rewrite X. rewrite (sum_n_ext nv _ (fun j => delta m j * u j)); [now apply sum_n_delta|]. intros j Hj. f_equal.
  destruct C as [(H1 & _ & I)|[(H1 & I)|(H1 & _)]]; [| |lia].
  - rewrite H1 in I at 1. unfold prod. rewrite H1. apply I; auto.
  - apply (pinv_left n nv pp e I); auto. intros u0 Z0. apply (right_rank k n g u0 G (nodes_dep H) H). intros p Hp. etransitivity; [|exact (Z0 p Hp)]. apply sum_n_ext. intros l Hl. now rewrite V.
Qed.

Lemma extrap_least v u : (nv < n)%nat ->
  sum_n n (fun p => (field pd (times n e v) (ksi_of k g p) - v p) ^ 2) <= sum_n n (fun p => (field pd u (ksi_of k g p) - v p) ^ 2).
Proof.
  intros H. destruct extrap_cases as (pp & E & S & M & V & C). destruct C as [(H1 & _)|[(H1 & I)|(H1 & _)]]; [lia| |lia].
  rewrite (sum_n_ext n _ (fun p => (times nv pp (times n e v) p - v p) ^ 2)) by (intros p Hp; now rewrite (field_times pp _ p V Hp)).
  rewrite (sum_n_ext n (fun p => (field pd u (ksi_of k g p) - v p) ^ 2) (fun p => (times nv pp u p - v p) ^ 2)) by (intros p Hp; now rewrite (field_times pp _ p V Hp)).
  now apply pinv_least.
Qed.

Lemma left_full pp ppi : (n <= nv)%nat -> n <> nv -> dependent_rule k n = false -> is_pinv n nv pp ppi ->
  (forall p m, (p < n)%nat -> (m < nv)%nat -> ent pp p m = nth m (calc_interp k (ksi_of k g p)) 0) ->
  forall i j, (i < n)%nat -> (j < n)%nat -> prod nv (ent pp) (ent ppi) i j = delta i j.
Proof.
  intros H N D I V. apply (pinv_right n nv pp ppi I). intros u Z0.
  assert (Z1 : forall m, (m < nv)%nat -> sum_n n (fun p => nth m (calc_interp k (ksi_of k g p)) 0 * u p) = 0).
  { intros m Hm. etransitivity; [|exact (Z0 m Hm)]. apply sum_n_ext. intros p Hp. now rewrite V. }
  destruct (Nat.eq_dec n 1) as [->|N1].
  - destruct (rule_points _ _ _ 0 G) as [Np _]. apply (left_rank1 k g u Np Z1).
  - apply (left_rank k n g u G D N1 ltac:(lia) Z1).
Qed.

Lemma extrap_back v p : (n <= nv)%nat -> dependent_rule k n = false -> (p < n)%nat -> field pd (times n e v) (ksi_of k g p) = v p.
Proof.
  intros H D Hp. pose proof (kind_nnode_2 k) as K2. destruct extrap_cases as (pp & E & S & M & V & C).
  rewrite (field_times pp _ p V Hp). unfold times.
  rewrite (mul_assoc nv n (fun m => ent pp p m) (fun m q0 => ent e m q0) v).
  rewrite (sum_n_ext n _ (fun j => delta p j * v j)); [now apply sum_n_delta|]. intros j Hj. f_equal. fold (prod nv (ent pp) (ent e) p j).
  destruct C as [(H1 & _ & I)|[(H1 & I)|(H1 & ppi & tab & EP & I & ET & L & B)]].
  - unfold prod. rewrite <- H1. apply I; auto.
  - apply left_full; auto. lia.
  - pose proof (left_full pp ppi H ltac:(lia) D I V) as F. destruct B as [_ B]. unfold prod.
    set (b := nth j (map hxi_row tab) []).
    rewrite (sum_n_ext nv _ (fun m => nth m (calc_interp k (ksi_of k g p)) 0 * hx (kind_ndim k) (vat (ref_coords k m)) b + ent pp p m * sum_n n (fun l => ent ppi m l * (delta l j - hx (kind_ndim k) (pt g l) b)))).
    2:{ intros m Hm. rewrite B by auto. rewrite <- V by auto. fold b. ring. }
    rewrite sum_n_plus, interp_hx, hx_pt.
    rewrite (mul_assoc nv n (fun m => ent pp p m) (fun m l => ent ppi m l) (fun l => delta l j - hx (kind_ndim k) (pt g l) b)).
    rewrite (sum_n_ext n _ (fun l => delta p l * (delta l j - hx (kind_ndim k) (pt g l) b))).
    2:{ intros l Hl. f_equal. apply F; auto. }
    rewrite sum_n_delta by auto. ring.
Qed.

Lemma affine_ext a0 a x : a0 + sum_n (kind_ndim k) (fun i => a i * x i) = sum_n (S (kind_ndim k)) (fun l => ext (kind_ndim k) x l * (if (l <? kind_ndim k)%nat then a l else a0)).
Proof.
  rewrite sum_n_S. unfold ext. rewrite !Nat.ltb_irrefl, Rmult_1_l, Rplus_comm. f_equal. apply sum_n_ext. intros i Hi. rewrite (proj2 (Nat.ltb_lt _ _) Hi). ring.
Qed.
Lemma table_affine tab a0 a x : n <> 1%nat -> get_tr_pinv_hxi (kind_class k) n = Ok tab ->
  (forall l, (l < kind_ndim k)%nat -> Rabs (x l) <= 1) ->
  Rabs (sum_n n (fun j => hx (kind_ndim k) x (nth j (map hxi_row tab) []) * affine_at (kind_ndim k) a0 a (ksi_of k g j)) - (a0 + sum_n (kind_ndim k) (fun i => a i * x i)))
    <= 4 * hxi_eps * (Rabs a0 + sum_n (kind_ndim k) (fun i => Rabs (a i))).
Proof.
  intros N ET Bx. destruct (table_near _ _ _ G N) as (tab' & ET' & L & T). rewrite ET in ET'. injection ET' as <-. rewrite class_geo in T.
  set (d := kind_ndim k) in *. set (aa := fun l => if (l <? d)%nat then a l else a0). set (bb := fun j => nth j (map hxi_row tab) []) in *.
  assert (EA : Rabs a0 + sum_n d (fun i => Rabs (a i)) = sum_n (S d) (fun l => Rabs (aa l))).
  { rewrite sum_n_S. unfold aa at 2. rewrite Nat.ltb_irrefl, Rplus_comm. f_equal. apply sum_n_ext. intros i Hi. unfold aa. now rewrite (proj2 (Nat.ltb_lt _ _) Hi). }
  rewrite EA. assert (EX : forall y : nat -> R, a0 + sum_n d (fun i => a i * y i) = sum_n (S d) (fun l => ext d y l * aa l)) by (intros y; exact (affine_ext a0 a y)). rewrite (EX x).
  rewrite (sum_n_ext n _ (fun j => sum_n (S d) (fun c => ext d x c * vat (bb j) c) * sum_n (S d) (fun l => ext d (pt g j) l * aa l))).
  2:{ intros j Hj. unfold bb. rewrite <- hx_ext. f_equal. unfold affine_at. rewrite <- EX. f_equal.
      apply sum_n_ext. intros i Hi. unfold d in Hi. now rewrite ksi_of_nth. }
  assert (SW : sum_n n (fun j => sum_n (S d) (fun c => ext d x c * vat (bb j) c) * sum_n (S d) (fun l => ext d (pt g j) l * aa l)) =
    sum_n (S d) (fun c => ext d x c * sum_n (S d) (fun l => sum_n n (fun j => vat (bb j) c * ext d (pt g j) l) * aa l))).
  { rewrite (sum_n_ext n _ (fun j => sum_n (S d) (fun c => ext d x c * (vat (bb j) c * sum_n (S d) (fun l => ext d (pt g j) l * aa l))))).
    2:{ intros j _. rewrite <- sum_n_scal_r. apply sum_n_ext. intros; ring. }
    rewrite sum_n_swap. apply sum_n_ext. intros c _. rewrite sum_n_scal. f_equal.
    apply (mul_assoc n (S d) (fun j => vat (bb j) c) (fun j l => ext d (pt g j) l) aa). }
  rewrite SW.
  replace (sum_n (S d) (fun c => ext d x c * sum_n (S d) (fun l => sum_n n (fun j => vat (bb j) c * ext d (pt g j) l) * aa l)) - sum_n (S d) (fun l => ext d x l * aa l))
    with (sum_n (S d) (fun c => ext d x c * sum_n (S d) (fun l => (sum_n n (fun j => vat (bb j) c * ext d (pt g j) l) - delta c l) * aa l))).
  2:{ rewrite (sum_n_ext (S d) _ (fun c => ext d x c * sum_n (S d) (fun l => sum_n n (fun j => vat (bb j) c * ext d (pt g j) l) * aa l) + (-1) * (ext d x c * aa c))).
      - rewrite sum_n_plus, sum_n_scal. ring.
      - intros c Hc. rewrite (sum_n_ext (S d) _ (fun l => sum_n n (fun j => vat (bb j) c * ext d (pt g j) l) * aa l + (-1) * (delta c l * aa l))) by (intros; ring).
        rewrite sum_n_plus, sum_n_scal, sum_n_delta by auto. ring. }
  eapply Rle_trans; [apply sum_n_abs|].
  assert (Q : forall c, (c < S d)%nat -> Rabs (ext d x c * sum_n (S d) (fun l => (sum_n n (fun j => vat (bb j) c * ext d (pt g j) l) - delta c l) * aa l)) <= hxi_eps * sum_n (S d) (fun l => Rabs (aa l))).
  { intros c Hc. rewrite Rabs_mult, <- (Rmult_1_l (hxi_eps * _)). apply Rmult_le_compat; auto using Rabs_pos.
    - unfold ext. destruct (Nat.ltb_spec c d); [auto|rewrite Rabs_R1; lra].
    - eapply Rle_trans; [apply sum_n_abs|]. rewrite <- sum_n_scal. apply sum_n_le. intros l Hl. rewrite Rabs_mult. apply Rmult_le_compat_r; auto using Rabs_pos. apply T; lia. }
  eapply Rle_trans; [apply (sum_n_le (S d) _ (fun _ => hxi_eps * sum_n (S d) (fun l => Rabs (aa l)))); exact Q|].
  assert (P0 : 0 <= hxi_eps * sum_n (S d) (fun l => Rabs (aa l))).
  { apply Rmult_le_pos; [unfold hxi_eps; lra|]. apply sum_n_nonneg. intros; apply Rabs_pos. }
  pose proof (kind_ndim_3 k) as D3. fold d in D3. rewrite Rmult_assoc. generalize dependent (hxi_eps * sum_n (S d) (fun l => Rabs (aa l))). intros w _ P0.
  clear - P0 D3. destruct d as [|[|[|[|d]]]]; [| | | |lia]; rewrite ?sum_n_S, ?sum_n_0; lra.
Qed.
Lemma pt_small p l : (p < n)%nat -> Rabs (pt g p l) <= 1 \/ (3 <= l)%nat.
Proof.
  intros Hp. destruct (rule_points _ _ _ p G) as (Np & R & _). destruct (R Hp) as (x & y & z & w & E & _ & I & _).
  destruct (le_lt_dec 3 l) as [|Hl]; [auto|left]. unfold pt. rewrite E. assert (Rabs x <= 1 /\ Rabs y <= 1 /\ Rabs z <= 1).
  { unfold in_ref_cell in I. destruct (kind_class k); repeat split; apply Rabs_le; lra. }
  destruct l as [|[|[|l]]]; cbn [nth]; try tauto. lia.
Qed.
Lemma ref_small_check : forallb (fun m => forallb (fun c => Qle_bool (-1) c && Qle_bool c 1) (reference_coords k m)) (seq 0 nv) = true.
Proof. destruct k; vm_compute; reflexivity. Qed.
Lemma ref_small m l : (m < nv)%nat -> (l < kind_ndim k)%nat -> Rabs (vat (ref_coords k m) l) <= 1.
Proof.
  intros Hm Hl. pose proof (ref_small_check) as C. rewrite forallb_forall in C. specialize (C m ltac:(apply in_seq; lia)). rewrite forallb_forall in C.
  pose proof (ref_coords_length k m Hm) as L. unfold vat, ref_coords in *. rewrite map_length in L. rewrite (nth_map_in Q2R _ l 0%Q) by lia.
  specialize (C (nth l (reference_coords k m) 0%Q) ltac:(apply nth_In; lia)). apply andb_true_iff in C as [C1 C2].
  apply Qle_bool_iff, Qle_Rle in C1. apply Qle_bool_iff, Qle_Rle in C2. apply Rabs_le. unfold Q2R in *. simpl in *. lra.
Qed.

Lemma extrap_affine pp ppi a0 a m : (1 < n < nv)%nat -> (m < nv)%nat -> get_interp_matrix pd g = Ok (pp, q) -> mat_pinv pp = Ok ppi ->
  Rabs (times n e (fun p => affine_at (kind_ndim k) a0 a (ksi_of k g p)) m - affine_at (kind_ndim k) a0 a (ref_coords k m))
    <= 4 * hxi_eps * (1 + sum_n n (fun l => Rabs (ent ppi m l))) * (Rabs a0 + sum_n (kind_ndim k) (fun i => Rabs (a i))).
Proof.
  intros H Hm EI EP. destruct extrap_cases as (pp' & E & S & M & V & C). rewrite EI in E. injection E as <-.
  destruct C as [(H1 & _)|[(H1 & _)|(H1 & ppi' & tab & EP' & I & ET & L & B)]]; [lia|lia|]. rewrite EP in EP'. injection EP' as <-. destruct B as [_ B].
  set (v := fun p => affine_at (kind_ndim k) a0 a (ksi_of k g p)). set (A := Rabs a0 + sum_n (kind_ndim k) (fun i => Rabs (a i))).
  set (w := fun x => sum_n n (fun j => hx (kind_ndim k) x (nth j (map hxi_row tab) []) * v j)).
  assert (W : forall x, (forall l, (l < kind_ndim k)%nat -> Rabs (x l) <= 1) -> Rabs (w x - (a0 + sum_n (kind_ndim k) (fun i => a i * x i))) <= 4 * hxi_eps * A).
  { intros x Bx. apply table_affine; auto. lia. }
  assert (EW : times n e v m = w (vat (ref_coords k m)) + sum_n n (fun l => ent ppi m l * (v l - w (pt g l)))).
  { unfold times. rewrite (sum_n_ext n _ (fun j => hx (kind_ndim k) (vat (ref_coords k m)) (nth j (map hxi_row tab) []) * v j + sum_n n (fun l => ent ppi m l * (delta l j - hx (kind_ndim k) (pt g l) (nth j (map hxi_row tab) []))) * v j)).
    2:{ intros j Hj. rewrite B by auto. ring. }
    rewrite sum_n_plus. f_equal. rewrite <- (mul_assoc n n (fun l => ent ppi m l) (fun l j => delta l j - hx (kind_ndim k) (pt g l) (nth j (map hxi_row tab) [])) v).
    apply sum_n_ext. intros l Hl. f_equal. rewrite (sum_n_ext n _ (fun j => delta l j * v j + (-1) * (hx (kind_ndim k) (pt g l) (nth j (map hxi_row tab) []) * v j))) by (intros; ring).
    rewrite sum_n_plus, sum_n_delta, sum_n_scal by auto. unfold w. ring. }
  rewrite EW. unfold affine_at at 1. rewrite Rplus_comm. unfold Rminus at 1. rewrite Rplus_assoc.
  eapply Rle_trans; [apply Rabs_triang|].
  replace (4 * hxi_eps * (1 + sum_n n (fun l => Rabs (ent ppi m l))) * A) with (sum_n n (fun l => Rabs (ent ppi m l)) * (4 * hxi_eps * A) + 4 * hxi_eps * A) by ring.
  apply Rplus_le_compat.
  - eapply Rle_trans; [apply sum_n_abs|]. rewrite <- sum_n_scal_r. apply sum_n_le. intros l Hl. rewrite Rabs_mult. apply Rmult_le_compat_l; auto using Rabs_pos.
    rewrite <- Rabs_Ropp, Ropp_minus_distr. unfold v, affine_at.
    rewrite (sum_n_ext (kind_ndim k) (fun i => a i * nth i (ksi_of k g l) 0) (fun i => a i * pt g l i)) by (intros i Hi; now rewrite ksi_of_nth).
    apply W. intros i Hi. destruct (pt_small l i Hl); auto. pose proof (kind_ndim_3 k). lia.
  - apply (W (vat (ref_coords k m))). intros l Hl. now apply ref_small.
Qed.
Lemma extrap_affine_exact a0 a m : (nv <= n)%nat -> (m < nv)%nat ->
  times n e (fun p => affine_at (kind_ndim k) a0 a (ksi_of k g p)) m = affine_at (kind_ndim k) a0 a (ref_coords k m).
Proof.
  intros H Hm. rewrite <- (extrap_recovers (fun m => affine_at (kind_ndim k) a0 a (ref_coords k m)) m H Hm). unfold times.
  apply sum_n_ext. intros p Hp. f_equal. unfold field. now rewrite affine_nodes.
Qed.
Lemma extrap_single m : n = 1%nat -> (m < nv)%nat ->
  ent e m 0 * sum_n nv (fun j => nth j (calc_interp k (ksi_of k g 0)) 0 ^ 2) = nth m (calc_interp k (ksi_of k g 0)) 0.
Proof.
  intros H Hm. pose proof (kind_nnode_2 k) as K2. destruct extrap_cases as (pp & E & S & M & V & C).
  destruct C as [(H1 & _)|[(H1 & I)|(H1 & _)]]; [lia| |lia].
  assert (D : dependent_rule k n = false) by (rewrite H; destruct k; reflexivity).
  pose proof (left_full pp e ltac:(lia) ltac:(lia) D I V 0%nat 0%nat ltac:(lia) ltac:(lia)) as F. unfold prod, delta in F. simpl in F.
  rewrite <- (V 0%nat m) by lia. destruct I as (_ & _ & _ & _ & P4).
  rewrite <- sum_n_scal. rewrite (sum_n_ext nv _ (fun j => ent pp 0%nat m * (ent pp 0%nat j * ent e j 0%nat))).
  - rewrite sum_n_scal, F. ring.
  - intros j Hj. specialize (P4 m j Hm Hj). unfold prod in P4. rewrite H in P4. unfold sum_n in P4. simpl in P4.
    rewrite <- (V 0%nat j) by lia. replace (ent e m 0 * ent pp 0 j ^ 2) with ((ent e m 0 * ent pp 0 j + 0) * ent pp 0 j) by ring. rewrite P4. ring.
Qed.
End Extrap.
