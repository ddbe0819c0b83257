(* Balances over a whole mesh *)
From Coquelicot Require Import Coquelicot.
From Coq Require Import String Reals List Lia Lra Bool Arith ZArith.
From Verif Require Import Base BaseFacts Kind MeshModel MeshQuerySpec TopoProof ShapesModel ShapesSpec PadModel PadSpec PadProof PadProof4 GaussModel GaussSpec IntegModel IntegSpec
  IntegProof IntegProof2 IntegProof3 IntegProof6 IntegProof7 IntegProof10 BalanceSpec BalanceProof BalanceProof2 PatchSpec PatchProof3 PatchProof4 UniqueSpec UniqueProof UniqueProof4 MassProof ConserveSpec.
Import ListNotations.
Local Open Scope list_scope.
Local Open Scope R_scope.

(* a sum over the points is a sum over the cells and their nodes *)
Lemma assembled np (l : list cell) (F : nat -> R) (V : cell -> nat -> R) : (forall c, In c l -> forall p, In p (c_points c) -> (p < np)%nat) ->
  sum_n np (fun P => F P * sum_over (fun c => at_point (c_points c) P (V c)) l) = sum_over (fun c => sum_n (List.length (c_points c)) (fun a => F (nth a (c_points c) 0%nat) * V c a)) l.
Proof.
  intros B. rewrite (sum_over_ext _ (fun c => sum_n np (fun P => F P * at_point (c_points c) P (V c)))) by (intros c Hc; symmetry; apply at_point_all, B, Hc).
  rewrite sum_over_sum. apply sum_n_ext. intros P _. symmetry. apply sum_over_scal.
Qed.

Section Mesh.
Variable m : mesh R.
Hypothesis C : consistent m.
Notation np := (List.length (points m)).
Notation nd := (MeshModel.ndim m).
Notation cs := (of_dim (MeshModel.ndim m) m).
Lemma cell_below c : In c cs -> List.length (c_points c) = kind_nnode (c_kind c) /\ forall p, In p (c_points c) -> (p < np)%nat.
Proof. intros Hc. apply filter_In in Hc as (Ic & _). destruct (proj2 C _ _ (cell_by_id m c C Ic)) as (_ & L & B). auto. Qed.

Section Forces.
Hypothesis K : coords_complete m.
Hypothesis D : (nd = 2 \/ nd = 3)%nat.
Lemma cell_element c p : In c cs -> get_pad m (c_id c) = Ok p -> pad_wf p /\ p_space p = nd /\ kind_nnode (p_kind p) = List.length (c_points c) /\
  forall a i, (a < List.length (c_points c))%nat -> (i < nd)%nat -> node_x p i a = xcoord m (nth a (c_points c) 0%nat) i.
Proof.
  intros Hc E. destruct (cell_below c Hc) as (L & B). apply filter_In in Hc as (Ic & Ek). apply Nat.eqb_eq in Ek.
  destruct (get_pad_ok m (c_id c) c C K D (cell_by_id m c C Ic) ltac:(lia)) as (p' & E' & El & _). assert (p' = p) by congruence. subst p'.
  pose proof El as (W & Kp & S & _). split; auto. split; auto. split; [congruence|]. intros a i Ha Hi. exact (element_x m c p a i El Ha B Hi).
Qed.
Lemma internal_balanced zdet A t t' : 0 <= zdet -> (forall c, In c cs -> let k := c_id c in strained zdet m c (A k) (t k) (t' k)) -> balanced m (internal_force m A t t').
Proof.
  intros Hz St i j Hi Hj.
  assert (F : forall c, In c cs -> let v := fun i a => vec_added (A (c_id c)) (t (c_id c)) (t' (c_id c)) (i + a * nd) in let x := fun i a => xcoord m (nth a (c_points c) 0%nat) i in
    sum_n (List.length (c_points c)) (v i) = 0 /\ sum_n (List.length (c_points c)) (fun a => x i a * v j a) - sum_n (List.length (c_points c)) (fun a => x j a * v i a) = 0).
  { intros c Hc v x. destruct (St c Hc) as (fn & q & E & Ax & H). destruct (cell_element c _ Hc E) as (W & S & L & X).
    destruct (forces_balance zdet _ _ fn _ q Hz W Ax H) as (Fb & Mb). unfold a_nnode in *. rewrite S, L in *. split; [exact (Fb i Hi)|].
    rewrite <- (Mb i j Hi Hj). rewrite (sum_n_ext _ (fun m0 => _ - _) (fun a => x i a * v j a + -1 * (x j a * v i a))); [rewrite sum_n_plus, sum_n_scal; ring|].
    intros a Ha. unfold x, v. rewrite !X by auto. ring. }
  split.
  - unfold resultant, internal_force. rewrite (sum_n_ext _ _ (fun P => 1 * sum_over (fun c => at_point (c_points c) P (fun a => vec_added (A (c_id c)) (t (c_id c)) (t' (c_id c)) (i + a * nd))) cs)) by (intros; ring).
    rewrite assembled by (intros c Hc; apply (cell_below c Hc)). apply sum_over_zero. intros c Hc. destruct (F c Hc) as (Fb & _). rewrite <- Fb. apply sum_n_ext. intros. ring.
  - unfold moment, internal_force. rewrite (sum_n_ext _ _ (fun P => xcoord m P i * sum_over (fun c => at_point (c_points c) P (fun a => vec_added (A (c_id c)) (t (c_id c)) (t' (c_id c)) (j + a * nd))) cs +
      -1 * (xcoord m P j * sum_over (fun c => at_point (c_points c) P (fun a => vec_added (A (c_id c)) (t (c_id c)) (t' (c_id c)) (i + a * nd))) cs))) by (intros; ring).
    rewrite sum_n_plus, sum_n_scal, !assembled by (intros c Hc; apply (cell_below c Hc)). rewrite <- sum_over_scal, <- sum_over_plus. apply sum_over_zero. intros c Hc.
    destruct (F c Hc) as (_ & Mb). cbv zeta in Mb. lra.
Qed.

(* nodal forces of stiffness matrices: no work on rigid motions *)
Definition motion (c0 : nat -> R) (w : nat -> nat -> R) (P i : nat) : R := c0 i + sum_n nd (fun l => w i l * xcoord m P l).
Lemma rigid_work zdet A kk kk' u c0 w : 0 <= zdet -> (forall c, In c cs -> let k := c_id c in springy zdet m c (A k) (kk k) (kk' k)) -> (forall k l, w k l = - w l k) ->
  sum_n nd (fun i => sum_n np (fun P => motion c0 w P i * nodal_force m A kk kk' u P i)) = 0.
Proof.
  intros Hz St Sw. unfold nodal_force.
  rewrite (sum_n_ext _ _ (fun i => sum_over (fun c => sum_n (List.length (c_points c)) (fun a => motion c0 w (nth a (c_points c) 0%nat) i *
    stiffness_times (A (c_id c)) (kk (c_id c)) (kk' (c_id c)) (c_points c) u a i)) cs)).
  2:{ intros i Hi. apply (assembled np cs (fun P => motion c0 w P i) (fun c a => stiffness_times (A (c_id c)) (kk (c_id c)) (kk' (c_id c)) (c_points c) u a i)). intros c Hc. apply (cell_below c Hc). }
  rewrite <- sum_over_sum. apply sum_over_zero. intros c Hc. destruct (St c Hc) as (nr & nc & fn & q & E & Ax & M & Sd & H).
  destruct (cell_element c _ Hc E) as (W & S & L & X). set (AA := A (c_id c)) in *. set (KK := mat_added AA (kk (c_id c)) (kk' (c_id c))).
  assert (Off : a_axi AA = true -> forall p, (p < npoint (a_gauss AA))%nat -> r_of AA p <> 0) by (rewrite Ax; discriminate).
  pose proof (mat_10_symmetric zdet AA Hz W Off nr nc _ fn _ q M H Sd) as Sy. fold KK in Sy.
  pose proof (mat_10_rigid zdet AA Hz W Off nr nc _ fn _ q c0 w M H Sw ltac:(rewrite Ax; discriminate)) as Rg. fold KK in Rg.
  unfold a_nnode in *. rewrite S, L in *.
  rewrite sum_n_swap. rewrite (sum_n_ext _ _ (fun a => sum_n nd (fun i => sum_n (List.length (c_points c)) (fun b => sum_n nd (fun j =>
    KK (j + b * nd)%nat (i + a * nd)%nat * rigid AA c0 w a i * u (nth b (c_points c) 0%nat) j))))).
  - rewrite (sum_n_ext _ _ (fun a => sum_n (List.length (c_points c)) (fun b => sum_n nd (fun j => sum_n nd (fun i => KK (j + b * nd)%nat (i + a * nd)%nat * rigid AA c0 w a i) * u (nth b (c_points c) 0%nat) j)))).
    + rewrite sum_n_swap. apply sum_n_zero. intros b Hb. rewrite sum_n_swap. apply sum_n_zero. intros j Hj. rewrite sum_n_scal_r. rewrite Rg; [ring|]. nia.
    + intros a Ha. rewrite sum_n_swap. apply sum_n_ext. intros b Hb. rewrite sum_n_swap. apply sum_n_ext. intros j Hj. apply sum_n_scal_r.
  - intros a Ha. apply sum_n_ext. intros i Hi. unfold stiffness_times. rewrite S. unfold a_nnode. rewrite L. rewrite <- sum_n_scal. apply sum_n_ext. intros b Hb. rewrite <- sum_n_scal.
    apply sum_n_ext. intros j Hj. rewrite (Sy (j + b * nd)%nat (i + a * nd)%nat) by nia. unfold KK, rigid, motion. rewrite S.
    rewrite (sum_n_ext nd (fun l => w i l * node_x (a_pad AA) l a) (fun l => w i l * xcoord m (nth a (c_points c) 0%nat) l)) by (intros l Hl; now rewrite X). ring.
Qed.
Lemma stiffness_balanced zdet A kk kk' u : 0 <= zdet -> (forall c, In c cs -> let k := c_id c in springy zdet m c (A k) (kk k) (kk' k)) -> balanced m (nodal_force m A kk kk' u).
Proof.
  intros Hz St i j Hi Hj. split.
  - pose proof (rigid_work zdet A kk kk' u (fun l => if (l =? i)%nat then 1 else 0) (fun _ _ => 0) Hz St ltac:(intros; cbv beta; lra)) as Wk.
    rewrite (sum_n_single nd _ i) in Wk; auto.
    + unfold resultant. rewrite <- Wk. apply sum_n_ext. intros P _. unfold motion. rewrite Nat.eqb_refl, sum_n_zero by (intros; ring). ring.
    + intros l Hl Ne. apply sum_n_zero. intros P _. unfold motion. apply Nat.eqb_neq in Ne. rewrite Ne, sum_n_zero by (intros; ring). ring.
  - destruct (Nat.eq_dec i j) as [->|Nij]; [unfold moment; apply sum_n_zero; intros; ring|].
    pose proof (rigid_work zdet A kk kk' u (fun _ => 0) (fun k l => if (k =? j)%nat && (l =? i)%nat then 1 else if (k =? i)%nat && (l =? j)%nat then -1 else 0) Hz St) as Wk.
    rewrite <- Wk; clear Wk.
    + unfold moment. rewrite sum_n_swap. apply sum_n_ext. intros P _. set (F := nodal_force m A kk kk' u P).
      rewrite (sum_n_ext _ _ (fun l => (if (l =? j)%nat then xcoord m P i * F j else 0) + (if (l =? i)%nat then - xcoord m P j * F i else 0))).
      * rewrite sum_n_plus, (sum_n_single nd _ j), (sum_n_single nd _ i); auto; [rewrite !Nat.eqb_refl; ring| |]; intros l Hl Ne; apply Nat.eqb_neq in Ne; now rewrite Ne.
      * intros l Hl. unfold motion. destruct (Nat.eqb_spec l j) as [->|Nj].
        -- rewrite (sum_n_single nd _ i); auto.
           ++ rewrite Nat.eqb_refl. cbn [andb]. destruct (Nat.eqb_spec j i); [congruence|]. ring.
           ++ intros l' _ Ne. destruct (Nat.eqb_spec l' i); [congruence|]. cbn [andb]. destruct (Nat.eqb_spec j i); [congruence|]. cbn [andb]. ring.
        -- cbn [andb]. destruct (Nat.eqb_spec l i) as [->|Ni].
           ++ rewrite (sum_n_single nd _ j); auto; [rewrite Nat.eqb_refl; cbn [andb]; ring|]. intros l' _ Ne. destruct (Nat.eqb_spec l' j); [congruence|]. cbn [andb]. ring.
           ++ rewrite sum_n_zero by (intros; cbn [andb]; ring). ring.
    + intros k l. destruct (Nat.eqb_spec k j), (Nat.eqb_spec l i), (Nat.eqb_spec k i), (Nat.eqb_spec l j); subst; cbn [andb]; try congruence; try ring.
Qed.
End Forces.

(** ** heat *)
Section Heat.
Variables (zdet : R).
Hypothesis Hz : 0 <= zdet.
Lemma heat_total A kk kk' F u : (forall c, In c cs -> a_nnode (A (c_id c)) = List.length (c_points c)) ->
  sum_n np (fun P => F P * nodal_heat m A kk kk' u P) =
  sum_over (fun c => sum_n (List.length (c_points c)) (fun a => F (nth a (c_points c) 0%nat) * sum_n (List.length (c_points c)) (fun b => mat_added (A (c_id c)) (kk (c_id c)) (kk' (c_id c)) a b * u (nth b (c_points c) 0%nat)))) cs.
Proof.
  intros E. unfold nodal_heat. rewrite (assembled np cs F (fun c a => conductivity_times (A (c_id c)) (kk (c_id c)) (kk' (c_id c)) (c_points c) u a)) by (intros c Hc; apply (cell_below c Hc)).
  apply sum_over_ext. intros c Hc. apply sum_n_ext. intros a _. unfold conductivity_times. now rewrite E.
Qed.
Lemma bilinear_sym A mm mm' : (forall c, In c cs -> a_nnode (A (c_id c)) = List.length (c_points c) /\ symmetric (a_nnode (A (c_id c))) (mat_added (A (c_id c)) (mm (c_id c)) (mm' (c_id c)))) ->
  forall v u, sum_n np (fun P => v P * nodal_heat m A mm mm' u P) = sum_n np (fun P => u P * nodal_heat m A mm mm' v P).
Proof.
  intros H v u. rewrite !heat_total by (intros c Hc; apply (H c Hc)). apply sum_over_ext. intros c Hc. destruct (H c Hc) as (E & S). rewrite E in S.
  rewrite (sum_n_ext _ _ (fun a => sum_n (List.length (c_points c)) (fun b => v (nth a (c_points c) 0%nat) * (mat_added (A (c_id c)) (mm (c_id c)) (mm' (c_id c)) a b * u (nth b (c_points c) 0%nat)))))
    by (intros; symmetry; apply sum_n_scal).
  rewrite sum_n_swap. apply sum_n_ext. intros b Hb. rewrite <- sum_n_scal. apply sum_n_ext. intros a Ha. rewrite (S a b Ha Hb). ring.
Qed.
Lemma bilinear_nonneg A mm mm' : (forall c, In c cs -> a_nnode (A (c_id c)) = List.length (c_points c) /\ psd (a_nnode (A (c_id c))) (mat_added (A (c_id c)) (mm (c_id c)) (mm' (c_id c)))) ->
  forall u, 0 <= sum_n np (fun P => u P * nodal_heat m A mm mm' u P).
Proof.
  intros H u. rewrite heat_total by (intros c Hc; apply (H c Hc)).
  assert (Nn : forall l, (forall c, In c l -> In c cs) -> 0 <= sum_over (fun c => sum_n (List.length (c_points c)) (fun a => u (nth a (c_points c) 0%nat) *
    sum_n (List.length (c_points c)) (fun b => mat_added (A (c_id c)) (mm (c_id c)) (mm' (c_id c)) a b * u (nth b (c_points c) 0%nat)))) l); [|apply Nn; auto].
  induction l as [|c l IH]; intros Hl; [unfold sum_over; cbn; lra|]. unfold sum_over in *. cbn [map fold_right]. apply Rplus_le_le_0_compat; [|apply IH; intros; apply Hl; now right].
  destruct (H c (Hl c (or_introl eq_refl))) as (E & Ps). rewrite E in Ps. specialize (Ps (fun a => u (nth a (c_points c) 0%nat))). unfold quad_form in Ps.
  erewrite sum_n_ext; [exact Ps|]. intros a _. cbv beta. rewrite <- sum_n_scal. apply sum_n_ext. intros. ring.
Qed.
Lemma nnode_count A c : In c cs -> p_kind (a_pad (A (c_id c))) = c_kind c -> a_nnode (A (c_id c)) = List.length (c_points c).
Proof. intros Hc E. unfold a_nnode. rewrite E. symmetry. apply (cell_below c Hc). Qed.

Lemma conducted_total A fn kk kk' u : (forall c, In c cs -> let k := c_id c in conductance zdet c (A k) (fn k) (kk k) (kk' k)) -> total_heat m A kk kk' u = 0.
Proof.
  intros St. unfold total_heat. rewrite (sum_n_ext _ _ (fun P => 1 * nodal_heat m A kk kk' u P)) by (intros; ring).
  assert (Cn : forall c, In c cs -> a_nnode (A (c_id c)) = List.length (c_points c)) by (intros c Hc; destruct (St c Hc) as (? & ? & ? & _ & E & _); now apply nnode_count).
  rewrite (heat_total A kk kk' (fun _ => 1) u Cn). apply sum_over_zero. intros c Hc. destruct (St c Hc) as (nr & nc & q & W & _ & M & H).
  pose proof (mat_03_symmetric zdet _ Hz W nr nc _ _ _ q M H) as Sy. pose proof (mat_03_rows zdet _ Hz W nr nc _ _ _ q M H) as Rw. rewrite (Cn c Hc) in *.
  rewrite (sum_n_ext _ _ (fun a => sum_n (List.length (c_points c)) (fun b => mat_added (A (c_id c)) (kk (c_id c)) (kk' (c_id c)) a b * u (nth b (c_points c) 0%nat)))) by (intros; ring).
  rewrite sum_n_swap. apply sum_n_zero. intros b Hb. rewrite sum_n_scal_r.
  rewrite (sum_n_ext _ _ (mat_added (A (c_id c)) (kk (c_id c)) (kk' (c_id c)) b)) by (intros a Ha; now apply Sy). rewrite Rw by auto. ring.
Qed.
Lemma content_cells A fn mm mm' u : (forall c, In c cs -> let k := c_id c in capacity zdet c (A k) (fn k) (mm k) (mm' k)) ->
  exists w, (forall c, In c cs -> cell_content (A (c_id c)) (fn (c_id c)) (c_points c) u (w c)) /\ total_heat m A mm mm' u = sum_over w cs.
Proof.
  intros St. assert (Cn : forall c, In c cs -> a_nnode (A (c_id c)) = List.length (c_points c)) by (intros c Hc; destruct (St c Hc) as (? & ? & ? & _ & E & _); now apply nnode_count).
  eexists. split; [|unfold total_heat; rewrite (sum_n_ext _ _ (fun P => 1 * nodal_heat m A mm mm' u P)) by (intros; ring); exact (heat_total A mm mm' (fun _ => 1) u Cn)].
  intros c Hc. destruct (St c Hc) as (nr & nc & q & W & _ & M & H). cbv beta. rewrite <- (Cn c Hc). set (AA := A (c_id c)) in *.
  apply (mat_01_form zdet AA Hz W nr nc) in H as (_ & x & s & F & V); auto.
  exists (fun p => fst (x p)), (fun p => snd (x p)), s. split.
  - intros p Hp. destruct (F p Hp) as (G & Fs). split; [exact (grad_facts_at zdet AA p (x p) G)|exact Fs].
  - unfold integral. rewrite (sum_n_ext _ _ (fun a => sum_n (npoint (a_gauss AA)) (fun p => N_of AA p a * (dvol AA (fun p => fst (x p)) p * s p * sum_n (a_nnode AA) (fun l => N_of AA p l * u (nth l (c_points c) 0%nat)))))).
    + rewrite sum_n_swap. apply sum_n_ext. intros p _. rewrite sum_n_scal_r, unity. ring.
    + intros a Ha. rewrite Rmult_1_l. rewrite (sum_n_ext _ _ (fun b => sum_n (npoint (a_gauss AA)) (fun p => dvol AA (fun p => fst (x p)) p * s p * N_of AA p a * (N_of AA p b * u (nth b (c_points c) 0%nat))))).
      * rewrite sum_n_swap. apply sum_n_ext. intros p _. rewrite sum_n_scal. ring.
      * intros b Hb. rewrite (mat_result_added1 _ _ _ _ _ _ V a b Ha Hb). unfold integral. rewrite <- sum_n_scal_r. apply sum_n_ext. intros. ring.
Qed.
Lemma euler_decay A B fs ft mm mm' kk kk' u u' dt : 0 <= dt ->
  (forall c, In c cs -> let k := c_id c in capacity zdet c (A k) (fs k) (mm k) (mm' k) /\ good_volumes (A k) /\ positive_jacobian (A k) /\ (forall p nn bb s, fs k p nn bb = Ok s -> 0 <= s) /\
     conductance zdet c (B k) (ft k) (kk k) (kk' k) /\ good_volumes (B k) /\ positive_jacobian (B k) /\ (forall p nn bb T, ft k p nn bb = Ok T -> psd (p_space (a_pad (B k))) (tensor2 T))) ->
  (forall P, (P < np)%nat -> u' P = 0 \/ nodal_heat m A mm mm' u' P + dt * nodal_heat m B kk kk' u' P = nodal_heat m A mm mm' u P) ->
  square_norm m A mm mm' u' + 2 * dt * square_norm m B kk kk' u' <= square_norm m A mm mm' u /\ 0 <= square_norm m A mm mm' u' /\ 0 <= square_norm m B kk kk' u'.
Proof.
  intros Hd St Eq.
  assert (FM : forall c, In c cs -> a_nnode (A (c_id c)) = List.length (c_points c) /\ symmetric (a_nnode (A (c_id c))) (mat_added (A (c_id c)) (mm (c_id c)) (mm' (c_id c))) /\
    psd (a_nnode (A (c_id c))) (mat_added (A (c_id c)) (mm (c_id c)) (mm' (c_id c)))).
  { intros c Hc. destruct (St c Hc) as ((nr & nc & q & W & E & M & H) & Gv & Pj & Ps & _). split; [now apply nnode_count|].
    split; [exact (mat_01_symmetric zdet _ Hz W nr nc _ _ _ q M H)|exact (mat_01_psd zdet _ Hz W nr nc _ _ _ q M H Gv Pj Ps)]. }
  assert (FK : forall c, In c cs -> a_nnode (B (c_id c)) = List.length (c_points c) /\ psd (a_nnode (B (c_id c))) (mat_added (B (c_id c)) (kk (c_id c)) (kk' (c_id c)))).
  { intros c Hc. destruct (St c Hc) as (_ & _ & _ & _ & (nr & nc & q & W & E & M & H) & Gv & Pj & Ps). split; [now apply nnode_count|]. exact (mat_03_psd zdet _ Hz W nr nc _ _ _ q M H Gv Pj Ps). }
  unfold square_norm. set (b := fun v w => sum_n np (fun P => v P * nodal_heat m A mm mm' w P)). set (kq := sum_n np (fun P => u' P * nodal_heat m B kk kk' u' P)).
  change (b u' u' + 2 * dt * kq <= b u u /\ 0 <= b u' u' /\ 0 <= kq).
  assert (Pm : forall v, 0 <= b v v) by (intros v; apply bilinear_nonneg; intros c Hc; destruct (FM c Hc) as (E1 & _ & E2); auto).
  assert (Pk : 0 <= kq) by (apply bilinear_nonneg; auto).
  assert (Sy : b u u' = b u' u) by (apply bilinear_sym; intros c Hc; destruct (FM c Hc) as (E1 & E2 & _); auto).
  assert (Z : b u' u' + dt * kq = b u' u).
  { unfold b, kq. rewrite <- sum_n_scal, <- sum_n_plus. apply sum_n_ext. intros P HP. destruct (Eq P HP) as [E|E]; [rewrite E; ring|]. rewrite <- E. ring. }
  assert (Df : b (fun p => u' p + -1 * u p) (fun p => u' p + -1 * u p) = b u' u' - 2 * b u' u + b u u).
  { transitivity (b u' u' + -1 * b u' u + (-1 * b u u' + b u u)); [|rewrite Sy; ring]. unfold b. rewrite <- !sum_n_scal, <- !sum_n_plus. apply sum_n_ext. intros P _.
    assert (El : nodal_heat m A mm mm' (fun p => u' p + -1 * u p) P = nodal_heat m A mm mm' u' P + -1 * nodal_heat m A mm mm' u P); [|rewrite El; ring].
    unfold nodal_heat. rewrite <- sum_over_scal, <- sum_over_plus. apply sum_over_ext. intros c _. cbv zeta. rewrite <- at_point_scal, <- at_point_plus. apply at_point_ext. intros a _.
    unfold conductivity_times. rewrite <- sum_n_scal, <- sum_n_plus. apply sum_n_ext. intros. ring. }
  pose proof (Pm (fun p => u' p + -1 * u p)) as P0. rewrite Df in P0. split; [nra|auto].
Qed.
End Heat.
End Mesh.
