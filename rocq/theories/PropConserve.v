(* C107: loads, reactions and heat are in balance over a whole mesh *)
From Coquelicot Require Import Coquelicot.
From Coq Require Import String Reals List Lia Lra Bool Arith ZArith.
From Verif Require Import Base BaseFacts Kind MeshModel MeshQuerySpec TopoProof ShapesModel ShapesSpec PadModel PadSpec PadProof PadProof4 GaussModel GaussSpec GaussProof3 IntegModel IntegSpec
  IntegProof IntegProof10 BalanceSpec BalanceProof PatchSpec UniqueSpec MassSpec MassProof ConserveSpec ConserveProof PropInteg PropPatch PropUnique PropMass.
Import ListNotations.
Local Open Scope list_scope.
Local Open Scope R_scope.

(** whatever the stress, the internal forces of all cells have no resultant and no moment *)
Theorem C107_internal : forall m zdet A t t', consistent m -> coords_complete m -> (MeshModel.ndim m = 2 \/ MeshModel.ndim m = 3)%nat -> 0 <= zdet ->
  (forall c, In c (of_dim (MeshModel.ndim m) m) -> let k := c_id c in strained zdet m c (A k) (t k) (t' k)) -> balanced m (internal_force m A t t').
Proof. intros m zdet A t t' C K D. exact (internal_balanced m C K D zdet A t t'). Qed.
Print Assumptions C107_internal.

(** so do the products of the stiffness matrices with any displacements *)
Theorem C107_stiffness : forall m zdet A kk kk' u, consistent m -> coords_complete m -> (MeshModel.ndim m = 2 \/ MeshModel.ndim m = 3)%nat -> 0 <= zdet ->
  (forall c, In c (of_dim (MeshModel.ndim m) m) -> let k := c_id c in springy zdet m c (A k) (kk k) (kk' k)) -> balanced m (nodal_force m A kk kk' u).
Proof. intros m zdet A kk kk' u C K D. exact (stiffness_balanced m C K D zdet A kk kk' u). Qed.
Print Assumptions C107_stiffness.

(** the reactions at the supports (what is missing to the loads) have the resultant and the moment of the loads, with opposite signs *)
Theorem C107_reactions : forall m zdet A kk kk' u load reaction, consistent m -> coords_complete m -> (MeshModel.ndim m = 2 \/ MeshModel.ndim m = 3)%nat -> 0 <= zdet ->
  (forall c, In c (of_dim (MeshModel.ndim m) m) -> let k := c_id c in springy zdet m c (A k) (kk k) (kk' k)) ->
  (forall P i, (P < List.length (points m))%nat -> (i < MeshModel.ndim m)%nat -> nodal_force m A kk kk' u P i = load P i + reaction P i) ->
  forall i j, (i < MeshModel.ndim m)%nat -> (j < MeshModel.ndim m)%nat ->
    resultant m reaction i = - resultant m load i /\ moment m reaction i j = - moment m load i j.
Proof.
  intros m zdet A kk kk' u f r C K D Hz St E i j Hi Hj. destruct (C107_stiffness m zdet A kk kk' u C K D Hz St i j Hi Hj) as (R & M). unfold resultant, moment in *. split.
  - rewrite (sum_n_ext _ _ (fun P => f P i + r P i)) in R by (intros; now apply E). rewrite sum_n_plus in R. lra.
  - rewrite (sum_n_ext _ _ (fun P => (xcoord m P i * f P j - xcoord m P j * f P i) + (xcoord m P i * r P j - xcoord m P j * r P i))) in M by (intros; rewrite !E by auto; ring).
    rewrite sum_n_plus in M. lra.
Qed.
Print Assumptions C107_reactions.

(** conduction moves heat only: for all temperatures the nodal heats add up to zero (plane, axisymmetric, space; all kinds of cells) *)
Theorem C107_heat : forall m zdet A fn kk kk' u, consistent m -> 0 <= zdet ->
  (forall c, In c (of_dim (MeshModel.ndim m) m) -> let k := c_id c in conductance zdet c (A k) (fn k) (kk k) (kk' k)) -> total_heat m A kk kk' u = 0.
Proof. intros m zdet A fn kk kk' u C Hz. exact (conducted_total m C zdet Hz A fn kk kk' u). Qed.
Print Assumptions C107_heat.

(** the sum of mass matrices times temperatures is the sum over the cells of the integrals of capacity times temperature *)
Theorem C107_content : forall m zdet A fn mm mm' u, consistent m -> 0 <= zdet ->
  (forall c, In c (of_dim (MeshModel.ndim m) m) -> let k := c_id c in capacity zdet c (A k) (fn k) (mm k) (mm' k)) ->
  exists w, (forall c, In c (of_dim (MeshModel.ndim m) m) -> cell_content (A (c_id c)) (fn (c_id c)) (c_points c) u (w c)) /\ total_heat m A mm mm' u = sum_over w (of_dim (MeshModel.ndim m) m).
Proof. intros m zdet A fn mm mm' u C Hz. exact (content_cells m C zdet Hz A fn mm mm' u). Qed.
Print Assumptions C107_content.

(** in an implicit or explicit time step (temperatures v in the conduction term) the content changes by the supply only *)
Theorem C107_conserved : forall m zdet B fn mm mm' kk kk' A u u' v dt supply, consistent m -> 0 <= zdet ->
  (forall c, In c (of_dim (MeshModel.ndim m) m) -> let k := c_id c in conductance zdet c (B k) (fn k) (kk k) (kk' k)) ->
  (forall P, (P < List.length (points m))%nat -> nodal_heat m A mm mm' u' P + dt * nodal_heat m B kk kk' v P = nodal_heat m A mm mm' u P + dt * supply P) ->
  total_heat m A mm mm' u' = total_heat m A mm mm' u + dt * sum_n (List.length (points m)) supply.
Proof.
  intros m zdet B fn mm mm' kk kk' A u u' v dt f C Hz St E. pose proof (C107_heat m zdet B fn kk kk' v C Hz St) as Z. unfold total_heat in *.
  assert (S : sum_n (List.length (points m)) (fun P => nodal_heat m A mm mm' u' P + dt * nodal_heat m B kk kk' v P) =
    sum_n (List.length (points m)) (fun P => nodal_heat m A mm mm' u P + dt * f P)) by (apply sum_n_ext; exact E).
  rewrite !sum_n_plus in S. rewrite (sum_n_scal _ dt f), (sum_n_scal _ dt (nodal_heat m B kk kk' v)) in S. change (sum_n (List.length (points m)) (nodal_heat m B kk kk' v) = 0) in Z. rewrite Z in S. rewrite Rmult_0_r, Rplus_0_r in S. exact S.
Qed.
Print Assumptions C107_conserved.

(** without supply the implicit Euler method is stable for all sizes of the time step: the norm of the temperatures does not grow;
    the temperatures may be kept at zero at any points *)
Theorem C107_stable : forall m zdet A B fs ft mm mm' kk kk' u u' dt, consistent m -> 0 <= zdet -> 0 <= dt ->
  (forall c, In c (of_dim (MeshModel.ndim m) m) -> let k := c_id c in
     capacity zdet c (A k) (fs k) (mm k) (mm' k) /\ good_volumes (A k) /\ positive_jacobian (A k) /\ (forall p nn bb s, fs k p nn bb = Ok s -> 0 <= s) /\
     conductance zdet c (B k) (ft k) (kk k) (kk' k) /\ good_volumes (B k) /\ positive_jacobian (B k) /\ (forall p nn bb T, ft k p nn bb = Ok T -> psd (p_space (a_pad (B k))) (tensor2 T))) ->
  (forall P, (P < List.length (points m))%nat -> u' P = 0 \/ nodal_heat m A mm mm' u' P + dt * nodal_heat m B kk kk' u' P = nodal_heat m A mm mm' u P) ->
  0 <= square_norm m A mm mm' u' <= square_norm m A mm mm' u /\ square_norm m A mm mm' u' + 2 * dt * square_norm m B kk kk' u' <= square_norm m A mm mm' u.
Proof.
  intros m zdet A B fs ft mm mm' kk kk' u u' dt C Hz Hd St Eq. destruct (euler_decay m C zdet Hz A B fs ft mm mm' kk kk' u u' dt Hd St Eq) as (L & P1 & P2).
  split; [split; [exact P1|]|exact L]. assert (0 <= 2 * dt * square_norm m B kk kk' u') by (apply Rmult_le_pos; [lra|exact P2]). lra.
Qed.
Print Assumptions C107_stable.

Example C107_ex : consistent fan /\ coords_complete fan /\ MeshModel.ndim fan = 2%nat /\ forall c, In c (of_dim 2 fan) ->
  (exists t', strained (1 / 1000) fan c (fan_args (c_id c)) (repeat 0 6) t') /\ (exists kk', springy (1 / 1000) fan c (fan_args (c_id c)) (zeros 6 6) kk') /\
  (exists mm', capacity (1 / 1000) c (fan_args (c_id c)) (fun _ _ _ => Ok 1) (zeros 3 3) mm') /\ (exists kk', conductance (1 / 1000) c (fan_args (c_id c)) (fun _ _ _ => Ok [1; 1; 0; 0]) (zeros 3 3) kk') /\
  good_volumes (fan_args (c_id c)) /\ positive_jacobian (fan_args (c_id c)).
Proof.
  destruct C105_ex as (C & K & Sm & _ & Ds & _ & Al & X). destruct C102_ex as (_ & _ & _ & _ & _ & Y). destruct C106_step_ex as (_ & _ & Z).
  split; auto. split; auto. split; [reflexivity|]. intros c Hc. destruct (X c Hc) as ((kk1 & q1 & S1) & (kk2 & q2 & S2)).
  destruct (Z c Hc) as ((mm' & n & nr & nc & fn & q & W & Ek & M & G & Ln & Sv & Ps & R) & (kk3 & nr3 & nc3 & fn3 & q3 & W3 & Ek3 & M3 & Gv & Pj & Ps3 & R3)).
  destruct (Y [1; 1; 0; 0] unit_dd c Hc) as (_ & (d' & q' & Y1) & _). pose proof Hc as Hc'. apply filter_In in Hc' as (Ic & _).
  destruct (fan_grad (c_id c) c (cell_by_id fan c C Ic)) as (_ & _ & Ek0 & _ & Gr).
  split; [|split; [|split; [|split; [|split; [exact Gv|exact Pj]]]]].
  - destruct Y1 as (E & Ax & _ & _ & H). exists d', (fun _ _ _ => Ok [1; 1; 0; 0]), q'. auto.
  - destruct S1 as (E & Ax & _ & _ & (nr1 & nc1 & M1) & H). exists kk1, nr1, nc1, (fun _ _ _ => Ok unit_dd), q1. split; [exact E|]. split; [exact Ax|]. split; [exact M1|]. split; [|exact H].
    intros p nn bb D [= <-] k l Hk Hl. do 6 (destruct k as [|k]; [do 6 (destruct l as [|l]; [reflexivity|]); lia|]). lia.
  - destruct (proj2 (proj1 (C67_mat_01 (1 / 1000) (fan_args (c_id c)) 3 3 (zeros 3 3) (fun _ _ _ => Ok 1) ltac:(lra) W (zeros_matrix 3 3)) ltac:(eauto))) as ([mm1 q4] & H).
    { unfold a_nnode. cbn [fan_args a_pad a_ii0 a_jj0]. rewrite Ek0. split; [apply le_n|]. split; [apply le_n|]. intros p _; apply Gr. }
    exists mm1, 3%nat, 3%nat, q4. split; [exact W|]. split; [exact Ek|]. split; [apply zeros_matrix|exact H].
  - destruct S2 as (_ & _ & _ & _ & _ & H). exists kk2, 3%nat, 3%nat, q2. split; [exact W|]. split; [exact Ek|]. split; [apply zeros_matrix|exact H].
Qed.
