(* C105: supported structures and heat problems have exactly one solution *)
From Coquelicot Require Import Coquelicot.
From Coq Require Import String Reals List Lia Lra Bool Arith ZArith Permutation Relations.
From Verif Require Import Base BaseFacts Kind MeshModel GraphModel MeshQuerySpec TopoModel TopoSpec TopoProof
  ShapesModel ShapesSpec GeomModel PadModel PadSpec PadProof PadProof4 GaussModel GaussSpec IntegModel IntegSpec IntegProof9 IntegProof10 PropInteg NormalSpec BalanceProof2 NormalModel
  BalanceSpec BalanceProof BalanceProof4 PropBalance PatchSpec PatchProof3 PatchProof4 PatchProof5 PropPatch UniqueSpec UniqueProof UniqueProof2 UniqueProof3 UniqueProof4.
Import ListNotations.
Local Open Scope list_scope.
Local Open Scope R_scope.

(** two sets of displacements that have, in each direction at each point, the same value or the same force, differ by one rigid
    motion in all cells that are linked by shared edges (plane) or faces (space) *)
Theorem C105_rigid : forall m zdet th n A kk kk' q DD u v c, consistent m -> coords_complete m -> (MeshModel.ndim m = 2 \/ MeshModel.ndim m = 3)%nat ->
  simplex_mesh m -> 0 <= zdet -> 0 < th -> let nd := MeshModel.ndim m in
  (forall c, In c (of_dim nd m) -> let k := c_id c in firm nd (DD k) /\ stiffened zdet m c (DD k) th (n k) (A k) (kk k) (kk' k) (q k)) ->
  (forall P i, (P < List.length (points m))%nat -> (i < nd)%nat -> u P i = v P i \/ nodal_force m A kk kk' u P i = nodal_force m A kk kk' v P i) ->
  In c (of_dim nd m) -> exists c0 w, skew nd w /\ forall c', linked m nd c c' -> forall p i, In p (c_points c') -> (i < nd)%nat -> u p i - v p i = linear m c0 w p i.
Proof.
  intros m zdet th n A kk kk' q DD u v c C K D Sm Hz Ht nd St H Hc.
  pose proof (cells_rigid m C K D Sm zdet th n A kk kk' q Hz Ht DD u v St H) as Ex. destruct (Ex c Hc) as (c0 & w & Sk & Ec).
  exists c0, w. split; [exact Sk|]. intros c' Lk. exact (chain_motion m C D Sm (fun p i => u p i - v p i) c c' Lk Hc Ex c0 w Sk Ec).
Qed.
Print Assumptions C105_rigid.

(** if the values are the same at two (plane) or three (space) points of one cell, they are the same in all of these cells *)
Theorem C105_unique : forall m zdet th n A kk kk' q DD u v c l, consistent m -> coords_complete m -> (MeshModel.ndim m = 2 \/ MeshModel.ndim m = 3)%nat ->
  simplex_mesh m -> 0 <= zdet -> 0 < th -> let nd := MeshModel.ndim m in
  (forall c, In c (of_dim nd m) -> let k := c_id c in firm nd (DD k) /\ stiffened zdet m c (DD k) th (n k) (A k) (kk k) (kk' k) (q k)) ->
  (forall P i, (P < List.length (points m))%nat -> (i < nd)%nat -> u P i = v P i \/ nodal_force m A kk kk' u P i = nodal_force m A kk kk' v P i) ->
  In c (of_dim nd m) -> NoDup l -> List.length l = nd -> incl l (c_points c) -> (forall p i, In p l -> (i < nd)%nat -> u p i = v p i) ->
  forall c', linked m nd c c' -> forall p i, In p (c_points c') -> (i < nd)%nat -> u p i = v p i.
Proof.
  intros m zdet th n A kk kk' q DD u v c l C K D Sm Hz Ht nd St H Hc N Ll I Su c' Lk p i Hp Hi.
  destruct (C105_rigid m zdet th n A kk kk' q DD u v c C K D Sm Hz Ht St H Hc) as (c0 & w & Sk & E).
  destruct (Sm c Hc) as (Kc & Mc).
  enough (u p i - v p i = 0) by lra. rewrite (E c' Lk p i Hp Hi).
  apply (motion_fixed m (c_points c) l c0 w D (cell_length m c C D Hc Kc)); auto; [lra|].
  intros x j Hx Hj. rewrite <- (E c (rt_refl _ _ c) x j (I x Hx) Hj). rewrite (Su x j Hx Hj). ring.
Qed.
Print Assumptions C105_unique.

(** for all prescribed values and all loads there is exactly one solution: fixed P i tells if the displacement of the point P in direction
    i is prescribed; all points belong to cells linked to a cell c, and two (three) of the points of c are fixed *)
Theorem C105_solvable : forall m zdet th n A kk kk' q DD fixed c l g f, consistent m -> coords_complete m -> (MeshModel.ndim m = 2 \/ MeshModel.ndim m = 3)%nat ->
  simplex_mesh m -> 0 <= zdet -> 0 < th -> let nd := MeshModel.ndim m in
  (forall c, In c (of_dim nd m) -> let k := c_id c in firm nd (DD k) /\ stiffened zdet m c (DD k) th (n k) (A k) (kk k) (kk' k) (q k)) ->
  In c (of_dim nd m) -> (forall P, (P < List.length (points m))%nat -> exists c', linked m nd c c' /\ In P (c_points c')) ->
  NoDup l -> List.length l = nd -> incl l (c_points c) -> (forall p i, In p l -> (i < nd)%nat -> fixed p i = true) ->
  let solves u := forall P i, (P < List.length (points m))%nat -> (i < nd)%nat -> if fixed P i : bool then u P i = g P i else nodal_force m A kk kk' u P i = f P i in
  (exists u, solves u) /\ forall u v, solves u -> solves v -> forall P i, (P < List.length (points m))%nat -> (i < nd)%nat -> u P i = v P i.
Proof.
  intros m zdet th n A kk kk' q DD fixed c l g f C K D Sm Hz Ht nd St Hc All N Ll I Fx solves.
  assert (Below : forall p, In p l -> (p < List.length (points m))%nat) by (intros p Hp; exact (points_below m C c Hc p (I p Hp))).
  assert (Un : forall (g f u v : nat -> nat -> R),
    (forall P i, (P < List.length (points m))%nat -> (i < nd)%nat -> if fixed P i : bool then u P i = g P i else nodal_force m A kk kk' u P i = f P i) ->
    (forall P i, (P < List.length (points m))%nat -> (i < nd)%nat -> if fixed P i : bool then v P i = g P i else nodal_force m A kk kk' v P i = f P i) ->
    forall P i, (P < List.length (points m))%nat -> (i < nd)%nat -> u P i = v P i).
  { intros g' f' u v Hu Hv P i HP Hi. destruct (All P HP) as (c' & Lk & Ip).
    apply (C105_unique m zdet th n A kk kk' q DD u v c l C K D Sm Hz Ht St) with (c' := c'); auto.
    - intros P' i' HP' Hi'. specialize (Hu P' i' HP' Hi'). specialize (Hv P' i' HP' Hi'). destruct (fixed P' i'); [left|right]; congruence.
    - intros p j Hp Hj. specialize (Hu p j (Below p Hp) Hj). specialize (Hv p j (Below p Hp) Hj). rewrite (Fx p j Hp Hj) in Hu, Hv. congruence. }
  split; [|exact (Un g f)].
  assert (Zero : forall P i, nodal_force m A kk kk' (fun _ _ => 0) P i = 0).
  { intros P i. pose proof (force_scal m A kk kk' 0 (fun _ _ => 0) P i) as Z. rewrite Rmult_0_l in Z. rewrite Rmult_0_l in Z. exact Z. }
  apply (force_exists m C K D Sm A kk kk' (fun c Hc => proj1 (proj2 (St c Hc))) fixed).
  intros u Hu P i HP Hi. apply (Un (fun _ _ => 0) (fun _ _ => 0) u (fun _ _ => 0)); auto. intros P' i' _ _. destruct (fixed P' i'); [reflexivity|apply Zero].
Qed.
Print Assumptions C105_solvable.

(** the displacements without forces are those that move each cell like a rigid body *)
Theorem C105_kernel : forall m zdet th n A kk kk' q DD u, consistent m -> coords_complete m -> (MeshModel.ndim m = 2 \/ MeshModel.ndim m = 3)%nat ->
  simplex_mesh m -> 0 <= zdet -> 0 < th -> let nd := MeshModel.ndim m in
  (forall c, In c (of_dim nd m) -> let k := c_id c in firm nd (DD k) /\ stiffened zdet m c (DD k) th (n k) (A k) (kk k) (kk' k) (q k)) ->
  (forall P i, (i < nd)%nat -> nodal_force m A kk kk' u P i = 0) <->
  (forall c, In c (of_dim nd m) -> exists c0 w, skew nd w /\ forall p i, In p (c_points c) -> (i < nd)%nat -> u p i = linear m c0 w p i).
Proof.
  intros m zdet th n A kk kk' q DD u C K D Sm Hz Ht nd St. split; intros H.
  - intros c Hc. pose proof (rigid_forces m C K D Sm zdet th n A kk kk' q Hz DD (fun _ _ => 0) (fun c Hc => proj2 (St c Hc))) as Z.
    destruct (cells_rigid m C K D Sm zdet th n A kk kk' q Hz Ht DD u (fun _ _ => 0) St) with (c := c) as (c0 & w & Sk & E); auto.
    + intros P i _ Hi. right. rewrite (H P i Hi). symmetry. apply Z; [|exact Hi]. intros b _. exists (fun _ => 0), (fun _ _ => 0). split; [intros i' j _ _; ring|].
      intros p j _ _. unfold linear. rewrite sum_n_zero; [ring|]. intros x _. ring.
    + exists c0, w. split; [exact Sk|]. intros p i Hp Hi. rewrite <- (E p i Hp Hi). ring.
  - intros P i Hi. exact (rigid_forces m C K D Sm zdet th n A kk kk' q Hz DD u (fun c Hc => proj2 (St c Hc)) H P i Hi).
Qed.
Print Assumptions C105_kernel.

(** temperatures with, at each point, the same value or the same heat supply, differ by the same amount in all cells that are linked
    by shared points; they are the same if this is so at one point *)
Theorem C105_heat : forall m zdet th n A kk kk' q tt u v c, consistent m -> coords_complete m -> (MeshModel.ndim m = 2 \/ MeshModel.ndim m = 3)%nat ->
  simplex_mesh m -> 0 <= zdet -> 0 < th -> let nd := MeshModel.ndim m in
  (forall c, In c (of_dim nd m) -> let k := c_id c in dissipative nd (tt k) /\ conducting zdet m c (tt k) th (n k) (A k) (kk k) (kk' k) (q k)) ->
  (forall P, (P < List.length (points m))%nat -> u P = v P \/ nodal_heat m A kk kk' u P = nodal_heat m A kk kk' v P) ->
  In c (of_dim nd m) -> exists t, (forall c', linked m 1 c c' -> forall p, In p (c_points c') -> u p - v p = t) /\
    ((exists p, In p (c_points c) /\ u p = v p) -> t = 0).
Proof.
  intros m zdet th n A kk kk' q tt u v c C K D Sm Hz Ht nd St H Hc.
  pose proof (cells_uniform m C K D Sm zdet th n A kk kk' q Hz Ht tt u v St H) as Ex. destruct (Ex c Hc) as (t & Ec).
  exists t. split; [|intros (p & Hp & E); rewrite <- (Ec p Hp), E; ring].
  intros c' Lk. exact (chain_value m (fun p => u p - v p) c c' Lk Ex t Ec).
Qed.
Print Assumptions C105_heat.

(** for all prescribed temperatures and all heat supplies there is exactly one solution, if one temperature is prescribed *)
Theorem C105_heat_solvable : forall m zdet th n A kk kk' q tt fixed c g f, consistent m -> coords_complete m -> (MeshModel.ndim m = 2 \/ MeshModel.ndim m = 3)%nat ->
  simplex_mesh m -> 0 <= zdet -> 0 < th -> let nd := MeshModel.ndim m in
  (forall c, In c (of_dim nd m) -> let k := c_id c in dissipative nd (tt k) /\ conducting zdet m c (tt k) th (n k) (A k) (kk k) (kk' k) (q k)) ->
  In c (of_dim nd m) -> (forall P, (P < List.length (points m))%nat -> exists c', linked m 1 c c' /\ In P (c_points c')) ->
  (exists p, In p (c_points c) /\ fixed p = true) ->
  let solves u := forall P, (P < List.length (points m))%nat -> if fixed P : bool then u P = g P else nodal_heat m A kk kk' u P = f P in
  (exists u, solves u) /\ forall u v, solves u -> solves v -> forall P, (P < List.length (points m))%nat -> u P = v P.
Proof.
  intros m zdet th n A kk kk' q tt fixed c g f C K D Sm Hz Ht nd St Hc All (p0 & I0 & F0) solves.
  assert (Un : forall (g f u v : nat -> R),
    (forall P, (P < List.length (points m))%nat -> if fixed P : bool then u P = g P else nodal_heat m A kk kk' u P = f P) ->
    (forall P, (P < List.length (points m))%nat -> if fixed P : bool then v P = g P else nodal_heat m A kk kk' v P = f P) ->
    forall P, (P < List.length (points m))%nat -> u P = v P).
  { intros g' f' u v Hu Hv P HP. destruct (All P HP) as (c' & Lk & Ip).
    destruct (C105_heat m zdet th n A kk kk' q tt u v c C K D Sm Hz Ht St) as (t & Et & Zt); auto.
    - intros P' HP'. specialize (Hu P' HP'). specialize (Hv P' HP'). destruct (fixed P'); [left|right]; congruence.
    - specialize (Et c' Lk P Ip). rewrite Zt in Et; [lra|]. exists p0. split; [exact I0|].
      pose proof (points_below m C c Hc p0 I0) as B. specialize (Hu p0 B). specialize (Hv p0 B). rewrite F0 in Hu, Hv. congruence. }
  split; [|exact (Un g f)].
  assert (Zero : forall P, nodal_heat m A kk kk' (fun _ => 0) P = 0).
  { intros P. pose proof (heat_scal m A kk kk' 0 (fun _ => 0) P) as Z. rewrite Rmult_0_l in Z. rewrite Rmult_0_l in Z. exact Z. }
  apply (heat_exists m C K D Sm A kk kk' (fun c Hc => proj1 (proj2 (St c Hc))) fixed).
  intros u Hu P HP. apply (Un (fun _ => 0) (fun _ => 0) u (fun _ => 0)); auto. intros P' _. destruct (fixed P'); [reflexivity|apply Zero].
Qed.
Print Assumptions C105_heat_solvable.

(* the identity as matrix D; the square made of four triangles *)
Definition unit_dd : mat := map (fun i => map (fun j => if (i =? j)%nat then 1 else 0) (seq 0 4)) (seq 0 4).
Lemma unit_firm : firm 2 unit_dd.
Proof.
  assert (S2 : sqrt 2 * sqrt 2 = 2) by (apply sqrt_sqrt; lra). assert (P2 : 0 < sqrt 2) by (apply sqrt_lt_R0; lra).
  intros e Sy (i & j & Hi & Hj & Ne).
  assert (E : sum_n 2 (fun i => sum_n 2 (fun j => sum_n 2 (fun k => sum_n 2 (fun l => tensor4 unit_dd i j k l * e k l)) * e i j)) =
    e 0%nat 0%nat * e 0%nat 0%nat + e 1%nat 1%nat * e 1%nat 1%nat + 2 * (e 0%nat 1%nat * e 0%nat 1%nat)).
  { unfold sum_n, sum, tensor4, mandel_factor, ent. cbn [seq map fold_right mandel_index Nat.eqb nth unit_dd]. rewrite (Sy 1%nat 0%nat), !S2. field. lra. }
  rewrite E. pose proof (Rle_0_sqr (e 0%nat 0%nat)) as A0. pose proof (Rle_0_sqr (e 1%nat 1%nat)) as A1. pose proof (Rle_0_sqr (e 0%nat 1%nat)) as A2. unfold Rsqr in *.
  assert (Ps : forall x, x <> 0 -> 0 < x * x) by (intros x Hx; pose proof (Rsqr_pos_lt x Hx); auto).
  destruct i as [|[|i]], j as [|[|j]]; try lia; [pose proof (Ps _ Ne)|pose proof (Ps _ Ne)|rewrite Sy in Ne; pose proof (Ps _ Ne)|pose proof (Ps _ Ne)]; lra.
Qed.
Lemma unit_dissipative : dissipative 2 [1; 1; 0; 0].
Proof.
  intros g (i & Hi & Ne). unfold sum_n, sum, tensor2, mandel_factor. cbn [seq map fold_right mandel_index Nat.eqb nth].
  match goal with |- 0 < ?x => replace x with (g 0%nat * g 0%nat + g 1%nat * g 1%nat) by (field; apply Rgt_not_eq, sqrt_lt_R0; lra) end.
  pose proof (Rle_0_sqr (g 0%nat)) as A0. pose proof (Rle_0_sqr (g 1%nat)) as A1. unfold Rsqr in *.
  assert (Ps : forall x, x <> 0 -> 0 < x * x) by (intros x Hx; pose proof (Rsqr_pos_lt x Hx); auto).
  destruct i as [|[|i]]; try lia; pose proof (Ps _ Ne); lra.
Qed.
Lemma fan_link c c' : In c (of_dim 2 fan) -> In c' (of_dim 2 fan) -> linked fan 2 c c'.
Proof.
  assert (St : forall x y l, In x (of_dim 2 fan) -> In y (of_dim 2 fan) -> NoDup l -> List.length l = 2%nat -> incl l (c_points x) -> incl l (c_points y) -> linked fan 2 x y /\ linked fan 2 y x).
  { intros x y l Hx Hy N Ll Ix Iy. split; apply rt_step; repeat split; auto; exists l; auto. }
  assert (N2 : forall a b : nat, a <> b -> NoDup [a; b]) by (intros a b E; constructor; [intros [F|[]]; congruence|constructor; [intros []|constructor]]).
  destruct (St (mkCell 0 1%Z Tri3 [0; 1; 4]%nat) (mkCell 1 1%Z Tri3 [1; 2; 4]%nat) [1; 4]%nat ltac:(cbn; tauto) ltac:(cbn; tauto) ltac:(apply N2; discriminate) eq_refl
    ltac:(intros x Hx; cbn in *; tauto) ltac:(intros x Hx; cbn in *; tauto)) as (L01 & L10).
  destruct (St (mkCell 1 1%Z Tri3 [1; 2; 4]%nat) (mkCell 2 1%Z Tri3 [2; 3; 4]%nat) [2; 4]%nat ltac:(cbn; tauto) ltac:(cbn; tauto) ltac:(apply N2; discriminate) eq_refl
    ltac:(intros x Hx; cbn in *; tauto) ltac:(intros x Hx; cbn in *; tauto)) as (L12 & L21).
  destruct (St (mkCell 2 1%Z Tri3 [2; 3; 4]%nat) (mkCell 3 1%Z Tri3 [3; 0; 4]%nat) [3; 4]%nat ltac:(cbn; tauto) ltac:(cbn; tauto) ltac:(apply N2; discriminate) eq_refl
    ltac:(intros x Hx; cbn in *; tauto) ltac:(intros x Hx; cbn in *; tauto)) as (L23 & L32).
  assert (To : forall x, In x (of_dim 2 fan) -> linked fan 2 x (mkCell 1 1%Z Tri3 [1; 2; 4]%nat) /\ linked fan 2 (mkCell 1 1%Z Tri3 [1; 2; 4]%nat) x).
  { intros x Hx. destruct Hx as [<-|[<-|[<-|[<-|[]]]]]; [split; auto|split; apply rt_refl|split; auto|split; eapply rt_trans; eauto]. }
  intros Hc Hc'. eapply rt_trans; [exact (proj1 (To c Hc))|exact (proj2 (To c' Hc'))].
Qed.
Example C105_ex : consistent fan /\ coords_complete fan /\ simplex_mesh fan /\ firm 2 unit_dd /\ dissipative 2 [1; 1; 0; 0] /\
  (forall c c', In c (of_dim 2 fan) -> In c' (of_dim 2 fan) -> linked fan 2 c c') /\
  (forall P, (P < List.length (points fan))%nat -> exists c', In c' (of_dim 2 fan) /\ In P (c_points c')) /\
  forall c, In c (of_dim 2 fan) -> (exists kk' q, stiffened (1 / 1000) fan c unit_dd 2 3 (fan_args (c_id c)) (zeros 6 6) kk' q) /\
    (exists kk' q, conducting (1 / 1000) fan c [1; 1; 0; 0] 2 3 (fan_args (c_id c)) (zeros 3 3) kk' q).
Proof.
  destruct C102_ex as (C & K & _ & _ & _ & X). split; auto. split; auto. split; [|split; [exact unit_firm|split; [exact unit_dissipative|split; [exact fan_link|split]]]].
  - intros c Hc. repeat (destruct Hc as [<-|Hc]; [split; [reflexivity|unfold simplex_measure, from_to, xcoord; cbn; lra]|]). destruct Hc.
  - intros P HP. destruct P as [|[|[|[|[|P]]]]]; [exists (mkCell 0 1%Z Tri3 [0; 1; 4]%nat)|exists (mkCell 0 1%Z Tri3 [0; 1; 4]%nat)|exists (mkCell 1 1%Z Tri3 [1; 2; 4]%nat)|
      exists (mkCell 2 1%Z Tri3 [2; 3; 4]%nat)|exists (mkCell 0 1%Z Tri3 [0; 1; 4]%nat)|cbn in HP; lia]; cbn; tauto.
  - intros c Hc. destruct (X [] unit_dd c Hc) as (_ & _ & E). split; [exact E|].
    assert (Kc : c_kind c = Tri3) by (repeat (destruct Hc as [<-|Hc]; [reflexivity|]); destruct Hc).
    apply filter_In in Hc as (Ic & _). destruct (fan_grad (c_id c) c (cell_by_id fan c C Ic)) as (E1 & W & Ek & Es & G).
    destruct (proj2 (proj1 (C67_mat_03 (1 / 1000) (fan_args (c_id c)) 3 3 (zeros 3 3) (fun _ _ _ => Ok [1; 1; 0; 0]) ltac:(lra) W (zeros_matrix 3 3)) ltac:(eauto))) as ([kk' q] & H).
    { unfold a_nnode. cbn [fan_args a_pad a_ii0 a_jj0]. rewrite Ek. split; [apply le_n|]. split; [apply le_n|]. first [split; [discriminate|intros p _; apply G]|intros p _; apply G]. }
    exists kk', q. unfold conducting. rewrite Kc. repeat split; auto. exists 3%nat, 3%nat. apply zeros_matrix.
Qed.

(** one shared point is not enough (a hinge): two triangles, one of them at rest, turn without forces *)
Definition hinge : mesh R :=
  mkMesh 2 [mkPoint 0 0%Z [0; 0]; mkPoint 1 0%Z [1; 0]; mkPoint 2 0%Z [0; 1]; mkPoint 3 0%Z [-1; 0]; mkPoint 4 0%Z [0; -1]]
    [mkCell 0 1%Z Tri3 [0; 1; 2]%nat; mkCell 1 1%Z Tri3 [0; 3; 4]%nat] [] [].
Definition swing (p i : nat) : R := match p, i with 3%nat, 1%nat => -1 | 4%nat, 0%nat => 1 | _, _ => 0 end.
Theorem C105_hinge_refuted : exists (m : mesh R) c c' l u, consistent m /\ coords_complete m /\ MeshModel.ndim m = 2%nat /\ simplex_mesh m /\
  In c (of_dim 2 m) /\ In c' (of_dim 2 m) /\ linked m 1 c c' /\ NoDup l /\ List.length l = 3%nat /\ incl l (c_points c) /\ (forall p i, In p l -> u p i = 0) /\
  (forall zdet th n A kk kk' q DD, 0 <= zdet -> 0 < th -> (forall c, In c (of_dim 2 m) -> let k := c_id c in stiffened zdet m c (DD k) th (n k) (A k) (kk k) (kk' k) (q k)) ->
    forall P i, (i < 2)%nat -> nodal_force m A kk kk' u P i = 0) /\
  exists p i, In p (c_points c') /\ (i < 2)%nat /\ u p i <> 0.
Proof.
  assert (C : consistent hinge).
  { split.
    - intros i p H. do 5 (destruct i as [|i]; [injection H as <-; reflexivity|]). destruct i; discriminate H.
    - intros i c H. do 2 (destruct i as [|i]; [injection H as <-; split; [reflexivity|]; split; [reflexivity|]; intros q Hq; cbn in *; lia|]). destruct i; discriminate H. }
  assert (K : coords_complete hinge) by (intros p H; simpl in H; repeat (destruct H as [<-|H]; [reflexivity|]); destruct H).
  assert (Sm : simplex_mesh hinge).
  { intros c Hc. repeat (destruct Hc as [<-|Hc]; [split; [reflexivity|unfold simplex_measure, from_to, xcoord; cbn; lra]|]). destruct Hc. }
  exists hinge, (mkCell 0 1%Z Tri3 [0; 1; 2]%nat), (mkCell 1 1%Z Tri3 [0; 3; 4]%nat), [0; 1; 2]%nat, swing.
  split; auto. split; auto. split; auto. split; auto. split; [cbn; tauto|]. split; [cbn; tauto|]. split; [|split; [|split; [|split; [|split; [|split]]]]].
  - apply rt_step. split; [cbn; tauto|]. split; [cbn; tauto|]. exists [0%nat]. split; [constructor; [intros []|constructor]|]. split; [reflexivity|]. split; intros x Hx; cbn in *; tauto.
  - repeat constructor; cbn; lia.
  - reflexivity.
  - apply incl_refl.
  - intros p i Hp. repeat (destruct Hp as [<-|Hp]; [destruct i; reflexivity|]). destruct Hp.
  - intros zdet th n A kk kk' q DD Hz Ht St. apply (rigid_forces hinge C K (or_introl eq_refl) Sm zdet th n A kk kk' q Hz DD swing St).
    intros c [<-|[<-|[]]].
    + exists (fun _ => 0), (fun _ _ => 0). split; [intros i j _ _; ring|]. intros p i Hp Hi. unfold linear. rewrite sum_n_zero by (intros; ring). cbn in Hp. cbn in Hi.
      destruct Hp as [<-|[<-|[<-|[]]]]; destruct i; cbn; ring.
    + exists (fun _ => 0), (fun i j => INR i - INR j). split; [intros i j _ _; ring|]. intros p i Hp Hi. cbn in Hp. change (MeshModel.ndim hinge) with 2%nat in Hi.
      destruct Hp as [<-|[<-|[<-|[]]]]; destruct i as [|[|i]]; try lia; unfold linear, sum_n, sum, xcoord; cbn; lra.
  - exists 3%nat, 1%nat. split; [cbn; tauto|]. split; [lia|]. cbn. lra.
Qed.
Print Assumptions C105_hinge_refuted.
(* there are such matrices *)
Definition hinge_pad (k : nat) : pad := match get_pad hinge k with Ok p => p | _ => tri_pad true end.
Definition hinge_args (k : nat) : args := mkArgs (hinge_pad k) (gauss_new Tri3) true false 2 0 0.
Example C105_hinge_ex : forall c, In c (of_dim 2 hinge) -> exists kk' q, stiffened (1 / 1000) hinge c unit_dd 2 3 (hinge_args (c_id c)) (zeros 6 6) kk' q.
Proof.
  assert (C : consistent hinge).
  { split.
    - intros i p H. do 5 (destruct i as [|i]; [injection H as <-; reflexivity|]). destruct i; discriminate H.
    - intros i c H. do 2 (destruct i as [|i]; [injection H as <-; split; [reflexivity|]; split; [reflexivity|]; intros q Hq; cbn in *; lia|]). destruct i; discriminate H. }
  assert (K : coords_complete hinge) by (intros p H; simpl in H; repeat (destruct H as [<-|H]; [reflexivity|]); destruct H).
  intros c Hc. assert (Kc : c_kind c = Tri3) by (repeat (destruct Hc as [<-|Hc]; [reflexivity|]); destruct Hc).
  apply filter_In in Hc as (Ic & _). set (k := c_id c). pose proof (cell_by_id hinge c C Ic) as Hn. fold k in Hn.
  destruct (get_pad_ok hinge k c C K (or_introl eq_refl) Hn) as (p & E & El & Okp); [rewrite Kc; apply le_n|].
  assert (Ea : hinge_args k = mkArgs p (gauss_new Tri3) true false 2 0 0) by (unfold hinge_args, hinge_pad; now rewrite E). rewrite Ea. clear Ea.
  pose proof El as (W & Ek & Es & _). rewrite Kc in Ek. change (MeshModel.ndim hinge) with 2%nat in Es. set (B := mkArgs p (gauss_new Tri3) true false 2 0 0).
  assert (G : forall i, grad_ok (1 / 1000) B i).
  { intros i. unfold grad_ok. change (a_pad B) with p. split; [exact Okp|]. split; [rewrite Ek, Es; reflexivity|]. intros J HJ. rewrite Es.
    assert (Ed : det 2 J = 1).
    { assert (L : List.length (ksi_at B i) = 2%nat) by (unfold ksi_at; change (a_pad B) with p; rewrite map_length, seq_length, Ek; reflexivity).
      pose proof (tri3_det p (ksi_at B i) (det 2 J) W Ek Es L) as T. rewrite T.
      - destruct C as (_ & C2). destruct (C2 k c Hn) as (_ & _ & Bd). pose proof (fun i j Hj Hi => element_x hinge c p j i El Hj Bd Hi) as X.
        clear - Hn X. clearbody k. do 2 (destruct k as [|k]; [injection Hn as <-; rewrite !X by (apply Nat.ltb_lt; reflexivity); cbn; lra|]); destruct k; discriminate Hn.
      - exists J. rewrite Ek, Es. split; [exact HJ|]. split; [reflexivity|]. split; [discriminate|]. cbn. lia. }
    rewrite Ed, Rabs_pos_eq; lra. }
  destruct (proj2 (proj1 (C67_mat_10 (1 / 1000) B 6 6 (zeros 6 6) (fun _ _ _ => Ok unit_dd) ltac:(lra) W ltac:(discriminate) (zeros_matrix 6 6)) ltac:(eauto))) as ([kk' q] & H).
  { unfold a_nnode. unfold B. cbn [a_pad a_ii0 a_jj0]. rewrite Ek, Es. split; [apply le_n|]. split; [apply le_n|]. split; [discriminate|intros i _; apply G]. }
  exists kk', q. unfold stiffened. rewrite Kc. repeat split; auto. exists 6%nat, 6%nat. apply zeros_matrix.
Qed.
