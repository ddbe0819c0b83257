(* Determinants at the centres of the blocks of the quarter disks and plates. *)
From Coq Require Import String Reals List Lia Lra Bool Arith ZArith Permutation Sorted.
From Verif Require Import Base BaseFacts Kind GraphModel MeshModel MeshQuerySpec TopoModel TopoSpec TopoMaps TopoProof TopoFeat3 TopoFinal GeomModel GeomSpec GeomProof GridModel GridSpec GridProof SearchModel SearchSpec SearchProof SearchProof2
  JoinModel JoinSpec JoinProof JoinProof2 JoinProof3 PropJoin ShapesModel ShapesSpec PadModel PadSpec PadProof PadProof2 PadProof3 BlockModel BlockSpec BlockProof BlockProof2 BlockProof3 BlockProof10 PropBlock StructModel StructSpec StructProof StructProof4 RingSpec RingProof2 BlocksSpec BlocksProof BlocksProof2 BlocksProof3 BlocksProof4 BlocksProof5 BlocksProof6 BlocksProof7 BlocksProof8 BlocksProof9 ExactSpec ExactProof DiskModel DiskSpec DiskProof DiskProof2 DiskProof3 ShapesProof.
Import ListNotations.
Local Open Scope list_scope.
Local Open Scope R_scope.

Definition mid_of (cs : mat) (k i : nat) : R :=
  if (List.length cs =? 4)%nat then (nth i (nth k cs []) 0 + nth i (nth (Nat.modulo (S k) 4) cs []) 0) / 2 else nth i (nth (4 + k) cs []) 0.
Definition center_det (cs : mat) : R :=
  ((mid_of cs 1 0 - mid_of cs 3 0) * (mid_of cs 2 1 - mid_of cs 0 1) - (mid_of cs 1 1 - mid_of cs 3 1) * (mid_of cs 2 0 - mid_of cs 0 0)) / 4.

Lemma ent_deriv k ksi m j : (m < kind_nnode k)%nat -> ent (calc_deriv k ksi) m j = nth j (nth m (calc_deriv k ksi) []) 0.
Proof. intros. reflexivity. Qed.
Lemma qua8_jac p a i : pad_wf p -> p_kind p = Qua8 -> p_space p = 2%nat -> jacobian_of p (repeat 0 2) a -> (i < 2)%nat ->
  a i 0%nat = (node_x p i 5 - node_x p i 7) / 2 /\ a i 1%nat = (node_x p i 6 - node_x p i 4) / 2.
Proof.
  intros W K Sp J Hi. assert (J0 : (kind_ndim (p_kind p) <= List.length (repeat 0 2))%nat) by (rewrite K; vm_compute; lia). pose proof (jj_partial p (repeat 0 2) W J0) as J'. clear J0.
  assert (Hi' : (i < p_space p)%nat) by (rewrite Sp; exact Hi).
  assert (H0 : (0 < kind_ndim (p_kind p))%nat) by (rewrite K; vm_compute; lia). assert (H1 : (1 < kind_ndim (p_kind p))%nat) by (rewrite K; vm_compute; lia).
  rewrite (jacobian_unique p _ a _ i 0%nat J J' Hi' H0), (jacobian_unique p _ a _ i 1%nat J J' Hi' H1). rewrite !jj_ent by assumption. rewrite K. change (kind_nnode Qua8) with 8%nat. unfold sum_n. cbn [seq fold_right map].
  split; (rewrite !ent_deriv by (vm_compute; lia)); rewrite !nth_calc_deriv; cbn; unfold Q2R; cbn; field.
Qed.
Lemma det_2d cs d : List.length cs = 4%nat \/ List.length cs = 8%nat -> det_center 2 cs d -> d = center_det cs.
Proof.
  intros L (p & a & W & K & Sp & [H1 H2] & J & ->). change (bkind 2) with Qua8 in *.
  assert (M : forall k i, (k < 4)%nat -> (i < 2)%nat -> node_x p i (4 + k) = mid_of cs k i).
  { intros k i Hk Hi. unfold mid_of. destruct L as [L|L]; rewrite L; cbn [Nat.eqb].
    - specialize (H2 L k i ltac:(vm_compute; lia) Hi). rewrite L in H1. do 4 (destruct k as [|k]; [cbn in H2 |- *; rewrite H2, !H1 by lia; lra|]). lia.
    - apply H1; lia. }
  destruct (qua8_jac p a 0 W K Sp J ltac:(lia)) as (A0 & A1). destruct (qua8_jac p a 1 W K Sp J ltac:(lia)) as (B0 & B1).
  assert (N : forall i, (i < 2)%nat -> node_x p i 4 = mid_of cs 0 i /\ node_x p i 5 = mid_of cs 1 i /\ node_x p i 6 = mid_of cs 2 i /\ node_x p i 7 = mid_of cs 3 i) by (intros i Hi; repeat split; (rewrite <- M by lia; reflexivity)).
  destruct (N 0%nat ltac:(lia)) as (X4 & X5 & X6 & X7), (N 1%nat ltac:(lia)) as (Y4 & Y5 & Y6 & Y7). 
  unfold center_det. unfold det. rewrite A0, A1, B0, B1, X4, X5, X6, X7, Y4, Y5, Y6, Y7. field.
Qed.
Lemma hex20_jac p a i : pad_wf p -> p_kind p = Hex20 -> p_space p = 3%nat -> jacobian_of p (repeat 0 3) a -> (i < 3)%nat -> let x := node_x p i in
  a i 0%nat = (x 0%nat + x 3%nat + x 4%nat + x 7%nat - x 1%nat - x 2%nat - x 5%nat - x 6%nat) / 8 + (x 9%nat + x 13%nat + x 17%nat + x 18%nat - x 11%nat - x 15%nat - x 16%nat - x 19%nat) / 4 /\
  a i 1%nat = (x 0%nat + x 1%nat + x 4%nat + x 5%nat - x 2%nat - x 3%nat - x 6%nat - x 7%nat) / 8 + (x 10%nat + x 14%nat + x 18%nat + x 19%nat - x 8%nat - x 12%nat - x 16%nat - x 17%nat) / 4 /\
  a i 2%nat = (x 0%nat + x 1%nat + x 2%nat + x 3%nat - x 4%nat - x 5%nat - x 6%nat - x 7%nat) / 8 + (x 12%nat + x 13%nat + x 14%nat + x 15%nat - x 8%nat - x 9%nat - x 10%nat - x 11%nat) / 4.
Proof.
  intros W K Sp J Hi x. assert (J0 : (kind_ndim (p_kind p) <= List.length (repeat 0 3))%nat) by (rewrite K; vm_compute; lia). pose proof (jj_partial p (repeat 0 3) W J0) as J'. clear J0.
  assert (Hi' : (i < p_space p)%nat) by (rewrite Sp; exact Hi).
  assert (H0 : (0 < kind_ndim (p_kind p))%nat) by (rewrite K; vm_compute; lia). assert (H1 : (1 < kind_ndim (p_kind p))%nat) by (rewrite K; vm_compute; lia). assert (H2 : (2 < kind_ndim (p_kind p))%nat) by (rewrite K; vm_compute; lia).
  rewrite (jacobian_unique p _ a _ i 0%nat J J' Hi' H0), (jacobian_unique p _ a _ i 1%nat J J' Hi' H1), (jacobian_unique p _ a _ i 2%nat J J' Hi' H2). rewrite !jj_ent by assumption. rewrite K. change (kind_nnode Hex20) with 20%nat. unfold sum_n. cbn [seq fold_right map]. fold x.
  split; [|split]; (rewrite !ent_deriv by (vm_compute; lia)); rewrite !nth_calc_deriv; cbn; unfold Q2R; cbn; field.
Qed.
Lemma det_3d h cs d : List.length cs = 4%nat \/ List.length cs = 8%nat -> (forall x, In x cs -> List.length x = 2%nat) -> det_center 3 (extrude h cs) d -> d = center_det cs * (h / 2).
Proof.
  intros L P (p & a & W & K & Sp & [H1 H2] & J & ->). change (bkind 3) with Hex20 in *.
  pose proof (hex20_jac p a 0 W K Sp J ltac:(lia)) as X. pose proof (hex20_jac p a 1 W K Sp J ltac:(lia)) as Y. pose proof (hex20_jac p a 2 W K Sp J ltac:(lia)) as Z. cbv zeta in X, Y, Z.
  assert (Two : forall x, In x cs -> exists u v, x = [u; v]). { intros x I. specialize (P x I). destruct x as [|u [|v [|? ?]]]; try discriminate P. eauto. }
  destruct L as [L|L].
  - destruct cs as [|c0 [|c1 [|c2 [|c3 [|? ?]]]]]; try discriminate L.
    destruct (Two c0 ltac:(cbn; tauto)) as (u0 & v0 & ->), (Two c1 ltac:(cbn; tauto)) as (u1 & v1 & ->), (Two c2 ltac:(cbn; tauto)) as (u2 & v2 & ->), (Two c3 ltac:(cbn; tauto)) as (u3 & v3 & ->). clear Two P L.
    assert (M : forall i, (i < 3)%nat -> Forall2 (fun e m => node_x p i m = (node_x p i (edge_node_id Hex20 e 0) + node_x p i (edge_node_id Hex20 e 1)) / 2) [0;1;2;3;4;5;6;7;8;9;10;11]%nat [8;9;10;11;12;13;14;15;16;17;18;19]%nat).
    { intros i Hi. repeat apply Forall2_cons; [..|apply Forall2_nil]; (eapply eq_trans; [|apply (H2 eq_refl _ i); [vm_compute; lia|exact Hi]]); reflexivity. }
    assert (C : forall m i, (m < 8)%nat -> (i < 3)%nat -> node_x p i m = nth i (nth m (extrude h [[u0; v0]; [u1; v1]; [u2; v2]; [u3; v3]]) []) 0) by (intros m i Hm Hi; apply H1; [cbn; lia|exact Hi]).
    clear H1 H2. 
    assert (Q : forall i m, (i < 3)%nat -> (8 <= m < 20)%nat -> node_x p i m = nth (m - 8) (map (fun e => (node_x p i (edge_node_id Hex20 e 0) + node_x p i (edge_node_id Hex20 e 1)) / 2) (seq 0 12)) 0).
    { intros i m Hi Hm. specialize (M i Hi). do 8 (destruct m as [|m]; [lia|]). replace (S (S (S (S (S (S (S (S m))))))) - 8)%nat with m by lia.
      repeat match goal with H : Forall2 _ _ _ |- _ => inversion H; clear H; subst end. do 12 (destruct m as [|m]; [cbn [nth seq map]; assumption|]). lia. }
    clear M. rewrite (Q 0 8)%nat, (Q 0 9)%nat, (Q 0 10)%nat, (Q 0 11)%nat, (Q 0 12)%nat, (Q 0 13)%nat, (Q 0 14)%nat, (Q 0 15)%nat, (Q 0 16)%nat, (Q 0 17)%nat, (Q 0 18)%nat, (Q 0 19)%nat in X by lia. rewrite (Q 1 8)%nat, (Q 1 9)%nat, (Q 1 10)%nat, (Q 1 11)%nat, (Q 1 12)%nat, (Q 1 13)%nat, (Q 1 14)%nat, (Q 1 15)%nat, (Q 1 16)%nat, (Q 1 17)%nat, (Q 1 18)%nat, (Q 1 19)%nat in Y by lia. rewrite (Q 2 8)%nat, (Q 2 9)%nat, (Q 2 10)%nat, (Q 2 11)%nat, (Q 2 12)%nat, (Q 2 13)%nat, (Q 2 14)%nat, (Q 2 15)%nat, (Q 2 16)%nat, (Q 2 17)%nat, (Q 2 18)%nat, (Q 2 19)%nat in Z by lia. cbn [nth seq map Nat.sub] in X, Y, Z.
    cbn in X, Y, Z. rewrite !C in X, Y, Z by lia. cbn in X, Y, Z.
    destruct X as (X0 & X1 & X2), Y as (Y0 & Y1 & Y2), Z as (Z0 & Z1 & Z2). unfold det. rewrite X0, X1, X2, Y0, Y1, Y2, Z0, Z1, Z2. unfold center_det, mid_of. cbn. field.
  - destruct cs as [|c0 [|c1 [|c2 [|c3 [|c4 [|c5 [|c6 [|c7 [|? ?]]]]]]]]]; try discriminate L.
    destruct (Two c0 ltac:(cbn; tauto)) as (u0 & v0 & ->), (Two c1 ltac:(cbn; tauto)) as (u1 & v1 & ->), (Two c2 ltac:(cbn; tauto)) as (u2 & v2 & ->), (Two c3 ltac:(cbn; tauto)) as (u3 & v3 & ->).
    destruct (Two c4 ltac:(cbn; tauto)) as (u4 & v4 & ->), (Two c5 ltac:(cbn; tauto)) as (u5 & v5 & ->), (Two c6 ltac:(cbn; tauto)) as (u6 & v6 & ->), (Two c7 ltac:(cbn; tauto)) as (u7 & v7 & ->). clear Two P L H2.
    rewrite !H1 in X, Y, Z by (cbn; lia). clear H1. cbn in X, Y, Z.
    destruct X as (X0 & X1 & X2), Y as (Y0 & Y1 & Y2), Z as (Z0 & Z1 & Z2). unfold det. rewrite X0, X1, X2, Y0, Y1, Y2, Z0, Z1, Z2. unfold center_det, mid_of. cbn. field.
Qed.
