(* Collections of blocks: the map of a block given by its corners. *)
From Coq Require Import String Reals List Lia Lra Bool Arith ZArith Permutation.
From Verif Require Import Base BaseFacts Kind MeshModel MeshQuerySpec TopoModel TopoSpec ShapesModel ShapesSpec PadModel PadSpec BlockModel BlockSpec BlocksSpec RingProof2.
Import ListNotations.
Local Open Scope list_scope.
Local Open Scope R_scope.

Lemma ref_qua4 : forall m, (m < 4)%nat -> ref_coords Qua4 m = nth m [[-1; -1]; [1; -1]; [1; 1]; [-1; 1]] [].
Proof. intros m Hm. unfold ref_coords. do 4 (destruct m as [|m]; [cbn; unfold Q2R; cbn; repeat f_equal; lra|]). lia. Qed.
Lemma ref_hex8 : forall m, (m < 8)%nat -> ref_coords Hex8 m =
  nth m [[-1; -1; -1]; [1; -1; -1]; [1; 1; -1]; [-1; 1; -1]; [-1; -1; 1]; [1; -1; 1]; [1; 1; 1]; [-1; 1; 1]] [].
Proof. intros m Hm. unfold ref_coords. do 8 (destruct m as [|m]; [cbn; unfold Q2R; cbn; repeat f_equal; lra|]). lia. Qed.

Lemma blend_2 p xs r s i : p_kind p = Qua8 -> List.length xs = 4%nat -> holds_nodes 2 xs p -> (i < 2)%nat -> pos p [r; s] i = blend 2 xs [r; s] i.
Proof.
  intros K L [H1 H2] Hi. specialize (H2 L). change (bkind 2) with Qua8 in H2. change (kind_nedge Qua8) with 4%nat in H2.
  assert (C : forall m, (m < 4)%nat -> node_x p i m = nth i (nth m xs []) 0) by (intros m Hm; apply H1; [rewrite L; exact Hm|exact Hi]).
  pose proof (H2 0%nat i ltac:(lia) Hi) as M0. pose proof (H2 1%nat i ltac:(lia) Hi) as M1. pose proof (H2 2%nat i ltac:(lia) Hi) as M2. pose proof (H2 3%nat i ltac:(lia) Hi) as M3.
  unfold edge_node_id in M0, M1, M2, M3. cbn in M0, M1, M2, M3. pose proof (C 0%nat ltac:(lia)) as C0. pose proof (C 1%nat ltac:(lia)) as C1. pose proof (C 2%nat ltac:(lia)) as C2. pose proof (C 3%nat ltac:(lia)) as C3.
  rewrite ?C0, ?C1, ?C2, ?C3 in M0, M1, M2, M3.
  unfold pos. rewrite K. change (kind_nnode Qua8) with 8%nat. unfold blend. rewrite L. change (linear_kind 2) with Qua4. cbn [seq map]. rewrite !ref_qua4 by lia.
  unfold sum_n, calc_interp. cbn. rewrite M0, M1, M2, M3, C0, C1, C2, C3. unfold sum. cbn. generalize (nth i (nth 0 xs []) 0), (nth i (nth 1 xs []) 0), (nth i (nth 2 xs []) 0), (nth i (nth 3 xs []) 0). intros a b c d. unfold Q2R. cbn [QArith_base.Qnum QArith_base.Qden]. field.
Qed.

Lemma blend_3 p xs r s t i : p_kind p = Hex20 -> List.length xs = 8%nat -> holds_nodes 3 xs p -> (i < 3)%nat -> pos p [r; s; t] i = blend 3 xs [r; s; t] i.
Proof.
  intros K L [H1 H2] Hi. specialize (H2 L). change (bkind 3) with Hex20 in H2. change (kind_nedge Hex20) with 12%nat in H2.
  assert (C : forall m, (m < 8)%nat -> node_x p i m = nth i (nth m xs []) 0) by (intros m Hm; apply H1; [rewrite L; exact Hm|exact Hi]).
  assert (M : forall e, (e < 12)%nat -> node_x p i (8 + e) = (nth i (nth (edge_node_id Hex20 e 0) xs []) 0 + nth i (nth (edge_node_id Hex20 e 1) xs []) 0) / 2).
  { intros e He. rewrite <- !C by (do 12 (destruct e as [|e]; [vm_compute; lia|]); lia). rewrite <- (H2 e i He Hi). do 12 (destruct e as [|e]; [reflexivity|]). lia. }
  unfold pos. rewrite K. change (kind_nnode Hex20) with 20%nat. unfold blend. rewrite L. change (linear_kind 3) with Hex8. cbn [seq map]. rewrite !ref_hex8 by lia.
  unfold sum_n, calc_interp. cbn [fold_right map seq].
  rewrite (C 0%nat), (C 1%nat), (C 2%nat), (C 3%nat), (C 4%nat), (C 5%nat), (C 6%nat), (C 7%nat) by lia.
  rewrite (M 0%nat : _ -> node_x p i 8 = _), (M 1%nat : _ -> node_x p i 9 = _), (M 2%nat : _ -> node_x p i 10 = _), (M 3%nat : _ -> node_x p i 11 = _), (M 4%nat : _ -> node_x p i 12 = _), (M 5%nat : _ -> node_x p i 13 = _) by lia.
  rewrite (M 6%nat : _ -> node_x p i 14 = _), (M 7%nat : _ -> node_x p i 15 = _), (M 8%nat : _ -> node_x p i 16 = _), (M 9%nat : _ -> node_x p i 17 = _), (M 10%nat : _ -> node_x p i 18 = _), (M 11%nat : _ -> node_x p i 19 = _) by lia.
  clear. unfold edge_node_id. cbn. unfold sum. cbn [fold_right].
  generalize (nth i (nth 0 xs []) 0), (nth i (nth 1 xs []) 0), (nth i (nth 2 xs []) 0), (nth i (nth 3 xs []) 0), (nth i (nth 4 xs []) 0), (nth i (nth 5 xs []) 0), (nth i (nth 6 xs []) 0), (nth i (nth 7 xs []) 0).
  intros x0 x1 x2 x3 x4 x5 x6 x7. unfold Q2R. cbn [QArith_base.Qnum QArith_base.Qden]. field.
Qed.
