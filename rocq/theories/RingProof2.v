(* The mesh of a quarter ring. *)
From Coq Require Import String Reals List Lia Lra Bool Arith ZArith Permutation.
From Verif Require Import Base BaseFacts Kind MeshModel MeshQuerySpec TopoModel TopoSpec GeomModel GeomSpec GeomProof GridModel GridSpec GridProof SearchModel SearchProof
  JoinModel JoinSpec JoinProof JoinProof2 ShapesModel ShapesSpec PadModel PadSpec PadProof PadProof2 PadProof3 BlockModel BlockSpec BlockProof BlockProof2 BlockProof3 BlockProof8 BlockProof9 BlockProof10 PropBlock GraphModel StructModel StructSpec StructProof StructProof3 StructProof4 RingSpec RingProof.
Import ListNotations.
Local Open Scope list_scope.
Local Open Scope R_scope.

(* ---------------------------------------------------------------- the unit square and cube *)
Definition cube_nodes (l : R) : mat := [[0; 0; 0]; [l; 0; 0]; [l; l; 0]; [0; l; 0]; [0; 0; l]; [l; 0; l]; [l; l; l]; [0; l; l]].
Lemma ref_hex20 : forall m, (m < 20)%nat -> ref_coords Hex20 m =
  nth m [[-1; -1; -1]; [1; -1; -1]; [1; 1; -1]; [-1; 1; -1]; [-1; -1; 1]; [1; -1; 1]; [1; 1; 1]; [-1; 1; 1];
         [0; -1; -1]; [1; 0; -1]; [0; 1; -1]; [-1; 0; -1]; [0; -1; 1]; [1; 0; 1]; [0; 1; 1]; [-1; 0; 1];
         [-1; -1; 0]; [1; -1; 0]; [1; 1; 0]; [-1; 1; 0]] [].
Proof. intros m Hm. unfold ref_coords. do 20 (destruct m as [|m]; [cbn; unfold Q2R; cbn; repeat f_equal; lra|]). lia. Qed.
Lemma cube_det l d : det_center 3 (cube_nodes l) d -> d = l * l * l / 8.
Proof.
  intros (p & a & W & K & S & [H1 H2] & J & ->). change (bkind 3) with Hex20 in *.
  set (A := fun i j => match i, j with 0%nat, 0%nat => l / 2 | 1%nat, 1%nat => l / 2 | 2%nat, 2%nat => l / 2 | _, _ => 0 end).
  set (b := fun i : nat => l / 2).
  assert (AP : affine_pad p A b).
  { intros i m Hi Hm. rewrite S in Hi. rewrite K in Hm |- *. change (m < 20)%nat in Hm. change (kind_ndim Hex20) with 3%nat.
    rewrite ref_hex20 by auto. specialize (H2 eq_refl).
    assert (C : forall q, (q < 8)%nat -> node_x p i q = nth i (nth q (cube_nodes l) []) 0) by (intros q Hq; apply H1; simpl; lia).
    assert (M : forall e, (e < 12)%nat -> node_x p i (edge_node_id Hex20 e 2) = (node_x p i (edge_node_id Hex20 e 0) + node_x p i (edge_node_id Hex20 e 1)) / 2) by (intros e He; apply H2; [vm_compute; lia|exact Hi]).
    assert (V : node_x p i m = nth i (nth m (cube_nodes l ++ map (fun e => map (fun i => (nth i (nth (edge_node_id Hex20 e 0) (cube_nodes l) []) 0 + nth i (nth (edge_node_id Hex20 e 1) (cube_nodes l) []) 0) / 2) [0; 1; 2]%nat) (seq 0 12)) []) 0).
    { do 8 (destruct m as [|m]; [rewrite C by lia; reflexivity|]).
      do 12 (destruct m as [|m]; [match goal with |- node_x p i ?n = _ => let e := eval cbv in (n - 8)%nat in
        pose proof (M e ltac:(lia)) as X; change (edge_node_id Hex20 e 2) with n in X; rewrite X, !C by (vm_compute; lia) end; destruct i as [|[|[|i]]]; [reflexivity..|lia]|]). lia. }
    rewrite V. clear V M C H1 H2 J W. unfold A, b, sum_n. do 20 (destruct m as [|m]; [destruct i as [|[|[|i]]]; [cbn; lra..|lia]|]). lia. }
  assert (J' : jacobian_of p (repeat 0 3) A) by (apply (affine_jacobian p A b); auto; rewrite K; reflexivity).
  transitivity (det 3 A); [|unfold A; cbn; lra]. apply det_ext. intros i j Hi Hj. apply (jacobian_unique p (repeat 0 3)); auto; rewrite ?S, ?K; auto.
Qed.
Lemma cube_ok zdet l : 0 <= zdet -> zdet < l * l * l / 8 ->
  exists p, block_new zdet 3 (cube_nodes l) = Ok (mkBlock MARKER 3 [2; 2; 2]%nat [[1; 1]; [1; 1]; [1; 1]] [] [] [] [] p (mkRing 0 (PI / 2) 1 2 0 1) false).
Proof.
  intros Hz H. destruct (new_fields zdet 3 (cube_nodes l) Hz) as (d & D & A & _).
  { split; [right; reflexivity|left; reflexivity]. }
  { intros m Hm. simpl in Hm. do 8 (destruct m as [|m]; [reflexivity|]). lia. }
  rewrite (cube_det _ _ D) in A. destruct (A H) as (p & W & K & S & O & HN & E). exists p.
  rewrite E. cbn [repeat]. unfold NAT_LENGTH. replace (2 / INR 2) with 1 by (simpl; lra). reflexivity.
Qed.

(* ---------------------------------------------------------------- divisions by weights *)
Lemma sum_firstn_S : forall (w : list R) i, (i < List.length w)%nat -> sum (firstn (S i) w) = sum (firstn i w) + nth i w 0.
Proof.
  induction w as [|a w IH]; intros i Hi; [cbn in Hi; lia|]. destruct i as [|i]; [cbn; lra|].
  cbn [nth]. change (sum (firstn (S (S i)) (a :: w))) with (a + sum (firstn (S i) w)). change (sum (firstn (S i) (a :: w))) with (a + sum (firstn i w)). rewrite IH by (cbn in Hi; lia). lra.
Qed.
Lemma weighted_line w ds i : sum w <> 0 -> weighted w ds -> (i <= List.length w)%nat -> line ds i = -1 + 2 * (sum (firstn i w) / sum w).
Proof.
  intros Hs (L & H) Hi. unfold line. assert (E : sum (firstn i ds) = 2 * (sum (firstn i w) / sum w)); [|lra].
  induction i as [|i IH]; [cbn; field; exact Hs|]. rewrite !sum_firstn_S by lia. rewrite IH, H by lia. field. exact Hs.
Qed.
Lemma cut_node a b w ds i t : sum w <> 0 -> weighted w ds -> (i < List.length w)%nat ->
  stretch a b (line ds i + nth i ds 0 * ((1 + t) / 2)) = stretch (cut a b w i) (cut a b w (S i)) t.
Proof.
  intros Hs Hw Hi. rewrite (weighted_line w ds i Hs Hw) by lia. rewrite (proj2 Hw) by exact Hi. unfold stretch, cut. rewrite sum_firstn_S by exact Hi. field. exact Hs.
Qed.
Lemma sum_ones n : sum (repeat 1 n) = INR n.
Proof. rewrite sum_repeat. lra. Qed.
Lemma cut_ones a b n i : (i <= n)%nat -> cut a b (repeat 1 n) i = tick a b n i.
Proof. intros Hi. unfold cut, tick. rewrite firstn_repeat by exact Hi. rewrite !sum_ones. reflexivity. Qed.

Lemma nth_blocks {A} (f : nat -> list A) n : forall m s, (forall k, List.length (f k) = n) ->
  List.length (flat_map f (seq s m)) = (n * m)%nat /\ forall k i, (k < m)%nat -> (i < n)%nat -> nth_error (flat_map f (seq s m)) (i + n * k) = nth_error (f (s + k)%nat) i.
Proof.
  induction m as [|m IH]; intros s L; [split; [cbn; lia|intros; lia]|]. destruct (IH (S s) L) as (A1 & A2). cbn [seq flat_map]. split; [rewrite app_length, L, A1; lia|].
  intros [|k] i Hk Hi.
  - rewrite nth_error_app1 by (rewrite L; lia). rewrite Nat.add_0_r. f_equal. lia.
  - rewrite nth_error_app2 by (rewrite L; lia). rewrite L. replace (i + n * S k - n)%nat with (i + n * k)%nat by lia. rewrite A2 by lia. f_equal. f_equal. lia.
Qed.
Lemma nth_sectors ra rb h wr na nz i j k : (i < List.length wr)%nat -> (j < na)%nat -> (k < nz)%nat ->
  nth_error (ring_sectors ra rb h wr na nz) (i + List.length wr * (j + na * k)) =
  Some (mkSector (cut ra rb wr i) (cut ra rb wr (S i)) (tick 0 (PI / 2) na j) (tick 0 (PI / 2) na (S j)) (tick 0 h nz k) (tick 0 h nz (S k))).
Proof.
  intros Hi Hj Hk. unfold ring_sectors.
  match goal with |- nth_error (flat_map ?f _) _ = _ => destruct (nth_blocks f (List.length wr * na) nz 0) as (_ & X) end. { intros q. apply (length_grid (fun j i => mkSector (cut ra rb wr i) (cut ra rb wr (S i)) (tick 0 (PI / 2) na j) (tick 0 (PI / 2) na (S j)) (tick 0 h nz q) (tick 0 h nz (S q)))). }
  replace (i + List.length wr * (j + na * k))%nat with (i + List.length wr * j + List.length wr * na * k)%nat by nia. rewrite X by nia.
  apply (nth_grid (fun j i => mkSector (cut ra rb wr i) (cut ra rb wr (S i)) (tick 0 (PI / 2) na j) (tick 0 (PI / 2) na (S j)) (tick 0 h nz k) (tick 0 h nz (S k)))); assumption.
Qed.
Lemma length_sectors ra rb h wr na nz : List.length (ring_sectors ra rb h wr na nz) = (List.length wr * na * nz)%nat.
Proof. unfold ring_sectors. apply nth_blocks. intros q. apply (length_grid (fun j i => mkSector (cut ra rb wr i) (cut ra rb wr (S i)) (tick 0 (PI / 2) na j) (tick 0 (PI / 2) na (S j)) (tick 0 h nz q) (tick 0 h nz (S q)))). Qed.
