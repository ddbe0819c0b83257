(* Properties of the quarter rings (mesh/generators_qua_hex.rs). *)
From Coq Require Import String Reals List Lia Lra Bool Arith ZArith Permutation.
From Verif Require Import Base BaseFacts Kind MeshModel MeshQuerySpec GridModel SearchProof ShapesModel ShapesSpec BlockModel BlockSpec GraphModel StructModel StructSpec StructProof RingSpec RingProof RingProof2 RingProof4.
Import ListNotations.
Local Open Scope list_scope.
Local Open Scope R_scope.

(* ---- the mesh shows the sectors asked for, without overlapping points if the inner radius is positive ---- *)
Theorem C77_ring_2d : forall zdet sh shc ra rb wr na target renumber m,
  0 <= zdet < / 4 -> (forall c, Permutation (sh c) c) -> (forall l, Permutation (shc l) l) ->
  wr <> [] -> 1 <= sum wr -> (1 <= na)%nat -> ra < rb -> kind_class target = CQua ->
  not_fine (tolR 2) target wr -> not_fine (tolR 2) target (repeat 1 na) ->
  quarter_ring_2d zdet sh shc ra rb wr na target renumber = Ok m ->
  pictures 2 m (map (sector_shape 2 target) (ring_sectors ra rb 1 wr na 1)) /\ (0 < ra -> distinct_points m).
Proof.
  intros zdet sh shc ra rb wr na target renumber m (Z0 & Hz) P PC Nw Sw Na Hr Ft NF NA H.
  destruct (done_2d zdet sh shc target Z0 P PC ra rb wr na Hz Nw Sw Na Hr Ft NF NA) as (m0 & Pic & D & E). rewrite E in H.
  destruct renumber; cbn [maybe_renumber] in H; [|injection H as <-; auto]. destruct (renumber_pictures _ _ _ _ Pic H) as (A & B). auto.
Qed.
Print Assumptions C77_ring_2d.

Theorem C77_ring_3d : forall zdet sh shc ra rb h wr na nz target renumber m,
  0 <= zdet < / 8 -> (forall c, Permutation (sh c) c) -> (forall l, Permutation (shc l) l) ->
  wr <> [] -> 1 <= sum wr -> (1 <= na)%nat -> (1 <= nz)%nat -> ra < rb -> 0 < h -> kind_class target = CHex ->
  not_fine (tolR 3) target wr -> not_fine (tolR 3) target (repeat 1 na) -> not_fine (tolR 3) target (repeat 1 nz) ->
  quarter_ring_3d zdet sh shc ra rb h wr na nz target renumber = Ok m ->
  pictures 3 m (map (sector_shape 3 target) (ring_sectors ra rb h wr na nz)) /\ (0 < ra -> distinct_points m).
Proof.
  intros zdet sh shc ra rb h wr na nz target renumber m (Z0 & Hz) P PC Nw Sw Na Nz Hr Hh Ft NF NA NZ H.
  destruct (done_3d zdet sh shc target Z0 P PC ra rb h wr na nz Hz Nw Sw Na Nz Hr Hh Ft NF NA NZ) as (m0 & Pic & D & E). rewrite E in H.
  destruct renumber; cbn [maybe_renumber] in H; [|injection H as <-; auto]. destruct (renumber_pictures _ _ _ _ Pic H) as (A & B). auto.
Qed.
Print Assumptions C77_ring_3d.

(* ---- and it is made; with renumbering the result is that of renumber_mesh ---- *)
Theorem C77_total_2d : forall zdet sh shc ra rb wr na target,
  0 <= zdet < / 4 -> (forall c, Permutation (sh c) c) -> (forall l, Permutation (shc l) l) ->
  wr <> [] -> 1 <= sum wr -> (1 <= na)%nat -> ra < rb -> kind_class target = CQua ->
  not_fine (tolR 2) target wr -> not_fine (tolR 2) target (repeat 1 na) ->
  exists m, quarter_ring_2d zdet sh shc ra rb wr na target false = Ok m /\
    quarter_ring_2d zdet sh shc ra rb wr na target true = renumber_mesh m false.
Proof.
  intros zdet sh shc ra rb wr na target (Z0 & Hz) P PC Nw Sw Na Hr Ft NF NA.
  destruct (done_2d zdet sh shc target Z0 P PC ra rb wr na Hz Nw Sw Na Hr Ft NF NA) as (m0 & _ & _ & E). exists m0. rewrite !E. auto.
Qed.
Print Assumptions C77_total_2d.
Theorem C77_total_3d : forall zdet sh shc ra rb h wr na nz target,
  0 <= zdet < / 8 -> (forall c, Permutation (sh c) c) -> (forall l, Permutation (shc l) l) ->
  wr <> [] -> 1 <= sum wr -> (1 <= na)%nat -> (1 <= nz)%nat -> ra < rb -> 0 < h -> kind_class target = CHex ->
  not_fine (tolR 3) target wr -> not_fine (tolR 3) target (repeat 1 na) -> not_fine (tolR 3) target (repeat 1 nz) ->
  exists m, quarter_ring_3d zdet sh shc ra rb h wr na nz target false = Ok m /\
    quarter_ring_3d zdet sh shc ra rb h wr na nz target true = renumber_mesh m false.
Proof.
  intros zdet sh shc ra rb h wr na nz target (Z0 & Hz) P PC Nw Sw Na Nz Hr Hh Ft NF NA NZ.
  destruct (done_3d zdet sh shc target Z0 P PC ra rb h wr na nz Hz Nw Sw Na Nz Hr Hh Ft NF NA NZ) as (m0 & _ & _ & E). exists m0. rewrite !E. auto.
Qed.
Print Assumptions C77_total_3d.

Lemma tol3_small : tolR 3 < / 1000.
Proof.
  unfold tolR. assert (B : sqrt (INR 3) <= 2). { rewrite <- (sqrt_Rsqr 2) by lra. apply sqrt_le_1_alt. unfold Rsqr. cbn. lra. } lra.
Qed.
(* weights 1, 2 along the radius from 1 to 4, two divisions of the angle, one along z: the last node is on the outer circle *)
Example C77_ex : forall sh shc, (forall c, Permutation (sh c) c) -> (forall l, Permutation (shc l) l) -> exists m,
  quarter_ring_3d (/ 100) sh shc 1 4 5 [1; 2] 2 1 Hex20 false = Ok m /\ List.length (cells m) = 4%nat /\
  exists c p, nth_error (cells m) 3 = Some c /\ nth_error (c_points c) 9 = Some p /\ coords_of m p [4 * cos (3 * PI / 8); 4 * sin (3 * PI / 8); 0].
Proof.
  intros sh shc P PC. pose proof tol3_small as T. assert (S3 : sum [1; 2] = 3) by (cbn; lra). assert (Pr : INR (per Hex20) = 2) by (cbn; lra).
  assert (N1 : not_fine (tolR 3) Hex20 [1; 2]). { intros v Hv. rewrite S3, Pr. destruct Hv as [<-|[<-|[]]]; lra. }
  assert (N2 : not_fine (tolR 3) Hex20 (repeat 1 2)). { intros v Hv. rewrite sum_ones, Pr. cbn [INR]. destruct Hv as [<-|[<-|[]]]; lra. }
  assert (N3 : not_fine (tolR 3) Hex20 (repeat 1 1)). { intros v Hv. rewrite sum_ones, Pr. cbn [INR]. destruct Hv as [<-|[]]; lra. }
  destruct (C77_total_3d (/ 100) sh shc 1 4 5 [1; 2] 2 1 Hex20) as (m & E & _); try assumption; try lra; try lia; try discriminate; try reflexivity.
  exists m. split; [exact E|].
  destruct (C77_ring_3d (/ 100) sh shc 1 4 5 [1; 2] 2 1 Hex20 false m) as ((_ & _ & _ & _ & _ & _ & SH) & _); try assumption; try lra; try lia; try discriminate; try reflexivity.
  apply Forall2_nth in SH. destruct SH as (L & SH). change (List.length (cells m) = 4%nat) in L. split; [exact L|].
  destruct (nth_error (cells m) 3) as [c|] eqn:Ec; [|apply nth_error_None in Ec; lia].
  destruct (SH 3%nat c _ Ec eq_refl) as (_ & _ & Nd). apply Forall2_nth in Nd. destruct Nd as (LN & Nd). change (List.length (c_points c) = 20%nat) in LN.
  destruct (nth_error (c_points c) 9) as [p|] eqn:Ep; [|apply nth_error_None in Ep; lia]. exists c, p. split; [reflexivity|]. split; [exact Ep|].
  pose proof (Nd 9%nat p _ Ep eq_refl) as C.
  assert (X : [4 * cos (3 * PI / 8); 4 * sin (3 * PI / 8); 0] = sector_node 3 Hex20 (mkSector (cut 1 4 [1; 2] 1) (cut 1 4 [1; 2] 2) (tick 0 (PI / 2) 2 1) (tick 0 (PI / 2) 2 2) (tick 0 5 1 0) (tick 0 5 1 1)) 9); [|rewrite X; exact C].
  unfold sector_node, polar. rewrite ref_hex20 by lia. cbn [nth firstn r_0 r_1 t_0 t_1 z_0 z_1].
  assert (X0 : stretch (cut 1 4 [1; 2] 1) (cut 1 4 [1; 2] 2) 1 = 4) by (unfold stretch, cut; cbn; field).
  assert (X1 : stretch (tick 0 (PI / 2) 2 1) (tick 0 (PI / 2) 2 2) 0 = 3 * PI / 8) by (unfold stretch, tick; cbn; field).
  assert (X2 : stretch (tick 0 5 1 0) (tick 0 5 1 1) (-1) = 0) by (unfold stretch, tick; cbn; field).
  rewrite X0, X1, X2. reflexivity.
Qed.

(* ---- wrong arguments are errors ---- *)
Theorem C77_errors_2d : forall zdet sh shc ra rb wr na target renumber, 0 <= zdet < / 4 ->
  wr = [] \/ sum wr < 1 \/ na = 0%nat \/ rb <= ra \/ kind_class target <> CQua ->
  exists msg, quarter_ring_2d zdet sh shc ra rb wr na target renumber = Err msg.
Proof. intros zdet sh shc ra rb wr na target renumber (Z0 & Hz). exact (errors_2d zdet sh shc target Z0 ra rb wr na renumber Hz). Qed.
Print Assumptions C77_errors_2d.
Theorem C77_errors_3d : forall zdet sh shc ra rb h wr na nz target renumber, 0 <= zdet < / 8 ->
  wr = [] \/ sum wr < 1 \/ na = 0%nat \/ nz = 0%nat \/ rb <= ra \/ h <= 0 \/ kind_class target <> CHex ->
  exists msg, quarter_ring_3d zdet sh shc ra rb h wr na nz target renumber = Err msg.
Proof. intros zdet sh shc ra rb h wr na nz target renumber (Z0 & Hz). exact (errors_3d zdet sh shc target Z0 ra rb h wr na nz renumber Hz). Qed.
Print Assumptions C77_errors_3d.
Example C77_errors_ex : exists msg, quarter_ring_3d (/ 100) (fun c => c) (fun l => l) 1 2 (-1) [1] 1 1 Hex8 true = Err msg.
Proof. apply C77_errors_3d; [lra|]. do 5 right. left. lra. Qed.

(* ---- refuted: rings never have overlapping points. The inner radius may be zero ---- *)
Theorem C77_distinct_refuted : forall zdet sh shc, 0 <= zdet < / 4 -> (forall c, Permutation (sh c) c) -> (forall l, Permutation (shc l) l) ->
  exists m i j, quarter_ring_2d zdet sh shc 0 1 [1] 1 Qua4 false = Ok m /\ i <> j /\ coords_of m i [0; 0] /\ coords_of m j [0; 0].
Proof. exact zero_radius. Qed.
Print Assumptions C77_distinct_refuted.
