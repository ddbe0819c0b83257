(* The nodes of the A-version of the quarter disk with linear cells. *)
From Coq Require Import String Reals List Lia Lra Bool Arith ZArith Permutation Sorted.
From Verif Require Import Base BaseFacts Kind GraphModel MeshModel MeshQuerySpec TopoModel TopoSpec TopoMaps TopoProof TopoFeat3 TopoFinal GeomModel GeomSpec GeomProof GridModel GridSpec GridProof SearchModel SearchSpec SearchProof SearchProof2
  JoinModel JoinSpec JoinProof JoinProof2 JoinProof3 PropJoin Expr ShapesModel ShapesSpec PadModel PadSpec PadProof PadProof2 PadProof3 BlockModel BlockSpec BlockProof BlockProof2 BlockProof3 BlockProof10 PropBlock StructModel StructSpec StructProof StructProof4 RingSpec RingProof2 BlocksSpec BlocksProof BlocksProof2 BlocksProof3 BlocksProof4 BlocksProof5 BlocksProof6 BlocksProof7 BlocksProof8 BlocksProof9 ExactSpec ExactProof DiskModel DiskSpec DiskProof DiskProof2 DiskProof3 ShapesProof DiskProof4 PosSpec ExactProof2 StructProof6 DiskProof5 DiskProof6 DiskProof7 DiskProof8.
Import ListNotations.
Local Open Scope list_scope.
Local Open Scope R_scope.

Definition lin (nd : nat) : geokind := if (nd =? 2)%nat then Qua4 else Hex8.
Lemma corner_at nd g idx k y s c : (nd = 2 \/ nd = 3)%nat -> g_sides g = [(s, c)] -> (k < corners nd)%nat -> region_at nd g (lin nd) idx k y ->
  at_side nd s (region_ksi g (lin nd) idx k) /\ moved c (region_node nd g (lin nd) idx k) y \/ ~ at_side nd s (region_ksi g (lin nd) idx k) /\ y = region_node nd g (lin nd) idx k.
Proof.
  intros Hnd Es Hk At. unfold region_at in At. rewrite Es in At. destruct At as ((F & _) & _). specialize (F Hk). destruct F as [(s' & _ & A & c' & I & Mv)|(Fr & E)].
  - cbn in I. destruct I as [I|[]]. injection I as <- <-. left. split; [exact A|exact Mv].
  - right. split; [|exact E]. apply (Fr s). exists c. cbn. auto.
Qed.
Lemma tick_half n i : (1 <= n)%nat -> (1 + tick (-1) 1 n i) / 2 = INR i / INR n.
Proof. intros H. unfold tick. field. apply not_0_INR. lia. Qed.

Lemma frac_unit i n : (1 <= n)%nat -> (i <= n)%nat -> unit01 (INR i / INR n).
Proof.
  intros Hn Hi. apply le_INR in Hi. assert (0 < INR n) by (apply lt_0_INR; lia). pose proof (pos_INR i). split; [apply Rmult_le_pos; [assumption|apply Rlt_le, Rinv_0_lt_compat; assumption]|].
  apply (Rmult_le_reg_r (INR n)); [assumption|]. unfold Rdiv. rewrite Rmult_assoc, Rinv_l by lra. lra.
Qed.
Lemma frac_1 i n : (1 <= n)%nat -> (i <= n)%nat -> INR i / INR n = 1 <-> i = n.
Proof.
  intros Hn Hi. assert (0 < INR n) by (apply lt_0_INR; lia). split; [|intros ->; field; lra]. intros E. apply INR_eq. apply (f_equal (fun x => x * INR n)) in E. unfold Rdiv in E. rewrite Rmult_assoc, Rinv_l in E by lra. lra.
Qed.
Lemma frac_lt1 i n : (1 <= n)%nat -> (i <= n)%nat -> INR i / INR n <> 1 -> INR i / INR n < 1.
Proof. intros Hn Hi H. pose proof (frac_unit i n Hn Hi) as (_ & B). lra. Qed.


Section Nodes.
Variable r : R.
Hypothesis Hr : 0 < r.
Variables (na nb : nat).
Hypothesis Ha : (1 <= na)%nat.
Hypothesis Hb : (1 <= nb)%nat.
(* the point with these parameters of one of the three blocks *)
Definition pt2 (b : nat) (s t : R) (y : list R) : Prop :=
  match b with 0%nat => y = core_pt r s t | 1%nat => right_at r s t y | _ => right_at r s t (flip y) end.
Definition frac_s (b i j : nat) : R := match b with 0%nat => INR i / INR na | 1%nat => INR i / INR nb | _ => INR j / INR nb end.
Definition frac_t (b i j : nat) : R := match b with 0%nat => INR j / INR na | 1%nat => INR j / INR na | _ => INR i / INR na end.
Definition div_x (b : nat) : nat := match b with 0%nat => na | 1%nat => nb | _ => na end.
Definition div_y (b : nat) : nat := match b with 0%nat => na | 1%nat => na | _ => nb end.

Lemma core_spread x y : [spread 2 (core_a r) [x; y] 0; spread 2 (core_a r) [x; y] 1] = core_pt r ((1 + x) / 2) ((1 + y) / 2).
Proof.
  rewrite core_a_eq. unfold spread, blend. cbn [List.length corners Nat.eqb seq map linear_kind]. rewrite !ref_qua4 by lia. cbn [nth map fold_right sum]. unfold SQRT_2, core_pt. pose proof sqrt2_nz. f_equal; [field; assumption|f_equal; field; assumption].
Qed.
Lemma right_spread x y : [spread 2 (right_a r) [x; y] 0; spread 2 (right_a r) [x; y] 1] = right_pt r ((1 + x) / 2) ((1 + y) / 2).
Proof.
  rewrite right_a_eq. unfold spread, blend. cbn [List.length corners Nat.eqb seq map linear_kind]. rewrite !ref_qua4 by lia. cbn [nth map fold_right sum]. unfold SQRT_2, right_pt, inner, outer. cbn [nth]. pose proof sqrt2_nz. f_equal; [field; assumption|f_equal; field; assumption].
Qed.
Lemma top_spread x y : [spread 2 (top_a r) [x; y] 1; spread 2 (top_a r) [x; y] 0] = right_pt r ((1 + y) / 2) ((1 + x) / 2).
Proof.
  rewrite top_a_eq. unfold spread, blend. cbn [List.length corners Nat.eqb seq map linear_kind]. rewrite !ref_qua4 by lia. cbn [nth map fold_right sum]. unfold SQRT_2, right_pt, inner, outer. cbn [nth]. pose proof sqrt2_nz. f_equal; [field; assumption|f_equal; field; assumption].
Qed.
(* moved to the rim *)
Lemma outer_pos t : unit01 t -> 0 < nth 0 (outer r t) 0 /\ 0 <= nth 1 (outer r t) 0.
Proof. intros Ht. unfold unit01 in Ht. destruct (numbers r Hr) as (_ & Nq & _). cbn [outer nth]. split; nra. Qed.
Lemma outer_rim t y : unit01 t -> y = [r / dist2 (nth 0 (outer r t) 0) (nth 1 (outer r t) 0) * nth 0 (outer r t) 0; r / dist2 (nth 0 (outer r t) 0) (nth 1 (outer r t) 0) * nth 1 (outer r t) 0] -> rim_pt r t y.
Proof.
  intros Ht ->. pose proof (outer_pos t Ht) as (Px & Py). set (u := nth 0 (outer r t) 0) in *. set (v := nth 1 (outer r t) 0) in *. set (l := dist2 u v).
  assert (L2 : l * l = u ^ 2 + v ^ 2) by (unfold l, dist2; apply sqrt_sqrt; nra). assert (Lp : 0 < l) by (unfold l, dist2; apply sqrt_lt_R0; nra).
  exists (u / l), (v / l), l. split; [f_equal; [field; lra|f_equal; field; lra]|].
  assert (N : u / l * (u / l) + v / l * (v / l) = 1). { replace (u / l * (u / l) + v / l * (v / l)) with ((u ^ 2 + v ^ 2) / (l * l)) by (field; lra). rewrite L2. field. nra. }
  split; [exact N|]. split; [|split; unfold u, v; field; lra]. split; [exact Lp|]. pose proof (dot_outer r Hr (u / l) (v / l) t N Ht) as D. fold u in D. fold v in D. replace (u / l * u + v / l * v) with ((u ^ 2 + v ^ 2) / l) in D by (field; lra). rewrite <- L2 in D. replace (l * l / l) with l in D by (field; lra). exact D.
Qed.
Lemma right_pt_1 t : right_pt r 1 t = outer r t.
Proof. unfold right_pt, outer. cbn [nth]. f_equal; [ring|f_equal; ring]. Qed.
(* the plane part: x, y reference coordinates with (1 + x) / 2 = i / nx, ... *)
Lemma plane_pt b x y i j p : (b < 3)%nat -> (i <= div_x b)%nat -> (j <= div_y b)%nat -> (1 + x) / 2 = INR i / INR (div_x b) -> (1 + y) / 2 = INR j / INR (div_y b) ->
  let cs := nth b [core_a r; right_a r; top_a r] [] in let u := [spread 2 cs [x; y] 0; spread 2 cs [x; y] 1] in
  (b = 0%nat /\ p = u \/ b <> 0%nat /\ (let z := if (b =? 1)%nat then x else y in z <> 1 /\ p = u \/ z = 1 /\ p = [r / dist2 (nth 0 u 0) (nth 1 u 0) * nth 0 u 0; r / dist2 (nth 0 u 0) (nth 1 u 0) * nth 1 u 0])) ->
  pt2 b (frac_s b i j) (frac_t b i j) p.
Proof.
  intros Lb Hi Hj Ex Ey. cbv zeta. intros H. destruct b as [|[|[|b]]]; [| | |lia]; cbn [nth pt2 frac_s frac_t div_x div_y Nat.eqb] in *.
  - destruct H as [(_ & ->)|(H & _)]; [|lia]. rewrite core_spread, Ex, Ey. reflexivity.
  - destruct H as [(H & _)|(_ & [(Z & ->)|(Z & E)])]; [lia| |].
    + left. rewrite right_spread, Ex, Ey. split; [apply frac_lt1; try assumption; lra|reflexivity].
    + assert (E1 : INR i / INR nb = 1) by (rewrite <- Ex; subst x; lra). right. split; [exact E1|]. pose proof (right_spread x y) as Rs. rewrite Ex, Ey, E1, right_pt_1 in Rs.
      apply outer_rim; [apply frac_unit; assumption|]. rewrite <- Rs. exact E.
  - destruct H as [(H & _)|(_ & [(Z & ->)|(Z & E)])]; [lia| |].
    + left. unfold flip. cbn [nth]. rewrite top_spread, Ex, Ey. split; [apply frac_lt1; try assumption; lra|reflexivity].
    + assert (E1 : INR j / INR nb = 1) by (rewrite <- Ey; subst y; lra). right. split; [exact E1|]. pose proof (top_spread x y) as Rs. rewrite Ex, Ey, E1, right_pt_1 in Rs.
      apply outer_rim; [apply frac_unit; assumption|]. rewrite <- Rs. subst p. unfold flip. cbn [nth]. set (a := spread 2 (top_a r) [x; y] 0). set (c := spread 2 (top_a r) [x; y] 1).
      replace (dist2 c a) with (dist2 a c) by (unfold dist2; f_equal; ring). reflexivity.
Qed.

Definition disk2 := disk_2d (core_a r) (right_a r) (top_a r) r na nb.
Lemma disk2_at b g : nth_error disk2 b = Some g -> (b < 3)%nat /\ exists l, g = piece (nth b [core_a r; right_a r; top_a r] []) [div_x b; div_y b] l /\ (b = 0%nat /\ l = [] \/ b = 1%nat /\ l = [(1%nat, circle r)] \/ b = 2%nat /\ l = [(2%nat, circle r)]).
Proof.
  unfold disk2, disk_2d. intros E. destruct b as [|[|[|b]]]; cbn in E; [| | |destruct b; discriminate E]; injection E as <-; (split; [lia|]); eexists; (split; [reflexivity|]); auto 6.
Qed.
Lemma div_pos b : (1 <= div_x b)%nat /\ (1 <= div_y b)%nat.
Proof. destruct b as [|[|b]]; cbn; lia. Qed.
Lemma node_2d b g idx k y : nth_error disk2 b = Some g -> is_node 2 Qua4 g idx k y ->
  exists i j, lattice Qua4 idx k = [i; j] /\ (i <= div_x b)%nat /\ (j <= div_y b)%nat /\ pt2 b (frac_s b i j) (frac_t b i j) y.
Proof.
  intros Eg (Ix & Hk & Ly & At). destruct (disk2_at b g Eg) as (Lb & l & -> & Hl). set (cs := nth b [core_a r; right_a r; top_a r] []) in *. destruct (div_pos b) as (Px & Py).
  assert (Kt : In Qua4 (targets 2)) by (cbn; tauto). pose proof (idx_len 2 cs [div_x b; div_y b] l idx eq_refl Ix) as Li.
  pose proof (piece_ksi 2 Qua4 (or_introl eq_refl) Kt cs [div_x b; div_y b] l idx k eq_refl Ix Hk) as Ks. pose proof (lattice_le 2 Qua4 (or_introl eq_refl) Kt cs [div_x b; div_y b] l idx k eq_refl Ix Hk) as Ll. pose proof (ksi_len 2 Qua4 cs [div_x b; div_y b] l idx k eq_refl) as Lk.
  assert (LL : List.length (lattice Qua4 idx k) = 2%nat) by (unfold lattice; rewrite map_length, seq_length; exact Li).
  destruct (lattice Qua4 idx k) as [|i [|j [|? ?]]]; try discriminate LL. pose proof (Ks 0%nat ltac:(lia)) as K0. pose proof (Ks 1%nat ltac:(lia)) as K1. pose proof (Ll 0%nat ltac:(lia)) as L0. pose proof (Ll 1%nat ltac:(lia)) as L1. cbn [nth] in K0, K1, L0, L1. change (per Qua4) with 1%nat in *. rewrite !Nat.mul_1_l in *.
  exists i, j. split; [reflexivity|]. split; [exact L0|]. split; [exact L1|].
  destruct (region_ksi (piece cs [div_x b; div_y b] l) Qua4 idx k) as [|x [|z [|? ?]]] eqn:Ek; try discriminate Lk. cbn [nth] in K0, K1.
  apply (plane_pt b x z i j y Lb L0 L1); [subst x; apply tick_half; exact Px|subst z; apply tick_half; exact Py|]. fold cs.
  assert (Rn : region_node 2 (piece cs [div_x b; div_y b] l) Qua4 idx k = [spread 2 cs [x; z] 0; spread 2 cs [x; z] 1]) by (unfold region_node, region_map; rewrite Ek; reflexivity).
  assert (Mv : forall u y, List.length u = 2%nat -> moved (circle r) u y -> y = [r / dist2 (nth 0 u 0) (nth 1 u 0) * nth 0 u 0; r / dist2 (nth 0 u 0) (nth 1 u 0) * nth 1 u 0]).
  { intros u w Lu (P & _). cbn in P. destruct P as (Lw & P). pose proof (P 0%nat) as P0. pose proof (P 1%nat) as P1. cbn [Nat.eqb] in P0, P1. rewrite !Rminus_0_r, Rplus_0_l in P0, P1. destruct w as [|w0 [|w1 [|? ?]]]; try (rewrite Lu in Lw; discriminate Lw). cbn [nth] in P0, P1. rewrite P0, P1. reflexivity. }
  destruct Hl as [(-> & ->)|[(-> & ->)|(-> & ->)]].
  - left. split; [reflexivity|]. unfold region_at in At. cbn [piece g_sides] in At. rewrite <- Rn. exact At.
  - right. split; [lia|]. destruct (corner_at 2 (piece cs [div_x 1; div_y 1] [(1%nat, circle r)]) idx k y 1%nat (circle r) (or_introl eq_refl) eq_refl Hk At) as [(A & M)|(A & E)]; change (lin 2) with Qua4 in A; rewrite Ek in A; unfold at_side in A; cbn in A |- *.
    + right. split; [exact A|]. change (lin 2) with Qua4 in M. rewrite Rn in M. apply Mv in M; [exact M|reflexivity].
    + left. split; [exact A|]. change (lin 2) with Qua4 in E. rewrite Rn in E. exact E.
  - right. split; [lia|]. destruct (corner_at 2 (piece cs [div_x 2; div_y 2] [(2%nat, circle r)]) idx k y 2%nat (circle r) (or_introl eq_refl) eq_refl Hk At) as [(A & M)|(A & E)]; change (lin 2) with Qua4 in A; rewrite Ek in A; unfold at_side in A; cbn in A |- *.
    + right. split; [exact A|]. change (lin 2) with Qua4 in M. rewrite Rn in M. apply Mv in M; [exact M|reflexivity].
    + left. split; [exact A|]. change (lin 2) with Qua4 in E. rewrite Rn in E. exact E.
Qed.

Variables (h : R) (nz : nat).
Hypothesis Hh : 0 < h.
Hypothesis Hz : (1 <= nz)%nat.
Definition disk3 := disk_3d (core_a r) (right_a r) (top_a r) r h na nb nz.
Lemma disk3_at b g : nth_error disk3 b = Some g -> (b < 3)%nat /\ exists l, g = piece (extrude h (nth b [core_a r; right_a r; top_a r] [])) [div_x b; div_y b; nz] l /\ (b = 0%nat /\ l = [] \/ b = 1%nat /\ l = [(1%nat, cylinder r)] \/ b = 2%nat /\ l = [(3%nat, cylinder r)]).
Proof.
  unfold disk3, disk_3d. intros E. destruct b as [|[|[|b]]]; cbn in E; [| | |destruct b; discriminate E]; injection E as <-; (split; [lia|]); eexists; (split; [reflexivity|]); auto 6.
Qed.
Lemma planar_three b : (b < 3)%nat -> planar (nth b [core_a r; right_a r; top_a r] []).
Proof. intros H. destruct b as [|[|[|b]]]; [apply planar_core_a|apply planar_right_a|apply planar_top_a|lia]. Qed.
Lemma node_3d b g idx k y : nth_error disk3 b = Some g -> is_node 3 Hex8 g idx k y ->
  exists i j l, lattice Hex8 idx k = [i; j; l] /\ (i <= div_x b)%nat /\ (j <= div_y b)%nat /\ (l <= nz)%nat /\ nth 2 y 0 = h * (INR l / INR nz) /\ pt2 b (frac_s b i j) (frac_t b i j) [nth 0 y 0; nth 1 y 0].
Proof.
  intros Eg (Ix & Hk & Ly & At). destruct (disk3_at b g Eg) as (Lb & sd & -> & Hl). pose proof (planar_three b Lb) as (Pl1 & Pl2). set (cs := nth b [core_a r; right_a r; top_a r] []) in *. destruct (div_pos b) as (Px & Py).
  assert (Kt : In Hex8 (targets 3)) by (cbn; tauto). pose proof (idx_len 3 (extrude h cs) [div_x b; div_y b; nz] sd idx eq_refl Ix) as Li.
  pose proof (piece_ksi 3 Hex8 (or_intror eq_refl) Kt (extrude h cs) [div_x b; div_y b; nz] sd idx k eq_refl Ix Hk) as Ks. pose proof (lattice_le 3 Hex8 (or_intror eq_refl) Kt (extrude h cs) [div_x b; div_y b; nz] sd idx k eq_refl Ix Hk) as Ll. pose proof (ksi_len 3 Hex8 (extrude h cs) [div_x b; div_y b; nz] sd idx k eq_refl) as Lk.
  assert (LL : List.length (lattice Hex8 idx k) = 3%nat) by (unfold lattice; rewrite map_length, seq_length; exact Li).
  destruct (lattice Hex8 idx k) as [|i [|j [|l [|? ?]]]]; try discriminate LL. pose proof (Ks 0%nat ltac:(lia)) as K0. pose proof (Ks 1%nat ltac:(lia)) as K1. pose proof (Ks 2%nat ltac:(lia)) as K2. pose proof (Ll 0%nat ltac:(lia)) as L0. pose proof (Ll 1%nat ltac:(lia)) as L1. pose proof (Ll 2%nat ltac:(lia)) as L2. cbn [nth] in K0, K1, K2, L0, L1, L2. change (per Hex8) with 1%nat in *. rewrite !Nat.mul_1_l in *.
  exists i, j, l. split; [reflexivity|]. split; [exact L0|]. split; [exact L1|]. split; [exact L2|].
  destruct (region_ksi (piece (extrude h cs) [div_x b; div_y b; nz] sd) Hex8 idx k) as [|x [|z [|w [|? ?]]]] eqn:Ek; try discriminate Lk. cbn [nth] in K0, K1, K2.
  assert (Rn : region_node 3 (piece (extrude h cs) [div_x b; div_y b; nz] sd) Hex8 idx k = [spread 2 cs [x; z] 0; spread 2 cs [x; z] 1; h * (INR l / INR nz)]).
  { unfold region_node, region_map. rewrite Ek. cbn [piece g_nodes seq map]. destruct (spread_extrude h cs x z w Pl1 Pl2) as (-> & -> & ->). rewrite <- (tick_half nz l Hz), <- K2. f_equal. f_equal. f_equal. field. }
  assert (Mv : forall u y, List.length u = 3%nat -> moved (cylinder r) u y -> y = [r / dist2 (nth 0 u 0) (nth 1 u 0) * nth 0 u 0; r / dist2 (nth 0 u 0) (nth 1 u 0) * nth 1 u 0; nth 2 u 0]).
  { intros u v Lu (P & _). cbn in P. destruct P as (Lw & P). pose proof (P 0%nat) as P0. pose proof (P 1%nat) as P1. pose proof (P 2%nat) as P2. cbn [Nat.eqb] in P0, P1, P2. rewrite !Rminus_0_r, Rplus_0_l in P0, P1. destruct v as [|w0 [|w1 [|w2 [|? ?]]]]; try (rewrite Lu in Lw; discriminate Lw). cbn [nth] in P0, P1, P2. rewrite P0, P1, P2. reflexivity. }
  assert (Q : (1 + x) / 2 = INR i / INR (div_x b)) by (subst x; apply tick_half; exact Px). assert (Q' : (1 + z) / 2 = INR j / INR (div_y b)) by (subst z; apply tick_half; exact Py).
  assert (PP : forall p, (b = 0%nat /\ p = [spread 2 cs [x; z] 0; spread 2 cs [x; z] 1] \/ b <> 0%nat /\ ((if (b =? 1)%nat then x else z) <> 1 /\ p = [spread 2 cs [x; z] 0; spread 2 cs [x; z] 1] \/
      (if (b =? 1)%nat then x else z) = 1 /\ p = [r / dist2 (spread 2 cs [x; z] 0) (spread 2 cs [x; z] 1) * spread 2 cs [x; z] 0; r / dist2 (spread 2 cs [x; z] 0) (spread 2 cs [x; z] 1) * spread 2 cs [x; z] 1])) -> pt2 b (frac_s b i j) (frac_t b i j) p).
  { intros p Hp. apply (plane_pt b x z i j p Lb L0 L1 Q Q'). exact Hp. }
  destruct Hl as [(-> & ->)|[(-> & ->)|(-> & ->)]].
  - unfold region_at in At. cbn [piece g_sides] in At. rewrite At, Rn. cbn [nth]. split; [reflexivity|]. apply PP. left. split; reflexivity.
  - destruct (corner_at 3 (piece (extrude h cs) [div_x 1; div_y 1; nz] [(1%nat, cylinder r)]) idx k y 1%nat (cylinder r) (or_intror eq_refl) eq_refl Hk At) as [(A & M)|(A & E)]; change (lin 3) with Hex8 in A; rewrite Ek in A; unfold at_side in A; cbn in A.
    + change (lin 3) with Hex8 in M. rewrite Rn in M. apply Mv in M; [|reflexivity]. rewrite M. cbn [nth]. split; [reflexivity|]. apply PP. right. split; [lia|]. right. split; [exact A|reflexivity].
    + change (lin 3) with Hex8 in E. rewrite Rn in E. rewrite E. cbn [nth]. split; [reflexivity|]. apply PP. right. split; [lia|]. left. split; [exact A|reflexivity].
  - destruct (corner_at 3 (piece (extrude h cs) [div_x 2; div_y 2; nz] [(3%nat, cylinder r)]) idx k y 3%nat (cylinder r) (or_intror eq_refl) eq_refl Hk At) as [(A & M)|(A & E)]; change (lin 3) with Hex8 in A; rewrite Ek in A; unfold at_side in A; cbn in A.
    + change (lin 3) with Hex8 in M. rewrite Rn in M. apply Mv in M; [|reflexivity]. rewrite M. cbn [nth]. split; [reflexivity|]. apply PP. right. split; [lia|]. right. split; [exact A|reflexivity].
    + change (lin 3) with Hex8 in E. rewrite Rn in E. rewrite E. cbn [nth]. split; [reflexivity|]. apply PP. right. split; [lia|]. left. split; [exact A|reflexivity].
Qed.
End Nodes.
