(* Unstructured quarter ring in 3D: the complete input of Tetgen. *)
From Coq Require Import String List Arith Bool ZArith Reals Lia Lra.
From Verif Require Import Base BaseFacts Kind MeshModel TopoModel GeomModel UnstrModel UnstrSpec UnstrProof UnstrProof2 UnstrProof6.
Import ListNotations.
Local Open Scope list_scope.
Local Open Scope nat_scope.

Section Table.
Variables (nr na : nat).
Hypothesis Hr : 1 <= nr. Hypothesis Ha : 1 <= na.
Notation n := (2 * nr + 2 * na).
Notation b := (2 * nr + na).
Definition flen : list nat := [n; n; 2 * (nr + 1); 2 * (nr + 1)] ++ repeat 4 (na + na).
Definition T (i m : nat) : nat := nth m (ring_facet nr na i) 0.
Lemma flen_length : List.length flen = 4 + 2 * na. Proof. clear Hr Ha. unfold flen. rewrite app_length, repeat_length. simpl. lia. Qed.
Lemma nth4 j : j < 2 * na -> nth (4 + j) flen 0 = 4.
Proof. intros Hj. unfold flen. cbn [nth app Nat.add]. rewrite (nth_indep _ 0 4) by (rewrite repeat_length; lia). apply nth_repeat. Qed.
Lemma facet_len i : i < 4 + 2 * na -> List.length (ring_facet nr na i) = nth i flen 0.
Proof.
  intros Hi. destruct (Nat.lt_ge_cases i 4) as [L|L].
  - unfold ring_facet, flen. destruct i as [|[|[|[|j]]]]; try lia; cbn [nth app]; rewrite ?app_length, ?rev_length, ?seq_length; lia.
  - replace i with (4 + (i - 4)) by lia. rewrite nth4 by lia. unfold ring_facet. cbn [Nat.add]. destruct (i - 4 <? na); reflexivity.
Qed.
Lemma T0 m : m < n -> T 0 m = m. Proof. intros. unfold T, ring_facet. rewrite seq_nth by lia. reflexivity. Qed.
Lemma T1 m : m < n -> T 1 m = n + m. Proof. intros. unfold T, ring_facet. rewrite seq_nth by lia. reflexivity. Qed.
Lemma T2a i : i < nr + 1 -> T 2 i = i.
Proof. intros. unfold T, ring_facet. rewrite app_nth1 by (rewrite seq_length; lia). rewrite seq_nth by lia. reflexivity. Qed.
Lemma T2b i : i < nr + 1 -> T 2 (nr + 1 + nr - i) = n + i.
Proof.
  intros. unfold T, ring_facet. rewrite app_nth2 by (rewrite seq_length; lia). rewrite seq_length. rewrite rev_nth by (rewrite seq_length; lia).
  rewrite seq_length, seq_nth by lia. lia.
Qed.
Lemma T3a i : i < nr + 1 -> T 3 i = b - i.
Proof. intros. unfold T, ring_facet. rewrite app_nth1 by (rewrite rev_length, seq_length; lia). rewrite rev_nth by (rewrite seq_length; lia). rewrite seq_length, seq_nth by lia. lia. Qed.
Lemma T3b i : i < nr + 1 -> T 3 (nr + 1 + nr - i) = n + b - i.
Proof. intros. unfold T, ring_facet. rewrite app_nth2 by (rewrite rev_length, seq_length; lia). rewrite rev_length, seq_length. rewrite seq_nth by lia. lia. Qed.
Lemma T4 j m : j < na -> m < 4 -> T (4 + j) m = nth m [b + j; (b + j + 1) mod n; n + (b + j + 1) mod n; n + b + j] 0.
Proof. intros Hj Hm. unfold T, ring_facet. cbn [Nat.add]. rewrite (proj2 (Nat.ltb_lt j na)) by auto. reflexivity. Qed.
Lemma T5 j m : j < na -> m < 4 -> T (4 + na + j) m = nth m [nr + j; nr + j + 1; n + (nr + j) + 1; n + (nr + j)] 0.
Proof.
  intros Hj Hm. unfold T, ring_facet. replace (4 + na + j) with (S (S (S (S (na + j))))) by lia.
  rewrite (proj2 (Nat.ltb_ge (na + j) na)) by lia. replace (na + j - na) with j by lia. reflexivity.
Qed.
Lemma T_range i m : i < List.length flen -> m < nth i flen 0 -> T i m < 2 * n.
Proof.
  rewrite flen_length. intros Hi Hm. assert (In (T i m) (ring_facet nr na i)) as HI by (apply nth_In; rewrite facet_len; auto).
  destruct (Nat.lt_ge_cases i 4) as [L|L].
  - unfold ring_facet in HI. destruct i as [|[|[|[|j]]]]; try lia; rewrite ?in_app_iff, <- ?in_rev, !in_seq in HI; lia.
  - replace i with (4 + (i - 4)) in * by lia. set (j := i - 4) in *. rewrite nth4 in Hm by lia. destruct (Nat.lt_ge_cases j na) as [Lj|Lj].
    + rewrite T4 by auto. pose proof (Nat.mod_upper_bound (b + j + 1) n ltac:(lia)). destruct m as [|[|[|[|m]]]]; cbn [nth]; lia.
    + replace (4 + j) with (4 + na + (j - na)) by lia. rewrite T5 by lia. destruct m as [|[|[|[|m]]]]; cbn [nth]; lia.
Qed.
End Table.

Local Open Scope R_scope.
Definition ring_point (rmin rmax thickness : R) (nr na i : nat) : Z * R * R * R :=
  let n := (2 * nr + 2 * na)%nat in
  let k := (i mod n)%nat in (ring_corner_marker nr na k, fst (ring_corner rmin rmax nr na k), snd (ring_corner rmin rmax nr na k), if (i <? n)%nat then 0 else thickness).
Local Open Scope nat_scope.

Lemma ring_solid rmin rmax thickness nr na : 1 <= nr -> 1 <= na -> let n := 2 * nr + 2 * na in
  exists t, ring_input_3d rmin rmax thickness nr na = Ok t /\
    ei_points t = map (fun i => Some (ring_point rmin rmax thickness nr na i)) (seq 0 (2 * n)) /\
    ei_facets t = map (map Some) (ring_facets nr na) /\
    ei_facet_markers t = map (fun f => Some (ring_facet_marker na f)) (seq 0 (4 + 2 * na)) /\
    ei_regions t = [Some (1%Z, rmin + / 10 ^ 4, / 10 ^ 4, / 10 ^ 4, None)%R] /\ ei_holes t = [].
Proof.
  intros Hr Ha n. unfold ring_input_3d. cbv zeta. replace (2 * (nr + 1) + 2 * (na - 1)) with n by (unfold n; lia).
  set (F := ring_point rmin rmax thickness nr na).
  unfold tetgen_new. rewrite (proj2 (Nat.ltb_ge (2 * n) 4)) by (unfold n; lia).
  change ([n; n; 2 * (nr + 1); 2 * (nr + 1)] ++ repeat 4 (na + na)) with (flen nr na). rewrite (flen_length nr na).
  rewrite (proj2 (Nat.ltb_ge (4 + 2 * na) 4)) by lia.
  replace (existsb (fun k => k <? 3) (flen nr na)) with false.
  2:{ symmetry. apply Bool.not_true_is_false. intros Z. apply existsb_exists in Z. destruct Z as (x & Hx & Lx). apply Nat.ltb_lt in Lx.
      unfold flen in Hx. apply in_app_iff in Hx. destruct Hx as [Hx|Hx]; [simpl in Hx|apply repeat_spec in Hx]; lia. }
  cbn [bind]. set (t0 := mkTetIn _ _ _ _ _).
  (* points *)
  assert (P0 : pinv F (2 * n) t0 0 t0) by (unfold pinv, t0; cbn [seq map app ei_facet_markers ei_facets ei_regions ei_holes]; now rewrite Nat.sub_0_r).
  assert (HF : forall k i, k < 2 -> i < n -> F (k * n + i) = (ring_corner_marker nr na i, fst (ring_corner rmin rmax nr na i), snd (ring_corner rmin rmax nr na i), INR k * (thickness / INR 1))%R).
  { intros k i Hk Hi. unfold F, ring_point. fold n. replace ((k * n + i) mod n) with i by (rewrite Nat.add_comm, Nat.mod_add by (unfold n; lia); now rewrite Nat.mod_small).
    f_equal. destruct k as [|[|k]]; [| |lia].
    - rewrite (proj2 (Nat.ltb_lt (0 * n + i) n)) by lia. cbn [INR]. field.
    - rewrite (proj2 (Nat.ltb_ge (1 * n + i) n)) by lia. cbn [INR]. field. }
  change (1 + 1) with 2. cbn [seq foldM].
  destruct (level_ok F (2 * n) t0 rmin rmax (INR 0 * (thickness / INR 1)) nr na 0 Hr Ha ltac:(unfold n; lia)) with (t := t0) as (t1 & E1 & I1);
    [intros i Hi; exact (HF 0 i ltac:(lia) Hi)|exact P0|]. cbn [INR] in E1 |- *. rewrite E1. cbn [bind]. rewrite Nat.add_0_l in *.
  destruct (level_ok F (2 * n) t0 rmin rmax (INR 1 * (thickness / INR 1)) nr na n Hr Ha ltac:(unfold n; lia)) with (t := t1) as (t2 & E2 & I2);
    [intros i Hi; rewrite <- (HF 1 i ltac:(lia) Hi); f_equal; lia|exact I1|]. cbn [INR] in E2. fold n in E2, I2 |- *. rewrite E2. cbn [bind fst].
  replace (n + n) with (2 * n) in I2 by lia. unfold pinv in I2. rewrite Nat.sub_diag in I2. cbn [repeat] in I2. rewrite app_nil_r in I2.
  set (pts := map (fun i => Some (F i)) (seq 0 (2 * n))) in *.
  set (len := flen nr na) in *. set (TT := T nr na). set (M := ring_facet_marker na).
  assert (LL : List.length len = 4 + 2 * na) by apply flen_length.
  assert (HT : forall i m, i < List.length len -> m < nth i len 0 -> TT i m < List.length pts).
  { intros i m Hi Hm. unfold pts. rewrite map_length, seq_length. now apply T_range. }
  set (INV := finv len TT M pts [None] []).
  assert (V0 : INV (fun _ _ => False) (fun _ => False) t2).
  { rewrite I2. unfold INV, finv. cbn [ei_points ei_regions ei_holes ei_facet_markers ei_facets]. unfold t0. cbn [ei_points ei_regions ei_holes ei_facet_markers ei_facets].
    split; [auto|]. split; [auto|]. split; [auto|]. split; [rewrite repeat_length; auto|]. split; [tauto|]. split; [|tauto].
    rewrite map_map. rewrite <- (map_id len) at 2. apply map_ext. intros. apply repeat_length. }
  clear E1 E2 I1 I2 P0 HF t1. clearbody t0. clear t0.
  assert (L0 : nth 0 len 0 = n) by reflexivity. assert (L1 : nth 1 len 0 = n) by reflexivity.
  assert (L2 : nth 2 len 0 = 2 * (nr + 1)) by reflexivity. assert (L3 : nth 3 len 0 = 2 * (nr + 1)) by reflexivity.
  assert (L4 : forall j, j < 2 * na -> nth (4 + j) len 0 = 4) by (intros; now apply nth4).
  pose proof (fun W D t i m p => facet_point_ok len TT M pts [None] [] HT W D t i m p) as FP. fold INV in FP.
  pose proof (fun W D t i mk => facet_marker_ok len TT M pts [None] [] W D t i mk) as FM. fold INV in FM.
  pose proof (fun W D W' D' t => finv_weaken len TT M pts [None] [] W D W' D' t) as FW. fold INV in FW.
  (* z = 0 *)
  destruct (FM _ _ t2 0 MARKER_ZMIN V0) as (t3 & E3 & V3); [lia|reflexivity|]. rewrite E3. cbn [bind]. clear E3.
  match goal with |- context [foldM ?s (seq 0 n) t3] => destruct (iloop s (fun k => INV (fun i m => i = 0 /\ m < k) (fun i => i = 0)) n) with (t := t3) as (t4 & E4 & V4) end.
  { intros k t Hk V. destruct (FP _ _ t 0 k (0 + k) V) as (t' & E & V'); [lia|lia|unfold TT; rewrite T0 by (fold n; auto); reflexivity|]. exists t'. split; [exact E|].
    apply (FW _ _ _ _ _ V'); intros; lia. }
  { apply (FW _ _ _ _ _ V3); intros; lia. }
  rewrite E4. cbn [bind]. clear E4 V3 t3.
  (* z = thickness *)
  destruct (FM _ _ t4 1 MARKER_ZMAX V4) as (t5 & E5 & V5); [lia|reflexivity|]. rewrite E5. cbn [bind]. clear E5.
  match goal with |- context [foldM ?s (seq 0 n) t5] => destruct (iloop s (fun k => INV (fun i m => i < 1 \/ (i = 1 /\ m < k)) (fun i => i < 2)) n) with (t := t5) as (t6 & E6 & V6) end.
  { intros k t Hk V. destruct (FP _ _ t 1 k (0 + n + k) V) as (t' & E & V'); [lia|lia|unfold TT; rewrite T1 by (fold n; auto); reflexivity|]. exists t'. split; [exact E|].
    apply (FW _ _ _ _ _ V'); intros; lia. }
  { apply (FW _ _ _ _ _ V5); intros; [|lia]. destruct H1 as [H1|H1]; [|lia]. replace i with 0 in * by lia. lia. }
  rewrite E6. cbn [bind]. clear E6 V5 V4 t5.
  (* y = 0 *)
  destruct (FM _ _ t6 2 MARKER_SYM_X V6) as (t7 & E7 & V7); [lia|reflexivity|]. rewrite E7. cbn [bind]. clear E7.
  match goal with |- context [foldM ?s (seq 0 (nr + 1)) t7] => destruct (iloop s (fun k => INV (fun i m => i < 2 \/ (i = 2 /\ (m < k \/ nr + 1 + nr < m + k))) (fun i => i < 3)) (nr + 1)) with (t := t7) as (t8 & E8 & V8) end.
  { intros k t Hk V. destruct (FP _ _ t 2 k (0 + k) V) as (t' & E & V'); [lia|lia|unfold TT; rewrite T2a by auto; reflexivity|]. rewrite E. cbn [bind].
    destruct (FP _ _ t' 2 (nr + 1 + nr - k) (0 + n + k) V') as (t'' & E' & V''); [lia|lia|unfold TT; rewrite T2b by auto; reflexivity|]. exists t''. split; [exact E'|].
    apply (FW _ _ _ _ _ V''); intros; lia. }
  { apply (FW _ _ _ _ _ V7); intros; [|lia]. destruct i as [|[|[|[|i]]]]; lia. }
  rewrite E8. cbn [bind]. clear E8 V7 V6 t7.
  (* x = 0 *)
  destruct (FM _ _ t8 3 MARKER_SYM_Y V8) as (t9 & E9 & V9); [lia|reflexivity|]. rewrite E9. cbn [bind]. clear E9.
  match goal with |- context [foldM ?s (seq 0 (nr + 1)) t9] => destruct (iloop s (fun k => INV (fun i m => i < 3 \/ (i = 3 /\ (m < k \/ nr + 1 + nr < m + k))) (fun i => i < 4)) (nr + 1)) with (t := t9) as (t10 & E10 & V10) end.
  { intros k t Hk V. destruct (FP _ _ t 3 k (0 + nr + na + nr - k) V) as (t' & E & V'); [lia|lia|unfold TT; rewrite T3a by auto; lia|]. rewrite E. cbn [bind].
    destruct (FP _ _ t' 3 (nr + 1 + nr - k) (0 + nr + na + nr + n - k) V') as (t'' & E' & V''); [lia|lia|unfold TT; rewrite T3b by auto; lia|]. exists t''. split; [exact E'|].
    apply (FW _ _ _ _ _ V''); intros; lia. }
  { apply (FW _ _ _ _ _ V9); intros; [|lia]. destruct i as [|[|[|[|i]]]]; lia. }
  rewrite E10. cbn [bind]. clear E10 V9 V8 t9.
  assert (V10' : INV (fun i m => i < 4) (fun i => i < 4) t10) by (apply (FW _ _ _ _ _ V10); intros; [|lia]; destruct i as [|[|[|[|i]]]]; lia). clear V10.
  (* inner *)
  assert (QUAD : forall t k mk p0 p1 p2 p3, INV (fun i m => i < k) (fun i => i < k) t -> 4 <= k < 4 + 2 * na -> mk = M k -> p0 = TT k 0 -> p1 = TT k 1 -> p2 = TT k 2 -> p3 = TT k 3 ->
    exists ta tb tc td te, tet_facet_marker t k mk = Ok ta /\ tet_facet_point ta k 0 p0 = Ok tb /\ tet_facet_point tb k 1 p1 = Ok tc /\ tet_facet_point tc k 2 p2 = Ok td /\
      tet_facet_point td k 3 p3 = Ok te /\ INV (fun i m => i < S k) (fun i => i < S k) te).
  { intros t k mk p0 p1 p2 p3 V Hk Em Q0 Q1 Q2 Q3. assert (Lk : nth k len 0 = 4) by (replace k with (4 + (k - 4)) by lia; apply L4; lia).
    destruct (FM _ _ t k mk V) as (ta & Ea & Va); [lia|auto|]. destruct (FP _ _ ta k 0 p0 Va) as (tb & Eb & Vb); [lia|lia|auto|].
    destruct (FP _ _ tb k 1 p1 Vb) as (tc & Ec & Vc); [lia|lia|auto|]. destruct (FP _ _ tc k 2 p2 Vc) as (td & Ed & Vd); [lia|lia|auto|].
    destruct (FP _ _ td k 3 p3 Vd) as (te & Ee & Ve); [lia|lia|auto|]. exists ta, tb, tc, td, te. repeat (split; [assumption|]).
    apply (FW _ _ _ _ _ Ve); intros; [|lia]. assert (i < k \/ i = k) as [Z|Z] by lia; [lia|]. subst i. rewrite Lk in *. lia. }
  assert (MI : forall k, k < na -> M (4 + k) = MARKER_INNER).
  { intros k Hk. unfold M, ring_facet_marker. cbn [Nat.add Nat.eqb]. now rewrite (proj2 (Nat.ltb_lt _ _)) by lia. }
  assert (MO : forall k, M (4 + na + k) = MARKER_OUTER).
  { intros k. unfold M, ring_facet_marker. replace (4 + na + k) with (S (S (S (S (na + k))))) by lia. cbn [Nat.eqb]. now rewrite (proj2 (Nat.ltb_ge _ _)) by lia. }
  match goal with |- context [foldM ?s (seq 0 (na - 1)) t10] => destruct (iloop s (fun k => INV (fun i m => i < 4 + k) (fun i => i < 4 + k)) (na - 1)) with (t := t10) as (t11 & E11 & V11) end; [|exact V10'|].
  { intros k t Hk V. cbv beta. destruct (QUAD t (4 + k) MARKER_INNER (0 + nr + na + nr + k) (0 + nr + na + nr + 1 + k) (0 + nr + na + nr + n + 1 + k) (0 + nr + na + nr + n + k) V) as (ta & tb & tc & td & te & Ea & Eb & Ec & Ed & Ee & Ve).
    - lia.
    - symmetry. apply MI. lia.
    - unfold TT. rewrite T4 by lia. cbn [nth]. lia.
    - unfold TT. rewrite T4 by lia. cbn [nth]. rewrite Nat.mod_small by lia. lia.
    - unfold TT. rewrite T4 by lia. cbn [nth]. fold n. rewrite Nat.mod_small by (unfold n; lia). lia.
    - unfold TT. rewrite T4 by lia. cbn [nth]. fold n. lia.
    - exists te. rewrite Ea. cbn [bind foldM fst snd]. rewrite Eb. cbn [bind]. rewrite Ec. cbn [bind]. rewrite Ed. cbn [bind]. rewrite Ee. split; [reflexivity|].
      replace (4 + S k) with (S (4 + k)) by lia. exact Ve. }
  rewrite E11. cbn [bind]. clear E11.
  replace (4 + na - 1) with (4 + (na - 1)) by lia.
  destruct (QUAD t11 (4 + (na - 1)) MARKER_INNER (0 + nr + na + nr + na - 1) 0 (0 + n) (0 + nr + na + nr + n + na - 1) V11) as (ta & tb & tc & td & te & Ea & Eb & Ec & Ed & Ee & Ve).
  { lia. } { symmetry. apply MI. lia. } { unfold TT. rewrite T4 by lia. cbn [nth]. lia. }
  { unfold TT. rewrite T4 by lia. cbn [nth]. replace (2 * nr + na + (na - 1) + 1) with (2 * nr + 2 * na) by lia. now rewrite Nat.mod_same by lia. }
  { unfold TT. rewrite T4 by lia. cbn [nth]. replace (2 * nr + na + (na - 1) + 1) with (2 * nr + 2 * na) by lia. rewrite Nat.mod_same by lia. fold n. lia. }
  { unfold TT. rewrite T4 by lia. cbn [nth]. fold n. lia. }
  rewrite Ea. cbn [bind]. rewrite Eb. cbn [bind]. rewrite Ec. cbn [bind]. rewrite Ed. cbn [bind]. rewrite Ee. cbn [bind].
  clear Ea Eb Ec Ed Ee ta tb tc td. replace (S (4 + (na - 1))) with (4 + na) in Ve by lia.
  (* outer *)
  match goal with |- context [foldM ?s (seq 0 (na - 1)) te] => destruct (iloop s (fun k => INV (fun i m => i < 4 + na + k) (fun i => i < 4 + na + k)) (na - 1)) with (t := te) as (t12 & E12 & V12) end.
  { intros k t Hk V. cbv beta. destruct (QUAD t (4 + na + k) MARKER_OUTER (0 + nr + k) (0 + nr + 1 + k) (0 + nr + n + 1 + k) (0 + nr + n + k) V) as (ta & tb & tc & td & tf & Ea & Eb & Ec & Ed & Ee & Vf).
    - lia.
    - symmetry. apply MO.
    - unfold TT. rewrite T5 by lia. cbn [nth]. lia.
    - unfold TT. rewrite T5 by lia. cbn [nth]. lia.
    - unfold TT. rewrite T5 by lia. cbn [nth]. fold n. lia.
    - unfold TT. rewrite T5 by lia. cbn [nth]. fold n. lia.
    - exists tf. rewrite Ea. cbn [bind foldM fst snd]. rewrite Eb. cbn [bind]. rewrite Ec. cbn [bind]. rewrite Ed. cbn [bind]. rewrite Ee. split; [reflexivity|].
      replace (4 + na + S k) with (S (4 + na + k)) by lia. exact Vf. }
  { rewrite Nat.add_0_r. exact Ve. }
  rewrite E12. cbn [bind]. clear E12.
  replace (4 + na + na - 1) with (4 + na + (na - 1)) by lia.
  destruct (QUAD t12 (4 + na + (na - 1)) MARKER_OUTER (0 + nr + na - 1) (0 + nr + na + nr - nr) (0 + nr + na + nr - nr + n) (0 + nr + n + na - 1) V12) as (ta & tb & tc & td & tf & Ea & Eb & Ec & Ed & Ee & Vf).
  { lia. } { symmetry. apply MO. } { unfold TT. rewrite T5 by lia. cbn [nth]. lia. } { unfold TT. rewrite T5 by lia. cbn [nth]. lia. }
  { unfold TT. rewrite T5 by lia. cbn [nth]. fold n. lia. } { unfold TT. rewrite T5 by lia. cbn [nth]. fold n. lia. }
  rewrite Ea. cbn [bind]. rewrite Eb. cbn [bind]. rewrite Ec. cbn [bind]. rewrite Ed. cbn [bind]. rewrite Ee. cbn [bind].
  replace (S (4 + na + (na - 1))) with (4 + 2 * na) in Vf by lia. destruct Vf as (A1 & A2 & A3 & A4 & A5 & A6 & A7).
  unfold tet_region. rewrite A2. unfold put. change (0 <? List.length [None]) with true. cbn iota. rewrite set_ok by (simpl; lia). cbn [bind upd].
  eexists. split; [reflexivity|]. cbn [ei_points ei_facets ei_facet_markers ei_regions ei_holes]. split; [exact A1|]. split; [|split; [|split; [reflexivity|exact A3]]].
  - assert (Lf : List.length (ei_facets tf) = 4 + 2 * na) by (rewrite <- LL, <- A6; symmetry; apply map_length).
    apply (nth_ext _ _ [] []); [unfold ring_facets; now rewrite !map_length, seq_length|]. intros i Hi. rewrite Lf in Hi.
    unfold ring_facets. rewrite map_map. rewrite (nth_indep (map (fun x => map Some (ring_facet nr na x)) _) [] (map Some (ring_facet nr na 0))) by (rewrite map_length, seq_length; auto).
    rewrite (map_nth (fun x => map Some (ring_facet nr na x))), seq_nth by auto. cbn [Nat.add].
    assert (Lr : List.length (nth i (ei_facets tf) []) = nth i len 0).
    { rewrite <- A6. symmetry. apply (map_nth (@List.length (option nat)) (ei_facets tf) []). }
    apply (nth_ext _ _ None None); [now rewrite map_length, (facet_len nr na Hr Ha)|]. intros m Hm. rewrite Lr in Hm. rewrite A7 by lia.
    rewrite (nth_indep _ None (Some 0)) by (rewrite map_length, (facet_len nr na Hr Ha); auto). rewrite map_nth. reflexivity.
  - apply (nth_ext _ _ None None); [now rewrite map_length, seq_length, A4|]. intros i Hi. rewrite A4, LL in Hi. rewrite A5 by lia.
    rewrite (nth_indep _ None (Some (ring_facet_marker na 0))) by (rewrite map_length, seq_length; auto). rewrite (map_nth (fun f => Some (ring_facet_marker na f))), seq_nth by auto. reflexivity.
Qed.
