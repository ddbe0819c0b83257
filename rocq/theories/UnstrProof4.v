(* Unstructured quarter rings in 2D: the resulting mesh. *)
From Coq Require Import String List Arith Bool ZArith Reals Lia Lra Permutation.
From Verif Require Import Base BaseFacts Kind MeshModel GraphModel GraphSpec TopoModel TopoSpec GeomModel ConvertModel ConvertSpec ConvertProof8 ShapesModel MeshQuerySpec
  UnstrModel UnstrSpec UnstrProof UnstrProof2 UnstrProof3.
Import ListNotations.
Local Open Scope list_scope.
Local Open Scope R_scope.

Definition tri_in_range (t : tri_out) : Prop := forall o p, In o (to_cells t) -> In p (snd o) -> (p < List.length (to_points t))%nat.
Lemma tri_points_nth t i : nth_error (tri_points t) i = match nth_error (to_points t) i with Some (mk, x, y) => Some (mkPoint i mk [x; y]) | None => None end.
Proof.
  unfold tri_points. destruct (nth_error (to_points t) i) as [[[mk x] y]|] eqn:E.
  - assert (Hi : (i < List.length (to_points t))%nat) by (apply nth_error_Some; congruence).
    erewrite map_nth_error; [|apply nth_error_nth' with (d := 0%nat); rewrite seq_length; auto]. rewrite seq_nth by auto.
    cbn [Nat.add]. now rewrite (nth_error_nth _ _ (0%Z, 0, 0) E).
  - apply nth_error_None. rewrite map_length, seq_length. now apply nth_error_None.
Qed.
Lemma holds_all out kind m : holds_cells out kind m -> forall i c, nth_error (cells m) i = Some c -> exists mk ps, nth_error out i = Some (mk, ps) /\ c = mkCell i mk kind ps.
Proof.
  intros (L & H) i c E. assert (Hi : (i < List.length out)%nat) by (rewrite <- L; apply nth_error_Some; congruence).
  apply nth_error_Some in Hi. destruct (nth_error out i) as [[mk ps]|] eqn:Eo; [|tauto]. exists mk, ps. split; [auto|]. rewrite (H i mk ps Eo) in E. congruence.
Qed.
Lemma from_trigen_valid t m : tri_fine t -> tri_in_range t -> from_trigen t = Ok m -> consistent m /\ coords_complete m.
Proof.
  intros F Rg E. destruct (from_trigen_ok t F) as (m' & E' & Dm & Pm & Hc & _). rewrite E' in E. injection E as ->. clear E'.
  destruct F as (_ & _ & Hn & Ho). split; [split|].
  - intros i p Hp. rewrite Pm, tri_points_nth in Hp. destruct (nth_error (to_points t) i) as [[[? ?] ?]|]; [|discriminate]. injection Hp as <-. reflexivity.
  - intros i c Hi. destruct (holds_all _ _ _ Hc i c Hi) as (mk & ps & Eo & ->). cbn [c_id c_points c_kind]. apply nth_error_In in Eo. split; [auto|]. split.
    + specialize (Ho _ Eo). cbn [snd] in Ho. rewrite Ho. destruct Hn as [-> | ->]; reflexivity.
    + intros q Hq. rewrite Pm. unfold tri_points. rewrite map_length, seq_length. apply (Rg _ q Eo Hq).
  - intros p Hp. rewrite Pm in Hp. rewrite Dm. unfold tri_points in Hp. apply in_map_iff in Hp. destruct Hp as (i & <- & _).
    destruct (nth i (to_points t) (0%Z, 0, 0)) as [[? ?] ?]. reflexivity.
Qed.

Lemma constrain_basic rmin rmax p : pt_id (constrain rmin rmax p) = pt_id p /\ pt_marker (constrain rmin rmax p) = pt_marker p /\ List.length (pt_coords (constrain rmin rmax p)) = List.length (pt_coords p).
Proof.
  assert (SL : forall r c, List.length (snap r c) = List.length c).
  { intros r c. unfold snap. destruct c as [|x [|y rest]]; auto. cbv zeta. destruct (Rltb _ _); auto. }
  unfold constrain. destruct (pt_marker p =? MARKER_INNER)%Z; cbn [pt_marker]; destruct (_ =? MARKER_OUTER)%Z; cbn [pt_id pt_marker pt_coords]; auto;
  repeat (rewrite SL); auto.
Qed.
Lemma constraints_valid m rmin rmax : consistent m -> coords_complete m -> consistent (apply_constraints m rmin rmax) /\ coords_complete (apply_constraints m rmin rmax).
Proof.
  intros (C1 & C2) K. split; [split|]; cbn [apply_constraints points cells ndim].
  - intros i p H. rewrite nth_error_map in H. destruct (nth_error (points m) i) as [p0|] eqn:E; [|discriminate]. injection H as <-.
    rewrite (proj1 (constrain_basic _ _ _)). eauto.
  - intros i c H. rewrite map_length. eauto.
  - intros p H. apply in_map_iff in H. destruct H as (q & <- & Hq). rewrite (proj2 (proj2 (constrain_basic _ _ _))). auto.
Qed.

(* every point of a mesh after the constraints *)
Definition placed (rmin rmax : R) (before after : point R) : Prop :=
  pt_marker after = pt_marker before /\ List.length (pt_coords after) = List.length (pt_coords before) /\
  (pt_marker before = (-5)%Z -> radius (pt_coords before) <> 0 -> on_circle rmin (pt_coords after)) /\
  (pt_marker before = (-6)%Z -> radius (pt_coords before) <> 0 -> on_circle rmax (pt_coords after)) /\
  (pt_marker before <> (-5)%Z -> pt_marker before <> (-6)%Z -> pt_coords after = pt_coords before) /\
  (forall i, (2 <= i)%nat -> nth i (pt_coords after) 0 = nth i (pt_coords before) 0).
Lemma constrain_placed rmin rmax p : 0 <= rmin -> 0 <= rmax -> (2 <= List.length (pt_coords p))%nat -> placed rmin rmax p (constrain rmin rmax p).
Proof. intros A B L. destruct (constrain_spec rmin rmax p A B L) as (H1 & H2 & H3 & H4 & H5 & H6 & H7). repeat split; auto. Qed.

Section Run.
Variables (leb : R -> R -> bool) (shuffle : emap -> emap).
Variable gen2 : tri_in -> bool -> bool -> option R -> option R -> res tri_out.
Variables (rmin rmax : R) (nr na : nat) (target : geokind) (gma : option R) (ren : bool).
Hypothesis Hr : (1 <= nr)%nat. Hypothesis Ha : (1 <= na)%nat. Hypothesis Ht : kind_class target = CTri.
Notation ring := (quarter_ring_2d leb shuffle gen2 rmin rmax nr na target gma ren).

Lemma ring_run t out m : ring_input rmin rmax nr na = Ok t -> gen2 t (3 <? kind_nnode target)%nat true gma None = Ok out -> from_trigen out = Ok m ->
  ring = (if (6 <? kind_nnode target)%nat then let! d := convert_2d leb shuffle (apply_constraints m rmin rmax) target in Ok (apply_constraints d rmin rmax)
          else maybe_renumbered ren (apply_constraints m rmin rmax)).
Proof.
  intros E1 E2 E3. unfold quarter_ring_2d. rewrite (proj2 (Nat.ltb_ge nr 1)), (proj2 (Nat.ltb_ge na 1)) by auto.
  rewrite Ht. change (negb (class_eqb CTri CTri)) with false. cbn iota. cbv zeta. rewrite E1. cbn [bind]. rewrite E2. cbn [bind]. rewrite E3. reflexivity.
Qed.
Lemma ring_inv d : ring = Ok d -> exists t out m, ring_input rmin rmax nr na = Ok t /\ gen2 t (3 <? kind_nnode target)%nat true gma None = Ok out /\ from_trigen out = Ok m.
Proof.
  unfold quarter_ring_2d. rewrite (proj2 (Nat.ltb_ge nr 1)), (proj2 (Nat.ltb_ge na 1)) by auto.
  rewrite Ht. change (negb (class_eqb CTri CTri)) with false. cbn iota. cbv zeta. intros H.
  apply bind_ok in H. destruct H as (t & E1 & H). apply bind_ok in H. destruct H as (out & E2 & H). apply bind_ok in H. destruct H as (m & E3 & _). eauto 6.
Qed.
End Run.

(* interpolation along the edges of a triangle with six nodes *)
Definition along (k : R) (p q m : R) : R := (1 - 2 * k) * (1 - k) * p + k * (2 * k - 1) * q + 4 * k * (1 - k) * m.
Lemma tri6_interp_values r s : calc_interp Tri6 [r; s] =
  [(1 - r - s) * (1 - 2 * r - 2 * s); r * (2 * r - 1); s * (2 * s - 1); 4 * r * (1 - r - s); 4 * r * s; 4 * s * (1 - r - s)].
Proof.
  unfold calc_interp. cbv [kind_interp ShapesData.tri6_interp map Expr.eval env nth Q2R QArith_base.Qnum QArith_base.Qden].
  repeat match goal with |- @eq (list R) (_ :: _) (_ :: _) => apply (f_equal2 (@cons R)); [field|] end. reflexivity.
Qed.
Lemma edge_image target e a (x0 x1 x2 x3 x4 x5 : nat -> R) : target = Tri10 \/ target = Tri15 -> on_edge target e a ->
  exists k, (e < 3)%nat /\ (k = 1 / 3 \/ k = 2 / 3 \/ k = 1 / 2 \/ k = 1 / 4 \/ k = 3 / 4) /\
  forall i, dot (calc_interp Tri6 (ref_coords target a)) [x0 i; x1 i; x2 i; x3 i; x4 i; x5 i] =
  along k (nth (edge_node_id Tri6 e 0) [x0 i; x1 i; x2 i; x3 i; x4 i; x5 i] 0) (nth (edge_node_id Tri6 e 1) [x0 i; x1 i; x2 i; x3 i; x4 i; x5 i] 0)
    (nth (edge_node_id Tri6 e 2) [x0 i; x1 i; x2 i; x3 i; x4 i; x5 i] 0 : R).
Proof.
  intros [-> | ->] (He & i & Hi & <-);
  (change (kind_nedge Tri10) with 3%nat in He || change (kind_nedge Tri15) with 3%nat in He);
  (change (kind_edge_nnode Tri10) with 4%nat in Hi || change (kind_edge_nnode Tri15) with 5%nat in Hi);
  destruct e as [|[|[|e]]]; try lia; destruct i as [|[|[|[|[|i]]]]]; try lia;
  match goal with |- context [ref_coords ?t ?n] => let v := eval vm_compute in (reference_coords t n) in change (ref_coords t n) with (map Q2R v) end;
  cbv [map Q2R QArith_base.Qnum QArith_base.Qden];
  rewrite tri6_interp_values;
  repeat match goal with |- context [edge_node_id Tri6 ?e ?j] => let v := eval vm_compute in (edge_node_id Tri6 e j) in change (edge_node_id Tri6 e j) with v end;
  cbn [nth dot]; unfold along;
  first [exists (1/3); split; [lia|]; split; [tauto|]; intros; lra|exists (2/3); split; [lia|]; split; [tauto|]; intros; lra|exists (1/2); split; [lia|]; split; [tauto|]; intros; lra
        |exists (1/4); split; [lia|]; split; [tauto|]; intros; lra|exists (3/4); split; [lia|]; split; [tauto|]; intros; lra].
Qed.

(* a point near the circle of radius r between points near it *)
Lemma norm_tri2 x y u v : sqrt ((x + u) ^ 2 + (y + v) ^ 2) <= sqrt (x ^ 2 + y ^ 2) + sqrt (u ^ 2 + v ^ 2).
Proof.
  set (a := sqrt (x ^ 2 + y ^ 2)). set (b := sqrt (u ^ 2 + v ^ 2)).
  assert (A : 0 <= a) by apply sqrt_pos. assert (B : 0 <= b) by apply sqrt_pos.
  assert (A2 : a * a = x ^ 2 + y ^ 2) by (apply sqrt_sqrt; pose proof (pow2_ge_0 x); pose proof (pow2_ge_0 y); lra).
  assert (B2 : b * b = u ^ 2 + v ^ 2) by (apply sqrt_sqrt; pose proof (pow2_ge_0 u); pose proof (pow2_ge_0 v); lra).
  rewrite <- (sqrt_Rsqr (a + b)) by lra. apply sqrt_le_1_alt. unfold Rsqr.
  assert (CS : x * u + y * v <= a * b).
  { apply Rsqr_incr_0_var; [|apply Rmult_le_pos; auto]. unfold Rsqr. replace (a * b * (a * b)) with ((a * a) * (b * b)) by ring. rewrite A2, B2.
    pose proof (pow2_ge_0 (x * v - y * u)). lra. }
  replace ((a + b) * (a + b)) with (a * a + b * b + 2 * (a * b)) by ring. rewrite A2, B2. lra.
Qed.
Lemma norm_scale k x y : sqrt ((k * x) ^ 2 + (k * y) ^ 2) = Rabs k * sqrt (x ^ 2 + y ^ 2).
Proof.
  replace ((k * x) ^ 2 + (k * y) ^ 2) with (Rsqr k * (x ^ 2 + y ^ 2)) by (unfold Rsqr; ring).
  rewrite sqrt_mult; [|apply Rle_0_sqr|pose proof (pow2_ge_0 x); pose proof (pow2_ge_0 y); lra]. now rewrite sqrt_Rsqr_abs.
Qed.
Lemma arc_away r k p q m : / 10 ^ 10 <= r -> (k = 1 / 3 \/ k = 2 / 3 \/ k = 1 / 2 \/ k = 1 / 4 \/ k = 3 / 4) ->
  on_circle r p -> on_circle r q -> on_circle r m ->
  radius [along k (nth 0 p 0) (nth 0 q 0) (nth 0 m 0); along k (nth 1 p 0) (nth 1 q 0) (nth 1 m 0)] <> 0.
Proof.
  intros Hr Hk Cp Cq Cm. unfold on_circle, radius in *. cbn [nth] in *.
  set (px := nth 0 p 0) in *. set (py := nth 1 p 0) in *. set (qx := nth 0 q 0) in *. set (qy := nth 1 q 0) in *. set (mx := nth 0 m 0) in *. set (my := nth 1 m 0) in *.
  assert (T : / 10 ^ 15 <= r / 100000).
  { replace (/ 10 ^ 15) with (/ 10 ^ 10 / 100000) by (field). lra. }
  assert (R0 : 0 < r) by (assert (0 < / 10 ^ 10) by (apply Rinv_0_lt_compat, pow_lt; lra); lra).
  assert (AL : forall u v, Rabs u <= v -> - v <= u <= v) by (intros u v; unfold Rabs; destruct (Rcase_abs u); lra).
  apply AL in Cp. apply AL in Cq. apply AL in Cm.
  set (W := along k px qx mx). set (V := along k py qy my).
  pose proof (norm_tri2 W V (- ((1 - 2 * k) * (1 - k) * px + k * (2 * k - 1) * qx)) (- ((1 - 2 * k) * (1 - k) * py + k * (2 * k - 1) * qy))) as N1.
  replace (W + - ((1 - 2 * k) * (1 - k) * px + k * (2 * k - 1) * qx)) with (4 * k * (1 - k) * mx) in N1 by (unfold W, along; ring).
  replace (V + - ((1 - 2 * k) * (1 - k) * py + k * (2 * k - 1) * qy)) with (4 * k * (1 - k) * my) in N1 by (unfold V, along; ring).
  pose proof (norm_tri2 (- ((1 - 2 * k) * (1 - k)) * px) (- ((1 - 2 * k) * (1 - k)) * py) (- (k * (2 * k - 1)) * qx) (- (k * (2 * k - 1)) * qy)) as N2.
  replace (- ((1 - 2 * k) * (1 - k) * px + k * (2 * k - 1) * qx)) with (- ((1 - 2 * k) * (1 - k)) * px + - (k * (2 * k - 1)) * qx) in N1 by ring.
  replace (- ((1 - 2 * k) * (1 - k) * py + k * (2 * k - 1) * qy)) with (- ((1 - 2 * k) * (1 - k)) * py + - (k * (2 * k - 1)) * qy) in N1 by ring.
  rewrite norm_scale in N1. rewrite !norm_scale in N2.
  intros Z. rewrite Z in N1. rewrite Rplus_0_l in N1. pose proof (Rle_trans _ _ _ N1 N2) as N. clear N1 N2 Z.
  set (a := sqrt (px ^ 2 + py ^ 2)) in *. set (b := sqrt (qx ^ 2 + qy ^ 2)) in *. set (c := sqrt (mx ^ 2 + my ^ 2)) in *.
  assert (AB : forall z w, z = w -> Rabs z = Rabs w) by (intros; now f_equal).
  destruct Hk as [-> | [-> | [-> | [-> | ->]]]];
  match type of N with Rabs ?u * _ <= Rabs ?v * _ + Rabs ?w * _ =>
    (replace (Rabs u) with u in N by (rewrite Rabs_right; lra));
    (rewrite (Rabs_left1 v) in N by lra) || (rewrite (Rabs_right v) in N by lra); (rewrite (Rabs_left1 w) in N by lra) || (rewrite (Rabs_right w) in N by lra) end; lra.
Qed.
