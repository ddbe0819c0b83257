(* Quarter rings: the point of the region, where the facets lie, and the results put together. *)
From Coq Require Import String List Arith Bool ZArith Reals Lia Lra Permutation.
From Verif Require Import Base BaseFacts Kind MeshModel GraphModel GraphSpec TopoModel TopoSpec GeomModel ConvertModel ConvertSpec ConvertProof8 ShapesModel MeshQuerySpec
  UnstrModel UnstrSpec UnstrProof UnstrProof2 UnstrProof3 UnstrProof4 UnstrProof5 UnstrProof7 UnstrProof8 UnstrProof9 PropConvert.
Import ListNotations.
Local Open Scope list_scope.
Local Open Scope R_scope.

(* ---- the point of the region ---- *)
(* strictly to the left of the line from p to q *)
Definition left_of (p q s : R * R) : Prop := 0 < (fst q - fst p) * (snd s - snd p) - (snd q - snd p) * (fst s - fst p).
Lemma seed_left rmax a b x y : 0 < rmax -> 0 <= a -> a < b -> b <= PI / 2 -> 0 < x -> 0 < y -> x + y < rmax -> left_of (polar rmax a) (polar rmax b) (x, y).
Proof.
  intros Hr Ha Hab Hb Hx Hy Hxy. unfold left_of, polar. cbn [fst snd]. set (h := (b - a) / 2). set (mm := (a + b) / 2).
  replace a with (mm - h) by (unfold mm, h; lra). replace b with (mm + h) by (unfold mm, h; lra).
  rewrite !cos_plus, !sin_plus, !cos_minus, !sin_minus.
  pose proof PI_RGT_0 as HP.
  assert (Hh : 0 < h <= PI / 4) by (unfold h; lra). assert (Hm : h <= mm <= PI / 2 - h) by (unfold mm, h; lra).
  assert (S : 0 < sin h) by (apply sin_gt_0; lra). assert (C : 0 < cos h) by (apply cos_gt_0; lra).
  assert (C1 : cos mm <= cos h) by (apply cos_decr_1; lra). assert (C2 : sin mm <= cos h) by (rewrite <- sin_shift; apply sin_incr_1; lra).
  assert (C0 : 0 <= cos mm) by (apply cos_ge_0; lra). assert (S0 : 0 <= sin mm) by (apply sin_ge_0; lra).
  pose proof (pyth mm) as Pm.
  match goal with |- 0 < ?e => replace e with (2 * rmax * sin h * (rmax * cos h * (cos mm * cos mm + sin mm * sin mm) - x * cos mm - y * sin mm)) by ring end.
  rewrite Pm, Rmult_1_r. apply Rmult_lt_0_compat; [apply Rmult_lt_0_compat; lra|].
  assert (x * cos mm <= x * cos h) by (apply Rmult_le_compat_l; lra). assert (y * sin mm <= y * cos h) by (apply Rmult_le_compat_l; lra).
  assert ((x + y) * cos h < rmax * cos h) by (apply Rmult_lt_compat_r; lra). lra.
Qed.
Lemma corner_outer rmin rmax nr na i : (1 <= nr)%nat -> (1 <= na)%nat -> (nr <= i <= nr + na)%nat -> ring_corner rmin rmax nr na i = polar rmax (INR (i - nr) * (PI / 2 / INR na)).
Proof.
  intros Hr Ha Hi. destruct (Nat.eq_dec i nr) as [->|N]; [|apply part1; lia]. rewrite part0 by lia. rewrite Nat.sub_diag. change (INR 0) with 0. rewrite Rmult_0_l.
  unfold polar. rewrite cos_0, sin_0. f_equal; [|ring]. pose proof (INR_pos nr Hr). field. lra.
Qed.
Lemma seed_inside rmin rmax nr na : 0 < rmin -> rmin + 2 / 10 ^ 4 < rmax -> (1 <= nr)%nat -> (1 <= na)%nat ->
  let s := (rmin + / 10 ^ 4, / 10 ^ 4) in
  0 < fst s /\ 0 < snd s /\ rmin < radius [fst s; snd s] /\
  forall i, (nr <= i < nr + na)%nat -> left_of (ring_corner rmin rmax nr na i) (ring_corner rmin rmax nr na (i + 1)) s.
Proof.
  intros H0 H1 Hr Ha. cbv zeta. cbn [fst snd]. assert (e : 0 < / 10 ^ 4) by (apply Rinv_0_lt_compat, pow_lt; lra). split; [lra|]. split; [lra|]. split.
  - unfold radius. cbn [nth]. rewrite <- (sqrt_pow2 rmin) at 1 by lra. apply sqrt_lt_1; [apply pow2_ge_0| |].
    + pose proof (pow2_ge_0 (rmin + / 10 ^ 4)). pose proof (pow2_ge_0 (/ 10 ^ 4)). lra.
    + assert (0 < / 10 ^ 4 * rmin) by (apply Rmult_lt_0_compat; lra). pose proof (pow_lt (/ 10 ^ 4) 2 e). nra.
  - intros i Hi. rewrite !corner_outer by lia. pose proof (INR_pos na Ha). pose proof PI_RGT_0. apply seed_left; try lra.
    + apply Rmult_le_pos; [apply pos_INR|]. apply Rmult_le_pos; [lra|]. apply Rlt_le, Rinv_0_lt_compat. lra.
    + apply frac_inj; [auto|lia].
    + apply frac_le; [auto|lia].
Qed.

(* ---- the places of the facets ---- *)
Definition px (q : Z * R * R * R) : R := snd (fst (fst q)).
Definition py (q : Z * R * R * R) : R := snd (fst q).
Definition pz (q : Z * R * R * R) : R := snd q.
Lemma facet_places rmin rmax thickness nr na f p : (1 <= nr)%nat -> (1 <= na)%nat -> (f < 4 + 2 * na)%nat -> In p (ring_facet nr na f) ->
  let q := ring_point rmin rmax thickness nr na p in let mk := ring_facet_marker na f in
  (p < 2 * (2 * nr + 2 * na))%nat /\
  (mk = (-9)%Z -> pz q = 0) /\ (mk = (-10)%Z -> pz q = thickness) /\ (mk = (-7)%Z -> py q = 0) /\ (mk = (-8)%Z -> px q = 0) /\
  (mk = (-5)%Z -> px q ^ 2 + py q ^ 2 = rmin ^ 2) /\ (mk = (-6)%Z -> px q ^ 2 + py q ^ 2 = rmax ^ 2).
Proof.
  intros Hr Ha Hf Hp. cbv zeta. set (n := (2 * nr + 2 * na)%nat).
  assert (Rg : (p < 2 * n)%nat).
  { apply In_nth with (d := 0%nat) in Hp. destruct Hp as (j & Hj & <-). apply (T_range nr na Hr Ha f j); [now rewrite flen_length|]. now rewrite <- facet_len. }
  split; [exact Rg|].
  assert (XY : forall k, (k < n)%nat -> (p = k \/ p = n + k)%nat -> px (ring_point rmin rmax thickness nr na p) = fst (ring_corner rmin rmax nr na k) /\ py (ring_point rmin rmax thickness nr na p) = snd (ring_corner rmin rmax nr na k)).
  { intros k Hk E. unfold ring_point. fold n. assert (Em : (p mod n = k)%nat).
    { destruct E as [->| ->]; [now apply Nat.mod_small|]. rewrite Nat.add_comm. replace (k + n)%nat with (k + 1 * n)%nat by lia. rewrite Nat.mod_add by lia. now apply Nat.mod_small. }
    rewrite Em. split; reflexivity. }
  assert (CP := corner_places rmin rmax nr na). fold n in CP.
  assert (sideof : forall k, ring_side_marker nr na k = (if (k <? nr)%nat then (-7)%Z else if (k <? nr + na)%nat then (-6)%Z else if (k <? nr + na + nr)%nat then (-8)%Z else (-5)%Z)) by reflexivity.
  unfold ring_facet_marker.
  destruct (Nat.eqb_spec f 0) as [->|N0].
  { split; [|repeat split; intros; discriminate]. intros _. cbn [ring_facet] in Hp. apply in_seq in Hp. unfold pz, ring_point. fold n. cbn [snd]. rewrite (proj2 (Nat.ltb_lt p n)) by (unfold n; lia). reflexivity. }
  destruct (Nat.eqb_spec f 1) as [->|N1].
  { split; [discriminate|]. split; [|repeat split; intros; discriminate]. intros _. cbn [ring_facet] in Hp. apply in_seq in Hp. unfold pz, ring_point. fold n. cbn [snd]. rewrite (proj2 (Nat.ltb_ge p n)) by (unfold n; lia). reflexivity. }
  destruct (Nat.eqb_spec f 2) as [->|N2].
  { split; [discriminate|]. split; [discriminate|]. split; [|repeat split; intros; discriminate]. intros _.
    assert (exists k, (k <= nr)%nat /\ (p = k \/ p = n + k)%nat) as (k & Hk & E).
    { unfold ring_facet in Hp. apply in_app_iff in Hp. destruct Hp as [Hp|Hp]; [|apply in_rev in Hp]; apply in_seq in Hp; [exists p; lia|exists (p - n)%nat; unfold n; lia]. }
    destruct (XY k ltac:(unfold n; lia) E) as (_ & ->). rewrite part0 by lia. reflexivity. }
  destruct (Nat.eqb_spec f 3) as [->|N3].
  { split; [discriminate|]. split; [discriminate|]. split; [discriminate|]. split; [|repeat split; intros; discriminate]. intros _.
    assert (exists k, (nr + na <= k <= nr + na + nr)%nat /\ (p = k \/ p = n + k)%nat) as (k & Hk & E).
    { unfold ring_facet in Hp. apply in_app_iff in Hp. destruct Hp as [Hp|Hp]; [apply in_rev in Hp|]; apply in_seq in Hp; [exists p; lia|exists (p - n)%nat; unfold n; lia]. }
    destruct (XY k ltac:(unfold n; lia) E) as (-> & _). destruct (Nat.eq_dec k (nr + na)) as [->|NK]; [|rewrite part2 by lia; reflexivity].
    rewrite part1 by lia. unfold polar. cbn [fst]. replace (nr + na - nr)%nat with na by lia. pose proof (INR_pos na Ha). replace (INR na * (PI / 2 / INR na)) with (PI / 2) by (field; lra). rewrite cos_PI2. ring. }
  destruct (Nat.ltb_spec f (4 + na)) as [LT|GE].
  - split; [discriminate|]. split; [discriminate|]. split; [discriminate|]. split; [discriminate|]. split; [|discriminate]. intros _.
    destruct f as [|[|[|[|j]]]]; try lia. unfold ring_facet in Hp. rewrite (proj2 (Nat.ltb_lt j na)) in Hp by lia. fold n in Hp.
    set (i := (2 * nr + na + j)%nat) in *. assert (Hi : (i < n)%nat) by (unfold i, n; lia). destruct (CP i Hr Ha Hi) as (_ & _ & _ & Q).
    rewrite sideof in Q. rewrite (proj2 (Nat.ltb_ge i nr)), (proj2 (Nat.ltb_ge i (nr + na))), (proj2 (Nat.ltb_ge i (nr + na + nr))) in Q by (unfold i; lia). destruct (Q eq_refl) as (Q1 & Q2).
    set (nx := ((i + 1) mod n)%nat) in *. assert (Hn : (nx < n)%nat) by (apply Nat.mod_upper_bound; lia).
    assert (E : ((p = i \/ p = n + i) \/ (p = nx \/ p = n + nx))%nat) by (cbn [In] in Hp; unfold i in *; lia).
    destruct E as [E|E]; [destruct (XY i Hi E) as (-> & ->)|destruct (XY nx Hn E) as (-> & ->)]; auto.
  - split; [discriminate|]. split; [discriminate|]. split; [discriminate|]. split; [discriminate|]. split; [discriminate|]. intros _.
    destruct f as [|[|[|[|j]]]]; try lia. unfold ring_facet in Hp. rewrite (proj2 (Nat.ltb_ge j na)) in Hp by lia. fold n in Hp.
    set (i := (nr + (j - na))%nat) in *. assert (Hi : (i + 1 < n)%nat) by (unfold i, n; lia). destruct (CP i Hr Ha ltac:(lia)) as (_ & Q & _).
    rewrite sideof in Q. rewrite (proj2 (Nat.ltb_ge i nr)), (proj2 (Nat.ltb_lt i (nr + na))) in Q by (unfold i; lia). destruct (Q eq_refl) as (Q1 & Q2).
    rewrite Nat.mod_small in Q2 by lia.
    assert (E : ((p = i \/ p = n + i) \/ (p = i + 1 \/ p = n + (i + 1)))%nat) by (cbn [In] in Hp; lia).
    destruct E as [E|E]; [destruct (XY i ltac:(lia) E) as (-> & ->)|destruct (XY (i + 1)%nat Hi E) as (-> & ->)]; auto.
Qed.

(* ---- results in 2D ---- *)
Section Run2.
Variables (leb : R -> R -> bool) (shuffle : emap -> emap).
Hypothesis Sh : forall l, Permutation (shuffle l) l.
Variable gen2 : tri_in -> bool -> bool -> option R -> option R -> res tri_out.
Variables (rmin rmax : R) (nr na : nat) (target : geokind) (gma : option R).
Hypothesis Hr : (1 <= nr)%nat. Hypothesis Ha : (1 <= na)%nat.
Notation ring := (quarter_ring_2d leb shuffle gen2 rmin rmax nr na target gma).
Lemma ring2_unfold ren : kind_class target = CTri -> ring ren =
  let! t := ring_input rmin rmax nr na in
  let! out := gen2 t (3 <? kind_nnode target)%nat true gma None in
  let! m := from_trigen out in
  if (6 <? kind_nnode target)%nat then let! d := convert_2d leb shuffle (apply_constraints m rmin rmax) target in Ok (apply_constraints d rmin rmax)
  else maybe_renumbered ren (apply_constraints m rmin rmax).
Proof.
  intros Ht. unfold quarter_ring_2d. rewrite (proj2 (Nat.ltb_ge nr 1)), (proj2 (Nat.ltb_ge na 1)) by lia. rewrite Ht. reflexivity.
Qed.
Lemma ring2_renumber : target = Tri3 \/ target = Tri6 -> ring true = (let! m := ring false in renumber_mesh m false).
Proof.
  intros Ht. rewrite !ring2_unfold by (destruct Ht as [-> | ->]; reflexivity).
  destruct (ring_input rmin rmax nr na); cbn [bind]; try reflexivity. destruct (gen2 _ _ _ _ _); cbn [bind]; try reflexivity. destruct (from_trigen _); cbn [bind]; try reflexivity.
  replace (6 <? kind_nnode target)%nat with false by (destruct Ht as [-> | ->]; reflexivity). reflexivity.
Qed.
Lemma ring2_result t out : 0 <= rmin -> 0 <= rmax -> target = Tri3 \/ target = Tri6 ->
  ring_input rmin rmax nr na = Ok t -> gen2 t (3 <? kind_nnode target)%nat true gma None = Ok out -> tri_fine out -> tri_in_range out ->
  exists m, ring false = Ok m /\ consistent m /\ coords_complete m /\ ndim m = 2%nat /\ holds_cells (to_cells out) (if (to_nnode out =? 6)%nat then Tri6 else Tri3) m /\
    marked_edges m = filter (fun s => negb (fst (fst s) =? 0)%Z) (to_segments out) /\ marked_faces m = [] /\ List.length (points m) = List.length (to_points out) /\
    forall i mk x y, nth_error (to_points out) i = Some (mk, x, y) -> exists pt, nth_error (points m) i = Some pt /\ placed rmin rmax (mkPoint i mk [x; y]) pt.
Proof.
  intros H0 H1 Ht Et Eo Fi Rg. destruct (from_trigen_ok out Fi) as (m & Em & A1 & A2 & A3 & A4 & A5). destruct (from_trigen_valid out m Fi Rg Em) as (V1 & V2).
  destruct (constraints_valid m rmin rmax V1 V2) as (W1 & W2). exists (apply_constraints m rmin rmax).
  split. { rewrite ring2_unfold by (destruct Ht as [-> | ->]; reflexivity). rewrite Et. cbn [bind]. rewrite Eo. cbn [bind]. rewrite Em. cbn [bind].
    replace (6 <? kind_nnode target)%nat with false by (destruct Ht as [-> | ->]; reflexivity). reflexivity. }
  split; [exact W1|]. split; [exact W2|]. split; [exact A1|]. split; [exact A3|]. split; [exact A4|]. split; [exact A5|]. cbn [apply_constraints points].
  split; [rewrite map_length, A2; unfold tri_points; now rewrite map_length, seq_length|].
  intros i mk x y H. exists (constrain rmin rmax (mkPoint i mk [x; y])). split.
  - apply map_nth_error. rewrite A2, tri_points_nth, H. reflexivity.
  - apply constrain_placed; auto.
Qed.
Lemma ring2_converted t out : 0 <= rmin -> 0 <= rmax -> target = Tri10 \/ target = Tri15 ->
  ring_input rmin rmax nr na = Ok t -> gen2 t true true gma None = Ok out -> tri_fine out -> tri_in_range out -> to_nnode out = 6%nat ->
  exists m0 d, from_trigen out = Ok m0 /\ (forall ren, ring ren = Ok d) /\ consistent d /\ coords_complete d /\ ndim d = 2%nat /\ marked_edges d = [] /\
    List.length (cells d) = List.length (to_cells out) /\
    (forall c mk ps, nth_error (to_cells out) c = Some (mk, ps) -> exists dc, nth_error (cells d) c = Some dc /\ c_marker dc = mk /\ c_kind dc = target) /\
    (forall p, In p (points d) -> (pt_marker p = (-5)%Z \/ pt_marker p = (-6)%Z) ->
       forall r, r = (if (pt_marker p =? -5)%Z then rmin else rmax) -> on_circle r (pt_coords p) \/ exists p1 d1, convert_2d leb shuffle (apply_constraints m0 rmin rmax) target = Ok d1 /\ In p1 (points d1) /\ pt_marker p1 = pt_marker p /\ radius (pt_coords p1) = 0) /\
    (forall r mk c z ps e a pt, two_per_edge m0 -> / 10 ^ 10 <= r -> ((mk = (-5)%Z /\ r = rmin) \/ (mk = (-6)%Z /\ r = rmax)) ->
      nth_error (to_cells out) c = Some (z, ps) -> on_edge target e a -> (forall n ne, (n < c)%nat -> ~ shares m0 c e n ne) ->
      (exists x y, nth_error (to_points out) (nth (edge_node_id Tri6 e 2) ps 0%nat) = Some (mk, x, y)) ->
      (forall j, (j < 3)%nat -> on_arc out r mk (nth (edge_node_id Tri6 e j) ps 0%nat)) ->
      node_point d c a pt -> pt_marker pt = mk /\ on_circle r (pt_coords pt)).
Proof.
  intros H0 H1 Ht Et Eo Fi Rg N6. destruct (from_trigen_ok out Fi) as (m0 & Em & _).
  destruct (converted_exists leb shuffle Sh rmin rmax target out m0 Ht Fi Rg N6 Em) as (d1 & Ed). exists m0, (apply_constraints d1 rmin rmax).
  split; [exact Em|]. split.
  { intros ren. rewrite ring2_unfold by (destruct Ht as [-> | ->]; reflexivity). rewrite Et. cbn [bind]. replace (3 <? kind_nnode target)%nat with true by (destruct Ht as [-> | ->]; reflexivity).
    rewrite Eo. cbn [bind]. rewrite Em. cbn [bind]. replace (6 <? kind_nnode target)%nat with true by (destruct Ht as [-> | ->]; reflexivity). rewrite Ed. reflexivity. }
  destruct (final_valid leb shuffle Sh rmin rmax target out m0 H0 H1 Ht Fi Rg N6 Em d1 Ed) as (A1 & A2 & A3 & A4 & A5 & A6).
  pose proof (conv_facts leb shuffle Sh rmin rmax target out m0 Ht Fi Rg N6 Em d1 Ed) as CF.
  split; [exact A1|]. split; [exact A2|]. split; [exact A3|]. split; [|split; [exact A4|]; split; [exact A5|]; split].
  - destruct CF as (leb' & Sh' & B1 & B2 & B3 & B4). destruct (ConvertProof6.result_valid leb' shuffle Sh' _ Tri6 target B1 B2 B3 d1 B4) as (_ & _ & _ & B & _). exact B.
  - intros p Hp Mk r Hrr. destruct (A6 p Hp) as (p1 & I1 & (P1 & _ & P3 & P4 & _)). destruct (Req_dec (radius (pt_coords p1)) 0) as [Z|NZ].
    + right. exists p1, d1. repeat split; auto.
    + left. destruct Mk as [Mk|Mk]; rewrite Mk in Hrr; cbn in Hrr; subst r; [apply P3|apply P4]; auto; congruence.
  - intros r mk c z ps e a pt TP Hrr MR Hc OE NS X OA NP. eapply (converted_arc leb shuffle Sh rmin rmax target out m0 H0 H1 Ht Fi Rg N6 Em d1 Ed); eauto.
Qed.
End Run2.
