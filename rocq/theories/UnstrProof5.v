(* Unstructured quarter rings in 2D: meshes converted to triangles with 10 and 15 nodes. *)
From Coq Require Import String List Arith Bool ZArith Reals Lia Lra Permutation.
From Verif Require Import Base BaseFacts Kind MeshModel GraphModel GraphSpec TopoModel TopoSpec GeomModel ConvertModel ConvertSpec ConvertProof8 ShapesModel MeshQuerySpec
  UnstrModel UnstrSpec UnstrProof UnstrProof2 UnstrProof3 UnstrProof4 PropConvert.
Import ListNotations.
Local Open Scope list_scope.
Local Open Scope R_scope.

(* point p of the generator is on the arc: it is marked as such or already there *)
Definition on_arc (out : tri_out) (r : R) (mk : Z) (p : nat) : Prop := exists z x y, nth_error (to_points out) p = Some (z, x, y) /\
  ((z = mk /\ radius [x; y] <> 0) \/ (z <> (-5)%Z /\ z <> (-6)%Z /\ on_circle r [x; y])).

Section Conv.
Variables (leb : R -> R -> bool) (shuffle : emap -> emap).
Hypothesis Sh : forall l, Permutation (shuffle l) l.
Variables (rmin rmax : R) (target : geokind) (out : tri_out) (m0 : mesh R).
Hypothesis H0 : 0 <= rmin. Hypothesis H1 : 0 <= rmax.
Hypothesis Ht : target = Tri10 \/ target = Tri15.
Hypothesis F : tri_fine out. Hypothesis Rg : tri_in_range out. Hypothesis N6 : to_nnode out = 6%nat. Hypothesis E0 : from_trigen out = Ok m0.
Notation m := (apply_constraints m0 rmin rmax).

Lemma m0_facts : ndim m0 = 2%nat /\ points m0 = tri_points out /\ holds_cells (to_cells out) Tri6 m0.
Proof.
  destruct (from_trigen_ok out F) as (m' & E' & A & B & C & _). rewrite E' in E0. injection E0 as <-. rewrite N6 in C. auto.
Qed.
Lemma m_valid : consistent m /\ coords_complete m.
Proof. destruct (from_trigen_valid out m0 F Rg E0). now apply constraints_valid. Qed.
Lemma m_convertible : convertible m Tri6 target.
Proof.
  destruct m0_facts as (A & B & C). split; [exact A|]. split.
  - cbn [apply_constraints cells]. intros Z. destruct C as (L & _). rewrite Z in L. destruct F as (_ & G & _). simpl in L. lia.
  - split; [|split; [left; reflexivity|destruct Ht as [-> | ->]; reflexivity]]. intros c Hc. cbn [apply_constraints cells] in Hc. apply In_nth_error in Hc. destruct Hc as (i & Hi).
    destruct (holds_all _ _ _ C i c Hi) as (mk & ps & _ & ->). reflexivity.
Qed.
Lemma converted_exists : exists d, convert_2d leb shuffle m target = Ok d.
Proof. destruct m_valid as (A & B). apply (proj2 (convert_total leb shuffle Sh m target A B)). exists Tri6. exact m_convertible. Qed.

Variable d1 : mesh R.
Hypothesis Ed : convert_2d leb shuffle m target = Ok d1.
Notation d := (apply_constraints d1 rmin rmax).
Lemma conv_facts : converts shuffle m Tri6 target d1.
Proof. exists leb. destruct m_valid as (A & B). split; [exact Sh|]. split; [auto|]. split; [auto|]. split; [exact m_convertible|exact Ed]. Qed.
Lemma final_valid : consistent d /\ coords_complete d /\ ndim d = 2%nat /\ List.length (cells d) = List.length (to_cells out) /\
  (forall c mk ps, nth_error (to_cells out) c = Some (mk, ps) -> exists dc, nth_error (cells d) c = Some dc /\ c_marker dc = mk /\ c_kind dc = target) /\
  (forall p, In p (points d) -> exists p1, In p1 (points d1) /\ placed rmin rmax p1 p).
Proof.
  destruct (C48_valid shuffle m Tri6 target d1 conv_facts) as (A1 & A2 & A3 & A4 & A5 & _). destruct (constraints_valid d1 rmin rmax A1 A2) as (B1 & B2).
  destruct m0_facts as (F1 & F2 & F3). split; [exact B1|]. split; [exact B2|]. split; [exact A3|]. split; [|split].
  - cbn [apply_constraints cells] in *. rewrite A4. apply F3.
  - intros c mk ps H. apply F3 in H. destruct (A5 c _ H) as (dc & G1 & _ & G2 & G3). exists dc. cbn [c_marker] in G2. auto.
  - intros p Hp. cbn [apply_constraints points] in Hp. apply in_map_iff in Hp. destruct Hp as (p1 & <- & Hp). exists p1. split; [auto|].
    apply constrain_placed; auto. rewrite (A2 _ Hp), A3. lia.
Qed.

Lemma edge_unique e e' a : on_edge target e a -> on_edge target e' a -> e' = e /\ (3 <= a < kind_nnode target)%nat /\ (e < 3)%nat.
Proof.
  destruct Ht as [-> | ->]; intros (He & i & Hi & E) (He' & i' & Hi' & E');
  (change (kind_nedge Tri10) with 3%nat in He, He' || change (kind_nedge Tri15) with 3%nat in He, He');
  (change (kind_edge_nnode Tri10) with 4%nat in Hi, Hi' || change (kind_edge_nnode Tri15) with 5%nat in Hi, Hi');
  destruct e as [|[|[|e]]]; try lia; destruct i as [|[|[|[|[|i]]]]]; try lia;
  destruct e' as [|[|[|e']]]; try lia; destruct i' as [|[|[|[|[|i']]]]]; try lia;
  vm_compute in E, E'; subst a; try discriminate E'; vm_compute; lia.
Qed.

Lemma arc_node r mk p : ((mk = (-5)%Z /\ r = rmin) \/ (mk = (-6)%Z /\ r = rmax)) -> on_arc out r mk p ->
  exists pt, nth_error (points m) p = Some pt /\ on_circle r (pt_coords pt) /\ List.length (pt_coords pt) = 2%nat /\
    forall z x y, nth_error (to_points out) p = Some (z, x, y) -> pt_marker pt = z.
Proof.
  intros Hmk (z & x & y & E & Hc). destruct m0_facts as (_ & F2 & _). cbn [apply_constraints points].
  pose proof (tri_points_nth out p) as T. rewrite E, <- F2 in T. rewrite nth_error_map, T. cbn [option_map].
  eexists. split; [reflexivity|]. destruct (constrain_placed rmin rmax (mkPoint p z [x; y]) H0 H1 (Nat.le_refl 2)) as (P1 & P2 & P3 & P4 & P5 & _).
  cbn [pt_marker pt_coords] in *. split; [|split; [now rewrite P2|intros z' x' y' E'; rewrite P1; congruence]].
  destruct Hc as [(-> & D) | (D1 & D2 & D3)].
  - destruct Hmk as [(-> & ->) | (-> & ->)]; auto.
  - rewrite P5 by auto. exact D3.
Qed.

Lemma converted_arc r mk c z ps e a pt : two_per_edge m0 -> / 10 ^ 10 <= r -> ((mk = (-5)%Z /\ r = rmin) \/ (mk = (-6)%Z /\ r = rmax)) ->
  nth_error (to_cells out) c = Some (z, ps) -> on_edge target e a -> (forall n ne, (n < c)%nat -> ~ shares m0 c e n ne) ->
  (exists x y, nth_error (to_points out) (nth (edge_node_id Tri6 e 2) ps 0%nat) = Some (mk, x, y)) ->
  (forall j, (j < 3)%nat -> on_arc out r mk (nth (edge_node_id Tri6 e j) ps 0%nat)) ->
  node_point d c a pt -> pt_marker pt = mk /\ on_circle r (pt_coords pt).
Proof.
  intros TP Hr Hmk Hc He Hs (mx & my & Hm) HA (cl & id & N1 & N2 & N3).
  destruct m0_facts as (F1 & F2 & F3). pose proof (proj2 F3 c z ps Hc) as Hcl. set (mc := mkCell c z Tri6 ps) in *.
  assert (Lps : List.length ps = 6%nat) by (rewrite <- N6; destruct F as (_ & _ & _ & Fo); exact (Fo _ (nth_error_In _ _ Hc))).
  cbn [apply_constraints points cells] in N1, N3. rewrite nth_error_map in N3. destruct (nth_error (points d1) id) as [p1|] eqn:Ep; [|discriminate]. injection N3 as <-.
  assert (NP : node_point d1 c a p1) by (exists cl, id; auto).
  destruct (edge_unique e e a He He) as (_ & Ra & Re).
  destruct (C48_markers shuffle m Tri6 target d1 conv_facts) with (c := c) (cl := mc) (a := a) (pt := p1) as (_ & _ & M3); [exact TP|exact Hcl|exact Ra|exact NP|].
  specialize (M3 e He Hs). unfold edge_mark in M3. cbn [mc c_kind] in M3. change (2 <? kind_edge_nnode Tri6)%nat with true in M3. cbn iota in M3.
  change (kind_edge_nnode Tri6 - 1)%nat with 2%nat in M3. destruct M3 as (mid & mp & M1 & M2 & M3). cbn [mc c_points] in M1.
  apply (nth_error_nth _ _ 0%nat) in M1.
  destruct (arc_node r mk _ Hmk (HA 2%nat ltac:(lia))) as (pm & Pm1 & Pm2 & Pm3 & Pm4). rewrite M1 in Pm1, Pm4, Hm. rewrite M2 in Pm1. injection Pm1 as ->.
  specialize (Pm4 _ _ _ Hm). rewrite Pm4 in M3.
  destruct (arc_node r mk _ Hmk (HA 0%nat ltac:(lia))) as (pp & Pp1 & Pp2 & Pp3 & _).
  destruct (arc_node r mk _ Hmk (HA 1%nat ltac:(lia))) as (pq & Pq1 & Pq2 & Pq3 & _).
  assert (CO : pt_coords p1 = image m mc (ref_coords target a)).
  { refine (C69_unshared_positions shuffle m Tri6 target d1 conv_facts c mc a p1 Hcl Ra _ NP).
    intros e' n ne O L. destruct (edge_unique e e' a He O) as (-> & _). now apply Hs. }
  destruct ps as [|q0 [|q1 [|q2 [|q3 [|q4 [|q5 [|? ?]]]]]]]; try discriminate Lps.
  set (X := fun id i => match nth_error (points m) id with Some pt => nth i (pt_coords pt) 0 | None => 0 end).
  destruct (edge_image target e a (X q0) (X q1) (X q2) (X q3) (X q4) (X q5) Ht He) as (k & _ & Hk & EI).
  assert (NX : forall j i, (j < 6)%nat -> nth j [X q0 i; X q1 i; X q2 i; X q3 i; X q4 i; X q5 i] 0 = X (nth j [q0; q1; q2; q3; q4; q5] 0%nat) i).
  { intros j i Hj. destruct j as [|[|[|[|[|[|j]]]]]]; try lia; reflexivity. }
  assert (EL : forall j, (j < 3)%nat -> (edge_node_id Tri6 e j < 6)%nat).
  { intros j Hj. destruct e as [|[|[|e]]]; try lia; destruct j as [|[|[|j]]]; try lia; vm_compute; lia. }
  assert (XV : forall id pt i, nth_error (points m) id = Some pt -> X id i = nth i (pt_coords pt) 0) by (intros id0 pt0 i E; unfold X; now rewrite E).
  assert (IM : pt_coords p1 = [along k (nth 0 (pt_coords pp) 0) (nth 0 (pt_coords pq) 0) (nth 0 (pt_coords pm) 0);
                               along k (nth 1 (pt_coords pp) 0) (nth 1 (pt_coords pq) 0) (nth 1 (pt_coords pm) 0)]).
  { rewrite CO. unfold image. change (ndim m) with (ndim m0). rewrite F1. cbn [seq map]. unfold cell_x. cbn [mc c_points c_kind map].
    fold (X q0 0%nat) (X q1 0%nat) (X q2 0%nat) (X q3 0%nat) (X q4 0%nat) (X q5 0%nat) (X q0 1%nat) (X q1 1%nat) (X q2 1%nat) (X q3 1%nat) (X q4 1%nat) (X q5 1%nat).
    rewrite (EI 0%nat), (EI 1%nat). rewrite !NX by (apply EL; lia).
    rewrite !(XV _ _ _ Pp1), !(XV _ _ _ Pq1), M1, !(XV _ _ _ M2). reflexivity. }
  assert (RN : radius (pt_coords p1) <> 0) by (rewrite IM; eapply arc_away; eauto).
  assert (L2 : (2 <= List.length (pt_coords p1))%nat) by (rewrite IM; simpl; lia).
  destruct (constrain_placed rmin rmax p1 H0 H1 L2) as (P1 & _ & P3 & P4 & _). split; [congruence|].
  destruct Hmk as [(Z1 & ->) | (Z1 & ->)]; rewrite Z1 in M3; auto.
Qed.
End Conv.
