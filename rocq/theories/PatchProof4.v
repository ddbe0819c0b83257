(* The patch test in a mesh: interior points and boundary *)
From Coquelicot Require Import Coquelicot.
From Coq Require Import String Reals QArith Qreals List Lia Lra Bool Arith ZArith Permutation Sorted.
From Verif Require Import Base BaseFacts Expr ExprProof ShapesData Kind MeshModel GraphModel MeshQuerySpec TopoModel TopoSpec TopoMaps TopoProof TopoFeat3 TopoFinal
  ShapesModel ShapesSpec ShapesProof GeomModel GeomProof PadModel PadSpec PadProof PadProof2 PadProof3 PadProof4 GaussModel GaussSpec GaussProof GaussProof2 GaussProof3 IntegModel IntegSpec IntegProof IntegProof2 IntegProof3 IntegProof6 IntegProof7 PropInteg AnaProof AnaProof2
  NormalSpec NormalProof NormalProof2 NormalProof3 NormalModel NormalProof4 NormalProof5 PropNormal BalanceSpec BalanceProof BalanceProof2 BalanceProof3 BalanceProof4 PropBalance PressureSpec PressureProof PatchSpec PatchProof PatchProof2 PatchProof3.
Import ListNotations.
Local Open Scope list_scope.
Local Open Scope R_scope.

Section Mesh.
Variables (leb : R -> R -> bool) (shuffle : emap -> emap).
Hypothesis Sh : forall l, Permutation (shuffle l) l.
Variables (m : mesh R) (ft : @features R).
Hypothesis C : consistent m.
Hypothesis K : coords_complete m.
Hypothesis D : (MeshModel.ndim m = 2 \/ MeshModel.ndim m = 3)%nat.
Hypothesis Si : simple_cells m.
Hypothesis O : oriented m.
Hypothesis F : features_new leb shuffle m false = Ok ft.
Let nd := MeshModel.ndim m.

Lemma in_dim c d : In c (of_dim d m) -> In c (cells m) /\ kind_ndim (c_kind c) = d.
Proof. intros H. apply filter_In in H as (H & E). split; auto. now apply Nat.eqb_eq. Qed.
Lemma no_quadratic : nd = 3%nat -> no_quadratic_tets m.
Proof.
  intros E c Hc. assert (X : forall k, c_kind c = k -> kind_ndim k = 3%nat -> k = Tet4).
  { intros k Ek Dk. assert (I : In c (of_dim nd m)) by (apply filter_In; split; [exact Hc|rewrite Ek, Dk, E; reflexivity]).
    pose proof (Si c I) as X. unfold simple_kind in X. unfold nd in E. now rewrite E, Ek in X. }
  split; intros Ek; specialize (X _ Ek eq_refl); discriminate X.
Qed.
Lemma boundary_sum P j : (j < nd)%nat -> boundary_vector m ft P j = sum_over (cell_vector m P j) (of_dim nd m).
Proof.
  intros Hj. unfold boundary_vector, cell_vector, oriented, nd in *. destruct D as [E|E]; pose proof no_quadratic as Q; unfold nd in Q; rewrite E in *.
  - apply (C96_sum_2d R leb shuffle Sh m ft _ C E O (half_odd m P j) F).
  - apply (C96_sum_3d R leb shuffle m ft _ C E (Q eq_refl) O (third_odd m P j) (third_cyclic m P j) F).
Qed.
Lemma boundary_inside P j : inside m ft P -> boundary_vector m ft P j = 0.
Proof.
  unfold inside, boundary_vector. intros H. destruct D as [E|E]; rewrite E in *; apply sum_over_zero; intros [k x] I; cbn [snd]; specialize (H k x I).
  - unfold half_edge. apply at_point_none. intros J. apply H. unfold corners in J. rewrite <- (firstn_skipn (match kind_class (e_kind x) with CLin => 2 | CTri => 3 | _ => 4 end) (e_points x)). apply in_or_app. now left.
  - unfold third_face. set (l := corners _ _). assert (J : In P l -> False).
    { intros J. apply H. unfold l, corners in J. rewrite <- (firstn_skipn (match kind_class (f_kind x) with CLin => 2 | CTri => 3 | _ => 4 end) (f_points x)). apply in_or_app. now left. }
    destruct l as [|a [|b [|c [|? ?]]]]; auto. apply at_point_none. exact J.
Qed.

Section Values.
Variables (A : nat -> args) (n : nat -> nat) (V : nat -> nat -> R) (ka : nat -> R) (th : R) (S : nat -> R).
Hypothesis Pads : forall c, In c (of_dim nd m) -> get_pad m (c_id c) = Ok (a_pad (A (c_id c))) /\ gauss_new_sized (kind_class (c_kind c)) (n (c_id c)) = Ok (a_gauss (A (c_id c))).
Hypothesis Val : forall c, In c (of_dim nd m) -> forall a, (a < List.length (c_points c))%nat -> V (c_id c) a = ka (c_id c) * th * sum_n nd (fun j => S j * Ncell m c a j).

Lemma cell_total P c : In c (of_dim nd m) -> at_point (c_points c) P (V (c_id c)) = ka (c_id c) * th * sum_n nd (fun j => S j * cell_vector m P j c).
Proof.
  intros Hc. rewrite (at_point_ext _ _ _ _ (Val c Hc)), at_point_scal, at_point_sum. f_equal. apply sum_n_ext. intros j Hj. rewrite at_point_scal. f_equal.
  destruct (Pads c Hc) as (Ep & G). destruct (in_dim c nd Hc) as (Ic & _). pose proof (Si c Hc) as Sk. unfold cell_vector. unfold nd in *.
  destruct D as [E|E]; rewrite E in *.
  - apply (cell_round_2d m c (A (c_id c)) C K (or_introl E)); auto. now rewrite E.
  - apply (cell_round_3d m c (A (c_id c)) C K (or_intror E)); auto. now rewrite E.
Qed.
Lemma total_exact P k : (forall c, In c (of_dim nd m) -> ka (c_id c) = k) -> total_at m P V = k * th * sum_n nd (fun j => S j * boundary_vector m ft P j).
Proof.
  intros Hk. unfold total_at. fold nd. rewrite (sum_over_ext _ (fun c => k * th * sum_n nd (fun j => S j * cell_vector m P j c))).
  - rewrite sum_over_scal, sum_over_sum. f_equal. apply sum_n_ext. intros j Hj. rewrite sum_over_scal. f_equal. now rewrite boundary_sum.
  - intros c Hc. rewrite cell_total by auto. now rewrite Hk.
Qed.
Lemma total_inside P k : (forall c, In c (of_dim nd m) -> ka (c_id c) = k) -> inside m ft P -> total_at m P V = 0.
Proof. intros Hk I. rewrite (total_exact P k Hk). rewrite (sum_n_ext _ _ (fun _ => 0)); [rewrite sum_n_zero; [ring|auto]|]. intros j _. rewrite boundary_inside by auto. ring. Qed.
Lemma total_near P e : (forall c, In c (of_dim nd m) -> Rabs (ka (c_id c) - 1) <= e) ->
  Rabs (total_at m P V - th * sum_n nd (fun j => S j * boundary_vector m ft P j)) <=
  e * Rabs th * sum_over (fun c => Rabs (sum_n nd (fun j => S j * cell_vector m P j c))) (of_dim nd m).
Proof.
  intros He. assert (E : th * sum_n nd (fun j => S j * boundary_vector m ft P j) = sum_over (fun c => th * sum_n nd (fun j => S j * cell_vector m P j c)) (of_dim nd m)).
  { rewrite sum_over_scal, sum_over_sum. f_equal. apply sum_n_ext. intros j Hj. rewrite sum_over_scal. f_equal. now apply boundary_sum. }
  rewrite E. unfold total_at. fold nd. rewrite (sum_over_ext _ _ (of_dim nd m) (fun c Hc => cell_total P c Hc)). clear E.
  revert He. generalize (of_dim nd m) as l. induction l as [|c l IH]; intros He; [unfold sum_over; cbn; rewrite Rminus_0_r, Rabs_R0; lra|].
  change (sum_over ?w (c :: l)) with (w c + sum_over w l). cbn beta. specialize (IH (fun c' H => He c' (or_intror H))). specialize (He c (or_introl eq_refl)).
  set (T := sum_n nd (fun j => S j * cell_vector m P j c)) in *. set (a := sum_over _ l) in *. clearbody a. set (b := sum_over _ l) in *. clearbody b. set (s := sum_over _ l) in *. clearbody s.
  replace (ka (c_id c) * th * T + a - (th * T + b)) with ((ka (c_id c) - 1) * (th * T) + (a - b)) by ring.
  eapply Rle_trans; [apply Rabs_triang|]. rewrite !Rabs_mult. pose proof (Rabs_pos th). pose proof (Rabs_pos T).
  assert (Rabs (ka (c_id c) - 1) * (Rabs th * Rabs T) <= e * (Rabs th * Rabs T)) by (apply Rmult_le_compat_r; [apply Rmult_le_pos; auto|auto]). lra.
Qed.
End Values.

Lemma ratio_near c g n : In c (of_dim nd m) -> gauss_new_sized (kind_class (c_kind c)) n = Ok g -> Rabs (weight_ratio (c_kind c) g - 1) <= 6 * table_eps.
Proof.
  intros Hc G. pose proof (weights_measure _ _ _ G) as B. destruct (sized_in _ _ _ G) as (_ & Eg). pose proof (Si c Hc) as Sk. unfold weight_ratio.
  assert (Np : npoint g = n) by (exact (proj1 (rule_points _ _ _ 0%nat G))).
  rewrite Np. set (w := sum_n n (wt g)) in *.
  assert (Pe : 0 <= table_eps) by (pose proof (Rabs_pos (w - ref_measure (kind_class (c_kind c)))); lra).
  unfold simple_kind in Sk. destruct (MeshModel.ndim m) as [|[|[|nd']]]; [| |destruct Sk as [Ek|Ek]|]; try (rename Sk into Ek); rewrite Ek in *; cbn [kind_class ref_measure] in *; cbn in B |- *.
  all: match goal with |- Rabs ?x <= _ => first
    [replace x with (2 * (w - 1 / 2)) by field; rewrite Rabs_mult, (Rabs_right 2) by lra
    |replace x with (/ 4 * (w - 4)) by field; rewrite Rabs_mult, (Rabs_right (/ 4)) by lra
    |replace x with (6 * (w - 1 / 6)) by field; rewrite Rabs_mult, (Rabs_right 6) by lra] end; lra.
Qed.
End Mesh.
