(* The patch test: values in the cells, tractions on the edges *)
From Coquelicot Require Import Coquelicot.
From Coq Require Import String Reals QArith Qreals List Lia Lra Bool Arith ZArith Permutation Sorted.
From Verif Require Import Base BaseFacts Expr ExprProof ShapesData Kind MeshModel GraphModel MeshQuerySpec TopoModel TopoSpec TopoMaps TopoProof TopoFeat3 TopoFinal
  ShapesModel ShapesSpec ShapesProof GeomModel GeomProof PadModel PadSpec PadProof PadProof2 PadProof3 PadProof4 GaussModel GaussSpec GaussProof GaussProof2 GaussProof3 IntegModel IntegSpec IntegProof IntegProof2 IntegProof3 IntegProof6 IntegProof7 PropInteg AnaProof AnaProof2
  NormalSpec NormalProof NormalProof2 NormalProof3 NormalModel NormalProof4 NormalProof5 PropNormal BalanceSpec BalanceProof BalanceProof2 BalanceProof3 BalanceProof4 PropBalance PressureSpec PressureProof PatchSpec PatchProof PatchProof2 PatchProof3 PatchProof4.
Import ListNotations.
Local Open Scope list_scope.
Local Open Scope R_scope.

Section Values.
Variables (zdet : R) (m : mesh R) (c : cell) (th : R) (n : nat) (A : args).
Hypothesis Hz : 0 <= zdet.
Hypothesis C : consistent m.
Hypothesis K : coords_complete m.
Hypothesis D : (MeshModel.ndim m = 2 \/ MeshModel.ndim m = 3)%nat.
Hypothesis Hc : In c (cells m).
Hypothesis Sk : simple_kind (MeshModel.ndim m) (c_kind c).
Let nd := MeshModel.ndim m.

Lemma stressed_value sig d d' q a i : stressed zdet m c sig th n A d d' q -> (a < List.length (c_points c))%nat -> (i < nd)%nat ->
  vec_added A d d' (i + a * nd) = weight_ratio (c_kind c) (a_gauss A) * th * sum_n nd (fun j => tensor2 sig i j * Ncell m c a j).
Proof.
  intros (Ep & Ax & <- & G & H) Ha Hi. destruct (cell_pad m c A C K D Hc Sk Ep) as (W & _ & Es & En & _). pose proof (cell_grad m c A n C K D Hc Sk Ep G) as Gr. unfold nd in *. rewrite <- Es in *. rewrite <- En in Ha.
  apply (forces_uniform zdet A _ (Ncell m c) Hz W Ax Gr) with (fn := fun _ _ _ => Ok sig) (q := q); auto.
  intros p x sg _ _ [= <-]. auto.
Qed.
Lemma flowing_value w d d' q a : flowing zdet m c w th n A d d' q -> (a < List.length (c_points c))%nat ->
  vec_added A d d' a = weight_ratio (c_kind c) (a_gauss A) * th * sum_n nd (fun j => nth j w 0 * Ncell m c a j).
Proof.
  intros (Ep & Ax & <- & G & H) Ha. destruct (cell_pad m c A C K D Hc Sk Ep) as (W & _ & Es & En & _). pose proof (cell_grad m c A n C K D Hc Sk Ep G) as Gr. unfold nd in *. rewrite <- Es in *. rewrite <- En in Ha.
  apply (fluxes_uniform zdet A _ (Ncell m c) Hz W Ax Gr) with (fn := fun _ _ _ => Ok w) (q := q); auto.
  intros p x sg _ _ [= <-]. auto.
Qed.
Lemma stiffened_value DD kk kk' q c0 gr a i : stiffened zdet m c DD th n A kk kk' q -> (a < List.length (c_points c))%nat -> (i < nd)%nat ->
  stiffness_times A kk kk' (c_points c) (linear m c0 gr) a i = weight_ratio (c_kind c) (a_gauss A) * th * sum_n nd (fun j => linear_stress nd DD gr i j * Ncell m c a j).
Proof.
  intros (Ep & Ax & <- & G & (nr & nc & M) & H) Ha Hi. destruct (cell_pad m c A C K D Hc Sk Ep) as (W & _ & Es & En & X). unfold nd in *. rewrite <- En in Ha. rewrite <- Es in Hi.
  pose proof (stiffness_linear zdet A _ (Ncell m c) Hz W Ax (cell_grad m c A n C K D Hc Sk Ep G) nr nc kk DD kk' q c0 gr M H a i Ha Hi) as T.
  rewrite Es in T. rewrite <- T. unfold stiffness_times. rewrite Es. apply sum_n_ext. intros b Hb. apply sum_n_ext. intros j _. f_equal. unfold linear, rigid. rewrite Es. f_equal.
  apply sum_n_ext. intros l Hl. rewrite X; auto. now rewrite <- En.
Qed.
Lemma conducting_value tt kk kk' q c0 g a : conducting zdet m c tt th n A kk kk' q -> (a < List.length (c_points c))%nat ->
  conductivity_times A kk kk' (c_points c) (fun p => c0 + sum_n nd (fun l => g l * xcoord m p l)) a =
  weight_ratio (c_kind c) (a_gauss A) * th * sum_n nd (fun j => sum_n nd (fun l => tensor2 tt j l * g l) * Ncell m c a j).
Proof.
  intros (Ep & Ax & <- & G & (nr & nc & M) & H) Ha. destruct (cell_pad m c A C K D Hc Sk Ep) as (W & _ & Es & En & X). unfold nd in *. rewrite <- En in Ha.
  pose proof (conductivity_linear zdet A _ (Ncell m c) Hz W Ax (cell_grad m c A n C K D Hc Sk Ep G) nr nc kk tt kk' q c0 g M H a Ha) as T.
  rewrite Es in T. rewrite <- T. unfold conductivity_times. apply sum_n_ext. intros b Hb. f_equal. f_equal.
  apply sum_n_ext. intros l Hl. rewrite X; auto. now rewrite <- En.
Qed.
End Values.

(** ** edges *)
Lemma lin2_interp r a : (a < 2)%nat -> nth a (calc_interp Lin2 [r]) 0 = (1 + (if (a =? 0)%nat then - r else r)) / 2.
Proof. intros H. destruct a as [|[|a]]; try lia; cbn; unfold Q2R; cbn; field. Qed.
Lemma lin2_deriv r a : (a < 2)%nat -> ent (calc_deriv Lin2 [r]) a 0 = if (a =? 0)%nat then - / 2 else / 2.
Proof. intros H. destruct a as [|[|a]]; try lia; rewrite deriv_eval; cbn; unfold Q2R; cbn; lra. Qed.

Lemma pulled_value m ps sig th n A b b' q a i : coords_complete m -> MeshModel.ndim m = 2%nat -> sound_side m Lin2 ps -> pulled m Lin2 ps sig th n A b b' q ->
  (a < 2)%nat -> (i < 2)%nat ->
  vec_added A b b' (i + a * 2) = weight_ratio Lin2 (a_gauss A) * th * sum_n 2 (fun j => tensor2 sig i j * (turned m j ps / 2)).
Proof.
  intros K D Sd (Ps & Ax & <- & G & H) Ha Hi. destruct (side_x m Lin2 ps (a_pad A) K (or_introl D) Sd Ps) as (W & Ek & Es & X). rewrite D in *.
  destruct (C66_vector A b _ b' q W H) as (_ & d & u & v & F & V & _).
  etransitivity; [pose proof (vec_result_added _ _ _ _ _ _ V a i) as Y; rewrite Es in Y; apply Y; [unfold a_nnode; rewrite Ek; exact Ha|exact Hi]|].
  destruct Sd as (_ & Lp & _). change (kind_nnode Lin2) with 2%nat in Lp. destruct ps as [|x0 [|x1 [|x2 ps]]]; try discriminate Lp.
  pose proof (moment_zero CLin n (a_gauss A) (or_introl eq_refl) G) as (Z & _).
  assert (E : forall p, (p < npoint (a_gauss A))%nat -> dvol A d p * nth i (v p) 0 * N_of A p a =
    a_alpha A * sum_n 2 (fun j => tensor2 sig i j * (turned m j [x0; x1] / 2)) / 2 * (wt (a_gauss A) p + (if (a =? 0)%nat then -1 else 1) * (wt (a_gauss A) p * pt (a_gauss A) p 0))).
  { intros p Hp. destruct (F p Hp) as ((_ & J & HJ & Lu & _ & Mu) & Ev). injection Ev as Ev.
    assert (Ks : ksi_at A p = [pt (a_gauss A) p 0]) by (unfold ksi_at; rewrite Ek; reflexivity). rewrite Ks in HJ.
    assert (XJ : forall j, (j < 2)%nat -> J j 0%nat = (xcoord m x1 j - xcoord m x0 j) / 2).
    { intros j Hj. rewrite (jacobian_unique (a_pad A) [pt (a_gauss A) p 0] J _ j 0 HJ (jj_partial (a_pad A) [pt (a_gauss A) p 0] W ltac:(rewrite Ek; apply le_n))) by (rewrite ?Es, ?Ek; first [exact Hj|apply le_n]).
      rewrite jj_ent by (rewrite ?Es, ?Ek; first [exact W|exact Hj|apply le_n]). rewrite Ek. change (kind_nnode Lin2) with 2%nat. unfold sum_n, sum. cbn [seq map fold_right].
      rewrite !lin2_deriv by lia. rewrite !X by (first [exact Hj|apply Nat.ltb_lt; reflexivity]). cbn. field. }
    rewrite Es in Mu. pose proof (Mu 0%nat ltac:(lia)) as M0. pose proof (Mu 1%nat ltac:(lia)) as M1. cbn [IntegSpec.normal_of] in M0, M1. rewrite XJ in M0, M1 by lia.
    unfold N_of, N_p. rewrite Ks, Ek, lin2_interp by auto. unfold dvol. rewrite Ax.
    assert (Nv : nth i (v p) 0 = sum_n 2 (fun j => tensor2 sig i j * nth j (u p) 0)).
    { rewrite <- Ev. destruct i as [|[|i]]; try lia; reflexivity. }
    rewrite Nv. unfold sum_n, sum. cbn [seq map fold_right turned].
    set (u0 := nth 0 (u p) 0) in *. set (u1 := nth 1 (u p) 0) in *. set (w := wt (a_gauss A) p). set (r := pt (a_gauss A) p 0).
    transitivity (w * a_alpha A * (tensor2 sig i 0 * (d p * u0) + tensor2 sig i 1 * (d p * u1)) * ((1 + (if (a =? 0)%nat then - r else r)) / 2)); [ring|].
    rewrite M0, M1. destruct (a =? 0)%nat; field. }
  unfold integral. rewrite (sum_n_ext _ _ _ E), sum_n_scal, sum_n_plus, sum_n_scal, Z. unfold weight_ratio. change (ref_measure (kind_class Lin2)) with 2. field.
Qed.

(* the edges of these cells are straight *)
Lemma boundary_lin2 (leb : R -> R -> bool) (shuffle : emap -> emap) (Sh : forall l, Permutation (shuffle l) l) m ft :
  consistent m -> MeshModel.ndim m = 2%nat -> simple_cells m -> features_new leb shuffle m false = Ok ft ->
  forall k ed, In (k, ed) (ft_edges ft) -> e_kind ed = Lin2.
Proof.
  intros C D Si F k ed I. destruct (edges_2d leb shuffle Sh m false ft C D F) as (ND & _ & _ & Dt). destruct k as [a b].
  assert (G : get_edge ft a b = Ok ed) by (apply get_edge_iff, in_mget; auto using ekey_eqb_eq).
  destruct (Dt a b ed G) as (_ & [c e] & _ & cl & Hc & _ & D2 & _ & Ek & _). cbn [fst snd] in *.
  assert (Ic : In cl (of_dim (MeshModel.ndim m) m)) by (apply filter_In; split; [exact Hc|rewrite D; now apply Nat.eqb_eq]).
  pose proof (Si cl Ic) as Sk. rewrite D in Sk. destruct Sk as [Sk|Sk]; rewrite Sk in Ek; cbn in Ek; congruence.
Qed.

Lemma pulled_total (leb : R -> R -> bool) (shuffle : emap -> emap) (Sh : forall l, Permutation (shuffle l) l) m ft sig th n A b b' q kb P i :
  consistent m -> coords_complete m -> MeshModel.ndim m = 2%nat -> simple_cells m -> features_new leb shuffle m false = Ok ft ->
  (forall k ed, In (k, ed) (ft_edges ft) -> pulled m (e_kind ed) (e_points ed) sig th (n k) (A k) (b k) (b' k) (q k) /\ weight_ratio (e_kind ed) (a_gauss (A k)) = kb) -> (i < 2)%nat ->
  sum_over (fun ke => at_point (e_points (snd ke)) P (fun a => vec_added (A (fst ke)) (b (fst ke)) (b' (fst ke)) (i + a * 2))) (ft_edges ft)
  = kb * th * sum_n 2 (fun j => tensor2 sig i j * boundary_vector m ft P j).
Proof.
  intros C K D Si F Pu Hi. rewrite (sum_over_ext _ (fun ke => kb * th * sum_n 2 (fun j => tensor2 sig i j * half_edge m P j (corners (e_kind (snd ke)) (e_points (snd ke)))))).
  - rewrite sum_over_scal, sum_over_sum. f_equal. apply sum_n_ext. intros j _. rewrite sum_over_scal. f_equal. unfold boundary_vector. now rewrite D.
  - intros [k ed] I. cbn [fst snd]. pose proof (boundary_lin2 leb shuffle Sh m ft C D Si F k ed I) as Ek. destruct (Pu k ed I) as (Pl & Ekb).
    pose proof (listed_sound leb shuffle Sh m ft C D F k ed I) as Sd. rewrite Ek in *. pose proof Sd as (_ & Lp & _). change (kind_nnode Lin2) with 2%nat in Lp.
    rewrite (at_point_ext _ _ _ (fun _ => kb * th * sum_n 2 (fun j => tensor2 sig i j * (turned m j (e_points ed) / 2)))).
    + rewrite at_point_scal, at_point_sum. f_equal. apply sum_n_ext. intros j _. rewrite at_point_scal. f_equal. unfold half_edge, corners. cbn [kind_class].
      destruct (e_points ed) as [|x [|y [|z l]]]; try discriminate Lp. reflexivity.
    + intros a Ha. rewrite Lp in Ha. rewrite <- Ekb. now apply (pulled_value m (e_points ed) sig th (n k) (A k) (b k) (b' k) (q k)).
Qed.
