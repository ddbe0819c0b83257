(* Uniform pressure along the whole boundary of a mesh of Tet4 and Hex8 *)
From Coquelicot Require Import Coquelicot.
From Coq Require Import String Reals QArith Qreals List Lia Lra Bool Arith ZArith Permutation Sorted.
From Verif Require Import Base BaseFacts Expr ShapesData Kind MeshModel GraphModel MeshQuerySpec TopoModel TopoSpec TopoProof TopoFeat3 TopoFinal
  ShapesModel ShapesSpec ShapesProof GeomModel GeomProof PadModel PadSpec PadProof PadProof2 PadProof3 PadProof4 GaussModel GaussSpec GaussProof GaussProof2 GaussProof3 IntegModel IntegSpec PropInteg
  NormalSpec NormalProof NormalProof2 NormalProof3 NormalModel NormalProof4 NormalProof5 PropNormal BalanceSpec BalanceProof BalanceProof2 BalanceProof3 BalanceProof4 PressureSpec PressureProof PressureProof2.
Import ListNotations.
Local Open Scope list_scope.
Local Open Scope R_scope.

Definition face_d (k : geokind) (m s : nat) : list (R * exponents) :=
  match k, m, s with
  | Tri3, 0%nat, _ => [(-1, (0, 0, 0)%nat)]
  | Tri3, 1%nat, 0%nat => [(1, (0, 0, 0)%nat)] | Tri3, 1%nat, _ => []
  | Tri3, _, 0%nat => [] | Tri3, _, _ => [(1, (0, 0, 0)%nat)]
  | Qua4, 0%nat, 0%nat => [(-1/4, (0, 0, 0)%nat); (1/4, (0, 1, 0)%nat)] | Qua4, 0%nat, _ => [(-1/4, (0, 0, 0)%nat); (1/4, (1, 0, 0)%nat)]
  | Qua4, 1%nat, 0%nat => [(1/4, (0, 0, 0)%nat); (-1/4, (0, 1, 0)%nat)] | Qua4, 1%nat, _ => [(-1/4, (0, 0, 0)%nat); (-1/4, (1, 0, 0)%nat)]
  | Qua4, 2%nat, 0%nat => [(1/4, (0, 0, 0)%nat); (1/4, (0, 1, 0)%nat)] | Qua4, 2%nat, _ => [(1/4, (0, 0, 0)%nat); (1/4, (1, 0, 0)%nat)]
  | Qua4, _, 0%nat => [(-1/4, (0, 0, 0)%nat); (-1/4, (0, 1, 0)%nat)] | Qua4, _, _ => [(1/4, (0, 0, 0)%nat); (-1/4, (1, 0, 0)%nat)]
  | _, _, _ => []
  end.
Definition flat (k : geokind) : Prop := k = Tri3 \/ k = Qua4.
Lemma face_d_ok k m s x y z : flat k -> (m < kind_nnode k)%nat -> (s < 2)%nat -> ent (calc_deriv k [x; y]) m s = polynomial (face_d k m s) x y z.
Proof.
  intros Hk Hm Hs. destruct Hk as [-> | ->]; vm_compute in Hm; destruct m as [|[|[|[|m]]]], s as [|[|s]]; try lia; unfold polynomial, monomial, sum; cbn; unfold Q2R; cbn; field.
Qed.
Lemma face_d_abs k m s : abs_coefs (face_d k m s) <= 1.
Proof. destruct k, m as [|[|[|[|m]]]], s as [|s]; unfold abs_coefs, sum; cbn; unfold Rabs; repeat destruct Rcase_abs; lra. Qed.

Definition jp (k : geokind) (X : nat -> R) (s : nat) := flat_map (fun m => pscale (X m) (face_d k m s)) (seq 0 (kind_nnode k)).
Definition np (k : geokind) (X Y : nat -> R) := pmul (jp k X 0) (jp k Y 1) ++ pscale (-1) (pmul (jp k Y 0) (jp k X 1)).
Definition half_product (k : geokind) (X Y : nat -> R) : R :=
  match k with
  | Tri3 => ((X 1%nat - X 0%nat) * (Y 2%nat - Y 0%nat) - (Y 1%nat - Y 0%nat) * (X 2%nat - X 0%nat)) / 2
  | _ => ((X 2%nat - X 0%nat) * (Y 3%nat - Y 1%nat) - (Y 2%nat - Y 0%nat) * (X 3%nat - X 1%nat)) / 2
  end.
Lemma mq a b : (a <= 1)%nat -> (b <= 1)%nat -> Q2R (mono_int CQua (a, b, 0)%nat) = match a, b with 0%nat, 0%nat => 4 | _, _ => 0 end.
Proof. intros A B. destruct a as [|[|a]], b as [|[|b]]; try lia; unfold Q2R; cbn; lra. Qed.
Lemma mt : Q2R (mono_int CTri (0, 0, 0)%nat) = / 2.
Proof. unfold Q2R. cbn. lra. Qed.
Lemma np_integral k X Y : flat k -> sum (map (fun t => fst t * Q2R (mono_int (kind_class k) (snd t))) (np k X Y)) = half_product k X Y.
Proof.
  intros [-> | ->]; unfold np, jp, half_product; cbn [kind_class].
  - change (kind_nnode Tri3) with 3%nat. cbn -[mono_int Q2R]. rewrite !mt. field.
  - change (kind_nnode Qua4) with 4%nat. cbn -[mono_int Q2R]. rewrite !mq by lia. field.
Qed.
Lemma np_within k n g X Y : flat k -> gauss_new_sized (kind_class k) n = Ok g -> Forall (fun t => within_degree (kind_class k) n (snd t)) (np k X Y).
Proof.
  intros Hk G. destruct (sized_cases (kind_class k) n) as [(I & _)|(_ & msg & E)]; [|congruence].
  assert (Z : Forall (fun t => let '(a, b, c) := snd t in (c = 0 /\ match k with Tri3 => a = 0 /\ b = 0 | _ => a <= 1 /\ b <= 1 end)%nat) (np k X Y)).
  { destruct Hk as [-> | ->]; unfold np, jp; [change (kind_nnode Tri3) with 3%nat|change (kind_nnode Qua4) with 4%nat]; cbn; repeat constructor. }
  revert Z. apply Forall_impl. intros [c [[a b] e]]. cbn [snd]. intros (-> & Z). destruct Hk as [-> | ->]; cbn [kind_class] in *.
  - destruct Z as (-> & ->). vm_compute. repeat split; auto; lia.
  - destruct Z as (A & B). unfold within_degree. split; [|cbn; lia]. cbn [product_rule]. cbn [rule_sizes In] in I. clear - A B I. destruct I as [<-|[<-|[<-|[<-|[]]]]]; cbn; lia.
Qed.
Lemma jp_abs k X s : abs_coefs (jp k X s) <= sum_n (kind_nnode k) (fun m => Rabs (X m)).
Proof.
  unfold jp. rewrite abs_flat. unfold sum_n. generalize (seq 0 (kind_nnode k)). induction l as [|m l IH]; cbn [map]; [cbn; lra|].
  change (sum (?x :: ?t)) with (x + sum t). rewrite abs_scale. pose proof (face_d_abs k m s). pose proof (Rabs_pos (X m)). nra.
Qed.
Lemma np_abs k X Y : abs_coefs (np k X Y) <= 2 * sum_n (kind_nnode k) (fun m => Rabs (X m)) * sum_n (kind_nnode k) (fun m => Rabs (Y m)).
Proof.
  unfold np. rewrite abs_app, abs_scale, !abs_mul. replace (Rabs (-1)) with 1 by (unfold Rabs; destruct Rcase_abs; lra).
  pose proof (Rmult_le_compat _ _ _ _ (abs_pos _) (abs_pos _) (jp_abs k X 0) (jp_abs k Y 1)). pose proof (Rmult_le_compat _ _ _ _ (abs_pos _) (abs_pos _) (jp_abs k Y 0) (jp_abs k X 1)). lra.
Qed.

Section Face.
Variables (A : args) (n : nat) (pr : R) (b b' : list R) (q : pad).
Hypothesis W : pad_wf (a_pad A).
Hypothesis Fl : flat (p_kind (a_pad A)).
Hypothesis S3 : p_space (a_pad A) = 3%nat.
Hypothesis Ax : a_axi A = false.
Hypothesis G : gauss_new_sized (kind_class (p_kind (a_pad A))) n = Ok (a_gauss A).
Hypothesis H : vec_02_nv_bry A b (pressure pr) = Ok (b', q).
Let s := a_pad A.
Let k := p_kind s.
Lemma flat_2 : kind_ndim k = 2%nat.
Proof. unfold k, s. destruct Fl as [-> | ->]; reflexivity. Qed.
Lemma jp_ok i j x y z : (i < 3)%nat -> (j < 2)%nat -> JJ s [x; y] i j = polynomial (jp k (node_x s i) j) x y z.
Proof.
  intros Hi Hj. unfold jp. rewrite poly_flat. rewrite jj_ent; [|exact W|unfold s; rewrite S3; exact Hi|fold k; rewrite flat_2; exact Hj]. apply sum_n_ext. intros m Hm. rewrite poly_scale. fold k. now rewrite (face_d_ok k m j x y z Fl Hm Hj).
Qed.
Lemma force_rule i : (i < 3)%nat -> net_force A b b' i = pr * a_alpha A * quadrature (a_gauss A) (polynomial (np k (node_x s (nxt i)) (node_x s (nxt (nxt i))))).
Proof.
  intros Hi. destruct (C66_vector A b _ b' q W H) as (_ & d & u & v & F & _ & T). unfold net_force. rewrite (T i) by (rewrite S3; exact Hi).
  unfold integral, quadrature. rewrite <- sum_n_scal. apply sum_n_ext. intros p Hp. destruct (F p Hp) as ((_ & J & HJ & Lu & _ & Mu) & E). injection E as E. rewrite <- E.
  assert (Ks : ksi_at A p = [pt (a_gauss A) p 0; pt (a_gauss A) p 1]) by (unfold ksi_at; fold s; fold k; rewrite flat_2; reflexivity). rewrite Ks in HJ.
  assert (X : forall r j, (r < 3)%nat -> (j < 2)%nat -> J r j = polynomial (jp k (node_x s r) j) (pt (a_gauss A) p 0) (pt (a_gauss A) p 1) (pt (a_gauss A) p 2)).
  { intros r j Hr Hj. rewrite <- jp_ok by auto. apply (jacobian_unique (a_pad A) [pt (a_gauss A) p 0; pt (a_gauss A) p 1]); [exact HJ| |rewrite S3; exact Hr|fold s; fold k; rewrite flat_2; exact Hj].
    apply jj_partial; [exact W|]. change (kind_ndim k <= 2)%nat. rewrite flat_2. lia. }
  rewrite S3 in Mu, Lu. specialize (Mu i Hi).
  assert (En : nth i (map (Rmult pr) (u p)) 0 = pr * nth i (u p) 0) by (rewrite <- (Rmult_0_r pr) at 1; apply map_nth). rewrite En.
  unfold dvol. rewrite Ax. transitivity (pr * a_alpha A * wt (a_gauss A) p * (d p * nth i (u p) 0)); [ring|]. rewrite Mu. rewrite !Rmult_assoc. do 3 f_equal.
  unfold np. rewrite poly_app, poly_scale, !poly_mul. destruct i as [|[|[|i]]]; [| | |lia]; cbn [IntegSpec.normal_of nxt]; rewrite !X by lia; ring.
Qed.
Lemma face_force i : (i < 3)%nat ->
  Rabs (net_force A b b' i - pr * a_alpha A * half_product k (node_x s (nxt i)) (node_x s (nxt (nxt i))))
  <= 2 * table_eps * Rabs (pr * a_alpha A) * (extent s (nxt i) * extent s (nxt (nxt i))).
Proof.
  intros Hi. rewrite force_rule by exact Hi. rewrite <- Rmult_minus_distr_l, Rabs_mult. set (P := np k (node_x s (nxt i)) (node_x s (nxt (nxt i)))).
  pose proof (np_within k n _ (node_x s (nxt i)) (node_x s (nxt (nxt i))) Fl G) as Wt. fold P in Wt.
  destruct (rule_exact _ n _ P G Wt) as (v & I & B).
  rewrite <- (np_integral k _ _ Fl). fold P. rewrite (ref_integral_unique _ _ _ _ (poly_integral _ P (Forall_impl _ (fun t => within_fits _ n (snd t)) Wt)) I).
  pose proof (np_abs k (node_x s (nxt i)) (node_x s (nxt (nxt i)))) as Ab. fold P in Ab.
  assert (T : 0 < table_eps) by (unfold table_eps; lra). pose proof (Rabs_pos (pr * a_alpha A)).
  apply Rle_trans with (Rabs (pr * a_alpha A) * (table_eps * abs_coefs P)); [apply Rmult_le_compat_l; auto|].
  replace (2 * table_eps * Rabs (pr * a_alpha A) * (extent s (nxt i) * extent s (nxt (nxt i)))) with (Rabs (pr * a_alpha A) * (table_eps * (2 * extent s (nxt i) * extent s (nxt (nxt i))))) by ring.
  apply Rmult_le_compat_l; auto. apply Rmult_le_compat_l; [lra|exact Ab].
Qed.
End Face.

Section Boundary.
Variables (leb : R -> R -> bool) (shuffle : emap -> emap).
Variables (m : mesh R) (ft : @features R) (pr th : R) (A : fkey -> args) (n : fkey -> nat) (b b' : fkey -> list R) (q : fkey -> pad).
Hypothesis C : consistent m.
Hypothesis K : coords_complete m.
Hypothesis D : MeshModel.ndim m = 3%nat.
Hypothesis L : forall c, In c (of_dim 3 m) -> c_kind c = Tet4 \/ c_kind c = Hex8.
Hypothesis O : directed_faces m.
Hypothesis F : features_new leb shuffle m false = Ok ft.
Hypothesis Side : forall k fc, In (k, fc) (ft_faces ft) ->
  pad_of_side m (f_kind fc) (f_points fc) (a_pad (A k)) /\ a_axi (A k) = false /\ a_alpha (A k) = th /\
  gauss_new_sized (kind_class (f_kind fc)) (n k) = Ok (a_gauss (A k)) /\ vec_02_nv_bry (A k) (b k) (pressure pr) = Ok (b' k, q k).
Lemma force_sum_3d i : (i < 3)%nat ->
  Rabs (sum_over (fun kf => net_force (A (fst kf)) (b (fst kf)) (b' (fst kf)) i) (ft_faces ft))
  <= 2 * table_eps * Rabs (pr * th) * sum_over (fun kf => extent (a_pad (A (fst kf))) (nxt i) * extent (a_pad (A (fst kf))) (nxt (nxt i))) (ft_faces ft).
Proof.
  intros Hi. pose proof (area_closed leb shuffle m ft i C D (linear_no_quadratic m L) O F) as Z.
  assert (Z' : sum_over (fun kf => pr * th * area_vector m i (corners (f_kind (snd kf)) (f_points (snd kf)))) (ft_faces ft) = 0) by (rewrite sum_over_scal, Z; ring).
  rewrite <- (Rminus_0_r (sum_over _ (ft_faces ft))), <- Z' at 1. rewrite <- sum_over_scal. apply sum_over_near.
  intros [k fc] I. cbn [fst snd]. destruct (listed_faces_sound leb shuffle m ft C D F L k fc I) as (Sd & Kd). destruct (Side k fc I) as (P & Ax & Al & G & H).
  destruct (side_x m (f_kind fc) (f_points fc) (a_pad (A k)) K (or_intror D) Sd P) as (W & Ek & Es & X). rewrite D in *.
  rewrite <- Ek in G. assert (Fl : flat (p_kind (a_pad (A k)))) by (rewrite Ek; exact Kd).
  pose proof (face_force (A k) (n k) pr (b k) (b' k) (q k) W Fl Es Ax G H i Hi) as B. rewrite Al, Ek in B.
  match goal with |- Rabs (?x - ?y) <= _ => match type of B with Rabs (?x' - ?y') <= _ => replace y with y'; [exact B|] end end.
  f_equal. destruct Sd as (_ & Ln & _). unfold corners.
  assert (Y : forall r a, (r < 3)%nat -> (a < kind_nnode (f_kind fc))%nat -> node_x (a_pad (A k)) r a = xcoord m (nth a (f_points fc) 0%nat) r) by (intros r a Hr Ha; apply X; auto).
  destruct Kd as [E | E]; rewrite E in *; cbn [half_product kind_class] in *.
  - change (kind_nnode Tri3) with 3%nat in *. destruct (f_points fc) as [|p0 [|p1 [|p2 [|? ?]]]]; try discriminate Ln. cbn [firstn area_vector].
    destruct i as [|[|[|i]]]; [| | |lia]; cbn [nxt]; rewrite !Y by lia; cbn [nth]; unfold vector_product, from_to; field.
  - change (kind_nnode Qua4) with 4%nat in *. destruct (f_points fc) as [|p0 [|p1 [|p2 [|p3 [|? ?]]]]]; try discriminate Ln. cbn [firstn area_vector].
    destruct i as [|[|[|i]]]; [| | |lia]; cbn [nxt]; rewrite !Y by lia; cbn [nth]; unfold vector_product, from_to; field.
Qed.
End Boundary.
