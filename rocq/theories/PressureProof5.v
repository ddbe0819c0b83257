(* Moments of uniform pressure in space *)
From Coquelicot Require Import Coquelicot.
From Coq Require Import String Reals QArith Qreals List Lia Lra Bool Arith ZArith Permutation Sorted.
From Verif Require Import Base BaseFacts Expr ShapesData Kind MeshModel GraphModel MeshQuerySpec TopoModel TopoSpec TopoProof TopoFeat3 TopoFinal
  ShapesModel ShapesSpec ShapesProof GeomModel GeomProof PadModel PadSpec PadProof PadProof2 PadProof3 PadProof4 GaussModel GaussSpec GaussProof GaussProof2 GaussProof3 IntegModel IntegSpec PropInteg
  NormalSpec NormalProof NormalProof2 NormalProof3 NormalModel NormalProof4 NormalProof5 PropNormal BalanceSpec BalanceProof BalanceProof2 BalanceProof3 BalanceProof4 PressureSpec PressureProof PressureProof2 PressureProof3.
Import ListNotations.
Local Open Scope list_scope.
Local Open Scope R_scope.

(* position and tangents as polynomials with collected coefficients *)
Definition xc (k : geokind) (X : nat -> R) : list (R * exponents) :=
  match k with
  | Tri3 => [(X 0%nat, (0, 0, 0)%nat); (X 1%nat - X 0%nat, (1, 0, 0)%nat); (X 2%nat - X 0%nat, (0, 1, 0)%nat)]
  | _ => [((X 0%nat + X 1%nat + X 2%nat + X 3%nat) / 4, (0, 0, 0)%nat); ((- X 0%nat + X 1%nat + X 2%nat - X 3%nat) / 4, (1, 0, 0)%nat);
          ((- X 0%nat - X 1%nat + X 2%nat + X 3%nat) / 4, (0, 1, 0)%nat); ((X 0%nat - X 1%nat + X 2%nat - X 3%nat) / 4, (1, 1, 0)%nat)]
  end.
Definition jc (k : geokind) (X : nat -> R) (s : nat) : list (R * exponents) :=
  match k, s with
  | Tri3, 0%nat => [(X 1%nat - X 0%nat, (0, 0, 0)%nat)] | Tri3, _ => [(X 2%nat - X 0%nat, (0, 0, 0)%nat)]
  | _, 0%nat => [((- X 0%nat + X 1%nat + X 2%nat - X 3%nat) / 4, (0, 0, 0)%nat); ((X 0%nat - X 1%nat + X 2%nat - X 3%nat) / 4, (0, 1, 0)%nat)]
  | _, _ => [((- X 0%nat - X 1%nat + X 2%nat + X 3%nat) / 4, (0, 0, 0)%nat); ((X 0%nat - X 1%nat + X 2%nat - X 3%nat) / 4, (1, 0, 0)%nat)]
  end.
Definition nc (k : geokind) (X Y : nat -> R) := pmul (jc k X 0) (jc k Y 1) ++ pscale (-1) (pmul (jc k Y 0) (jc k X 1)).
Definition mc (k : geokind) (X Y Z : nat -> R) := pmul (xc k Y) (nc k X Y) ++ pscale (-1) (pmul (xc k Z) (nc k Z X)).

Lemma jc_ok k X s x y z : flat k -> (s < 2)%nat -> polynomial (jp k X s) x y z = polynomial (jc k X s) x y z.
Proof.
  intros Hk Hs. unfold jp. rewrite poly_flat. destruct Hk as [-> | ->], s as [|[|s]]; try lia; unfold sum_n; 
    [change (kind_nnode Tri3) with 3%nat|change (kind_nnode Tri3) with 3%nat|change (kind_nnode Qua4) with 4%nat|change (kind_nnode Qua4) with 4%nat];
    cbn [seq map]; unfold sum at 1; cbn [fold_right]; rewrite !poly_scale; unfold polynomial, monomial, sum; cbn; field.
Qed.
Lemma nc_ok k X Y x y z : flat k -> polynomial (np k X Y) x y z = polynomial (nc k X Y) x y z.
Proof. intros Hk. unfold np, nc. rewrite !poly_app, !poly_scale, !poly_mul, !jc_ok by (auto; lia). reflexivity. Qed.
Lemma xc_ok k X x y z : flat k -> sum_n (kind_nnode k) (fun m => nth m (calc_interp k [x; y]) 0 * X m) = polynomial (xc k X) x y z.
Proof.
  intros [-> | ->]; [change (kind_nnode Tri3) with 3%nat|change (kind_nnode Qua4) with 4%nat]; unfold sum_n, polynomial, monomial, sum; cbn; unfold Q2R; cbn; field.
Qed.

Lemma mq2 a b : (a <= 2)%nat -> (b <= 2)%nat -> Q2R (mono_int CQua (a, b, 0)%nat) =
  match a, b with 0%nat, 0%nat => 4 | 2%nat, 0%nat | 0%nat, 2%nat => 4 / 3 | 2%nat, 2%nat => 4 / 9 | _, _ => 0 end.
Proof. intros A B. destruct a as [|[|[|a]]], b as [|[|[|b]]]; try lia; unfold Q2R; cbn; lra. Qed.
Lemma mt2 a b : (a + b <= 1)%nat -> Q2R (mono_int CTri (a, b, 0)%nat) = match a, b with 0%nat, 0%nat => / 2 | _, _ => / 6 end.
Proof. intros A. destruct a as [|[|a]], b as [|[|b]]; try lia; unfold Q2R; cbn; lra. Qed.
Definition nodes_of (k : geokind) (X Y Z : nat -> R) : list (nat -> R) :=
  map (fun m i => match i with 0%nat => X m | 1%nat => Y m | _ => Z m end) (seq 0 (kind_nnode k)).
Lemma mc_integral k X Y Z : flat k -> sum (map (fun t => fst t * Q2R (mono_int (kind_class k) (snd t))) (mc k X Y Z)) = round_moment 0 (nodes_of k X Y Z).
Proof.
  intros [-> | ->]; unfold mc, nc, nodes_of; cbn [kind_class].
  - change (kind_nnode Tri3) with 3%nat. unfold round_moment, line_moment. cbn -[mono_int Q2R]. rewrite !mt2 by lia. field.
  - change (kind_nnode Qua4) with 4%nat. unfold round_moment, line_moment. cbn -[mono_int Q2R]. rewrite !mq2 by lia. field.
Qed.
Ltac tri_sum := repeat match goal with |- context [Rabs ?x] => lazymatch goal with H : Rabs x = _ |- _ => fail | _ => idtac end; unfold Rabs at 1; destruct (Rcase_abs x) end.
Lemma four_abs a b c d : Rabs ((a + b + c + d) / 4) <= (Rabs a + Rabs b + Rabs c + Rabs d) / 4.
Proof. unfold Rabs; repeat destruct Rcase_abs; lra. Qed.
Lemma two_abs a b : Rabs (a - b) <= Rabs a + Rabs b.
Proof. unfold Rabs; repeat destruct Rcase_abs; lra. Qed.
Definition ext (k : geokind) (X : nat -> R) : R := sum_n (kind_nnode k) (fun m => Rabs (X m)).
Lemma ext_pos k X : 0 <= ext k X.
Proof. unfold ext, sum_n. generalize (seq 0 (kind_nnode k)). induction l as [|m l IH]; cbn; [lra|]. pose proof (Rabs_pos (X m)). lra. Qed.
Lemma mixed_abs (e0 e1 e2 e3 : R) x : Rabs e0 = 1 -> Rabs e1 = 1 -> Rabs e2 = 1 -> Rabs e3 = 1 ->
  Rabs ((e0 * x 0%nat + e1 * x 1%nat + e2 * x 2%nat + e3 * x 3%nat) / 4) <= ext Qua4 x / 4.
Proof.
  intros A B C D. eapply Rle_trans; [apply four_abs|]. rewrite !Rabs_mult, A, B, C, D. unfold ext. change (kind_nnode Qua4) with 4%nat. unfold sum_n, sum. cbn [seq map fold_right]. lra.
Qed.
Lemma abs_one : Rabs 1 = 1 /\ Rabs (-1) = 1.
Proof. unfold Rabs. repeat destruct Rcase_abs; lra. Qed.
Ltac mixed X := match goal with |- context [Rabs (?e / 4)] => 
  first [ replace e with (1 * X 0%nat + 1 * X 1%nat + 1 * X 2%nat + 1 * X 3%nat) by ring
        | replace e with (-1 * X 0%nat + 1 * X 1%nat + 1 * X 2%nat + -1 * X 3%nat) by ring
        | replace e with (-1 * X 0%nat + -1 * X 1%nat + 1 * X 2%nat + 1 * X 3%nat) by ring
        | replace e with (1 * X 0%nat + -1 * X 1%nat + 1 * X 2%nat + -1 * X 3%nat) by ring ] end.
Lemma mixed4 X : let E := ext Qua4 X / 4 in
  Rabs ((X 0%nat + X 1%nat + X 2%nat + X 3%nat) / 4) <= E /\ Rabs ((- X 0%nat + X 1%nat + X 2%nat - X 3%nat) / 4) <= E /\
  Rabs ((- X 0%nat - X 1%nat + X 2%nat + X 3%nat) / 4) <= E /\ Rabs ((X 0%nat - X 1%nat + X 2%nat - X 3%nat) / 4) <= E.
Proof.
  destruct abs_one as (P & N). intros E. unfold E. repeat split; mixed X; apply mixed_abs; auto.
Qed.
Lemma xc_abs k X : flat k -> abs_coefs (xc k X) <= 3 * ext k X.
Proof.
  intros [-> | ->]; unfold abs_coefs, sum; cbn [xc map fold_right fst].
  - pose proof (two_abs (X 1%nat) (X 0%nat)). pose proof (two_abs (X 2%nat) (X 0%nat)). pose proof (Rabs_pos (X 1%nat)). pose proof (Rabs_pos (X 2%nat)).
    unfold ext. change (kind_nnode Tri3) with 3%nat. unfold sum_n, sum. cbn [seq map fold_right]. lra.
  - destruct (mixed4 X) as (A & B & C & D). pose proof (ext_pos Qua4 X). lra.
Qed.
Lemma jc_abs k X s : flat k -> abs_coefs (jc k X s) <= ext k X.
Proof.
  intros [-> | ->]; destruct s as [|s]; unfold abs_coefs, sum; cbn [jc map fold_right fst].
  1,2: pose proof (two_abs (X 1%nat) (X 0%nat)); pose proof (two_abs (X 2%nat) (X 0%nat)); pose proof (Rabs_pos (X 1%nat)); pose proof (Rabs_pos (X 2%nat));
    unfold ext; change (kind_nnode Tri3) with 3%nat; unfold sum_n, sum; cbn [seq map fold_right]; lra.
  all: destruct (mixed4 X) as (A & B & C & D); pose proof (ext_pos Qua4 X); lra.
Qed.
Lemma nc_abs k X Y : flat k -> abs_coefs (nc k X Y) <= 2 * (ext k X * ext k Y).
Proof.
  intros Hk. unfold nc. rewrite abs_app, abs_scale, !abs_mul. rewrite (proj2 abs_one).
  pose proof (Rmult_le_compat _ _ _ _ (abs_pos _) (abs_pos _) (jc_abs k X 0 Hk) (jc_abs k Y 1 Hk)). pose proof (Rmult_le_compat _ _ _ _ (abs_pos _) (abs_pos _) (jc_abs k Y 0 Hk) (jc_abs k X 1 Hk)). lra.
Qed.
Lemma mc_abs k X Y Z : flat k -> abs_coefs (mc k X Y Z) <= 6 * (ext k X * (ext k Y ^ 2 + ext k Z ^ 2)).
Proof.
  intros Hk. unfold mc. rewrite abs_app, abs_scale, !abs_mul. rewrite (proj2 abs_one).
  pose proof (Rmult_le_compat _ _ _ _ (abs_pos _) (abs_pos _) (xc_abs k Y Hk) (nc_abs k X Y Hk)). pose proof (Rmult_le_compat _ _ _ _ (abs_pos _) (abs_pos _) (xc_abs k Z Hk) (nc_abs k Z X Hk)).
  replace (6 * (ext k X * (ext k Y ^ 2 + ext k Z ^ 2))) with (3 * ext k Y * (2 * (ext k X * ext k Y)) + 3 * ext k Z * (2 * (ext k Z * ext k X))) by ring. lra.
Qed.
Lemma mc_within k n g X Y Z : flat k -> (k = Qua4 -> (4 <= n)%nat) -> gauss_new_sized (kind_class k) n = Ok g -> Forall (fun t => within_degree (kind_class k) n (snd t)) (mc k X Y Z).
Proof.
  intros Hk Hn G. destruct (sized_cases (kind_class k) n) as [(I & _)|(_ & msg & E)]; [|congruence].
  assert (V : Forall (fun t => let '(a, b, c) := snd t in (c = 0 /\ match k with Tri3 => a + b <= 1 | _ => a <= 2 /\ b <= 2 end)%nat) (mc k X Y Z)).
  { destruct Hk as [-> | ->]; unfold mc, nc; cbn; repeat constructor. }
  revert V. apply Forall_impl. intros [c [[a b] e]]. cbn [snd]. intros (-> & V). destruct Hk as [-> | ->]; cbn [kind_class] in *.
  - cbn [rule_sizes In] in I. clear - V I. unfold within_degree. split; [|cbn; lia].
    repeat match type of I with _ \/ _ => destruct I as [<-|I]; [cbn; lia|] end. destruct I.
  - destruct V as (A & B). specialize (Hn eq_refl). unfold within_degree. split; [|cbn; lia]. cbn [product_rule]. cbn [rule_sizes In] in I. clear - A B I Hn. destruct I as [<-|[<-|[<-|[<-|[]]]]]; cbn; lia.
Qed.

Section FaceMoment.
Variables (A : args) (n : nat) (pr : R) (b b' : list R) (q : pad).
Hypothesis W : pad_wf (a_pad A).
Hypothesis Fl : flat (p_kind (a_pad A)).
Hypothesis S3 : p_space (a_pad A) = 3%nat.
Hypothesis Ax : a_axi A = false.
Hypothesis G : gauss_new_sized (kind_class (p_kind (a_pad A))) n = Ok (a_gauss A).
Hypothesis H : vec_02_nv_bry A b (pressure pr) = Ok (b', q).
Let s := a_pad A.
Let k := p_kind s.
Lemma nodal3 : exists d (v : nat -> list R),
  (forall p i, (p < npoint (a_gauss A))%nat -> (i < 3)%nat -> d p * nth i (v p) 0 =
    pr * polynomial (nc k (node_x s (nxt i)) (node_x s (nxt (nxt i)))) (pt (a_gauss A) p 0) (pt (a_gauss A) p 1) (pt (a_gauss A) p 2)) /\
  forall m i, (m < kind_nnode k)%nat -> (i < 3)%nat -> vec_added A b b' (i + m * 3) = integral A (fun p => dvol A d p * nth i (v p) 0 * N_of A p m).
Proof.
  destruct (C66_vector A b _ b' q W H) as (_ & d & u & v & F & V & _). exists d, v. split.
  - intros p i Hp Hi. destruct (F p Hp) as ((_ & J & HJ & Lu & _ & Mu) & E). injection E as E. rewrite <- E.
    assert (K2 : kind_ndim k = 2%nat) by (exact (flat_2 A Fl)).
    assert (Ks : ksi_at A p = [pt (a_gauss A) p 0; pt (a_gauss A) p 1]) by (unfold ksi_at; fold s; fold k; rewrite K2; reflexivity). rewrite Ks in HJ.
    assert (X : forall r j, (r < 3)%nat -> (j < 2)%nat -> J r j = polynomial (jp k (node_x s r) j) (pt (a_gauss A) p 0) (pt (a_gauss A) p 1) (pt (a_gauss A) p 2)).
    { intros r j Hr Hj. transitivity (JJ s [pt (a_gauss A) p 0; pt (a_gauss A) p 1] r j); [|exact (jp_ok A W Fl S3 r j _ _ _ Hr Hj)]. apply (jacobian_unique (a_pad A) [pt (a_gauss A) p 0; pt (a_gauss A) p 1]); [exact HJ| |rewrite S3; exact Hr|fold s; fold k; rewrite K2; exact Hj].
      apply jj_partial; [exact W|]. change (kind_ndim k <= 2)%nat. rewrite K2. lia. }
    rewrite S3 in Mu, Lu. specialize (Mu i Hi).
    assert (En : nth i (map (Rmult pr) (u p)) 0 = pr * nth i (u p) 0) by (rewrite <- (Rmult_0_r pr) at 1; apply map_nth). rewrite En.
    replace (d p * (pr * nth i (u p) 0)) with (pr * (d p * nth i (u p) 0)) by ring. rewrite Mu. f_equal. rewrite <- nc_ok by exact Fl.
    unfold np. rewrite poly_app, poly_scale, !poly_mul. destruct i as [|[|[|i]]]; [| | |lia]; cbn [IntegSpec.normal_of nxt]; rewrite !X by lia; ring.
  - intros m i Hm Hi. pose proof (IntegProof6.vec_result_added _ _ _ _ _ _ V m i Hm) as X. rewrite S3 in X. exact (X Hi).
Qed.
Lemma moment_rule i : (i < 3)%nat -> net_moment_3d A b b' i =
  pr * a_alpha A * quadrature (a_gauss A) (polynomial (mc k (node_x s i) (node_x s (nxt i)) (node_x s (nxt (nxt i))))).
Proof.
  intros Hi. destruct nodal3 as (d & v & F & V). set (j := nxt i). set (l := nxt j).
  assert (Hj : (j < 3)%nat) by (unfold j; destruct i as [|[|i]]; cbn; lia). assert (Hl : (l < 3)%nat) by (unfold l; destruct j as [|[|j']]; cbn; lia).
  unfold net_moment_3d. fold j l. change (a_nnode A) with (kind_nnode k).
  rewrite (sum_n_ext _ _ (fun m => integral A (fun p => dvol A d p * (nth l (v p) 0 * (N_of A p m * node_x s j m) - nth j (v p) 0 * (N_of A p m * node_x s l m))))).
  - rewrite IntegProof6.integral_sum. unfold quadrature. rewrite <- sum_n_scal. apply sum_n_ext. intros p Hp. rewrite sum_n_scal.
    assert (E : sum_n (kind_nnode k) (fun m => nth l (v p) 0 * (N_of A p m * node_x s j m) - nth j (v p) 0 * (N_of A p m * node_x s l m)) = nth l (v p) 0 * pos s (ksi_at A p) j - nth j (v p) 0 * pos s (ksi_at A p) l).
    { unfold pos. rewrite <- !sum_n_scal. unfold Rminus. rewrite <- (Rmult_1_l (- sum_n _ _)), Ropp_mult_distr_r_reverse, Ropp_mult_distr_l, <- sum_n_scal, <- sum_n_plus. apply sum_n_ext. intros m _. unfold N_of, N_p. fold s. ring. }
    rewrite E. assert (K2 : kind_ndim k = 2%nat) by (exact (flat_2 A Fl)).
    assert (Ks : ksi_at A p = [pt (a_gauss A) p 0; pt (a_gauss A) p 1]) by (unfold ksi_at; fold s; fold k; rewrite K2; reflexivity). rewrite Ks.
    assert (Px : forall r, pos s [pt (a_gauss A) p 0; pt (a_gauss A) p 1] r = polynomial (xc k (node_x s r)) (pt (a_gauss A) p 0) (pt (a_gauss A) p 1) (pt (a_gauss A) p 2)).
    { intros r. exact (xc_ok k (node_x s r) _ _ _ Fl). }
    rewrite !Px. unfold mc. rewrite poly_app, poly_scale, !poly_mul. unfold dvol. rewrite Ax.
    pose proof (F p j Hp Hj) as Fj. pose proof (F p l Hp Hl) as Fl'.
    assert (N1 : nxt l = i) by (unfold l, j; destruct i as [|[|[|i]]]; cbn; lia). fold l in Fj. rewrite N1 in Fj, Fl'. fold j in Fl'.
    set (Xj := polynomial (xc k (node_x s j)) _ _ _). set (Xl := polynomial (xc k (node_x s l)) _ _ _).
    transitivity (wt (a_gauss A) p * a_alpha A * ((d p * nth l (v p) 0) * Xj - (d p * nth j (v p) 0) * Xl)); [ring|]. rewrite Fj, Fl'. ring.
  - intros m Hm. rewrite !V by (auto; lia). rewrite <- !IntegProof6.integral_scal. unfold integral. unfold Rminus at 1. rewrite <- (Rmult_1_l (- sum_n _ _)), Ropp_mult_distr_r_reverse, Ropp_mult_distr_l, <- sum_n_scal, <- sum_n_plus. apply sum_n_ext. intros p _. unfold s. ring.
Qed.
Definition places : list (nat -> R) := map (fun m j => node_x s j m) (seq 0 (kind_nnode k)).
Lemma places_round i : (i < 3)%nat -> round_moment 0 (nodes_of k (node_x s i) (node_x s (nxt i)) (node_x s (nxt (nxt i)))) = round_moment i places.
Proof.
  intros Hi. unfold places, nodes_of. assert (Fk : flat k) by exact Fl. destruct Fk as [-> | ->]; [change (kind_nnode Tri3) with 3%nat|change (kind_nnode Qua4) with 4%nat];
    destruct i as [|[|[|i]]]; try lia; unfold round_moment, line_moment; cbn [seq map nxt]; field.
Qed.
Lemma face_moment i : (p_kind (a_pad A) = Qua4 -> (4 <= n)%nat) -> (i < 3)%nat ->
  Rabs (net_moment_3d A b b' i - pr * a_alpha A * round_moment i places)
  <= 6 * table_eps * Rabs (pr * a_alpha A) * (extent s i * (extent s (nxt i) ^ 2 + extent s (nxt (nxt i)) ^ 2)).
Proof.
  intros Hn Hi. rewrite moment_rule by exact Hi. rewrite <- Rmult_minus_distr_l, Rabs_mult. set (P := mc k (node_x s i) (node_x s (nxt i)) (node_x s (nxt (nxt i)))).
  pose proof (mc_within k n _ (node_x s i) (node_x s (nxt i)) (node_x s (nxt (nxt i))) Fl Hn G) as Wt. fold P in Wt.
  destruct (rule_exact _ n _ P G Wt) as (v & I & B).
  rewrite <- (places_round i Hi), <- (mc_integral k _ _ _ Fl). fold P. rewrite (ref_integral_unique _ _ _ _ (poly_integral _ P (Forall_impl _ (fun t => within_fits _ n (snd t)) Wt)) I).
  pose proof (mc_abs k (node_x s i) (node_x s (nxt i)) (node_x s (nxt (nxt i))) Fl) as Ab. fold P in Ab.
  assert (T : 0 < table_eps) by (unfold table_eps; lra). pose proof (Rabs_pos (pr * a_alpha A)).
  apply Rle_trans with (Rabs (pr * a_alpha A) * (table_eps * abs_coefs P)); [apply Rmult_le_compat_l; auto|].
  replace (6 * table_eps * Rabs (pr * a_alpha A) * (extent s i * (extent s (nxt i) ^ 2 + extent s (nxt (nxt i)) ^ 2)))
    with (Rabs (pr * a_alpha A) * (table_eps * (6 * (extent s i * (extent s (nxt i) ^ 2 + extent s (nxt (nxt i)) ^ 2))))) by ring.
  apply Rmult_le_compat_l; auto. apply Rmult_le_compat_l; [lra|exact Ab].
Qed.
End FaceMoment.

(* circuits of points of the mesh *)
Definition circuit (m : mesh R) (i : nat) (l : list nat) : R := round_moment i (map (xcoord m) l).
Lemma circuit_odd m i : odd (circuit m i).
Proof.
  intros l. revert l. apply len_cases; [|unfold circuit, round_moment, line_moment; cbn; intros; try lra..].
  - apply long_zero. intros l L. unfold circuit. long l.
Qed.
Lemma circuit_cyclic m i : cyclic (circuit m i).
Proof. apply cyclic_step; [intros l L; unfold circuit; long l|..]; unfold circuit, round_moment; cbn [map]; intros; lra. Qed.
Lemma round_circuit m i c : c_kind c = Tet4 \/ c_kind c = Hex8 -> round_faces (circuit m i) c = 0.
Proof.
  intros [E | E]; unfold round_faces, sum_over; rewrite E; cbn -[line_moment]; unfold circuit, round_moment; cbn [map]; unfold line_moment; field.
Qed.

Section Boundary.
Variables (leb : R -> R -> bool) (shuffle : emap -> emap).
Variables (m : mesh R) (ft : @features R) (pr th : R) (A : fkey -> args) (n : fkey -> nat) (b b' : fkey -> list R) (q : fkey -> pad).
Hypothesis C : consistent m.
Hypothesis K : coords_complete m.
Hypothesis D : MeshModel.ndim m = 3%nat.
Hypothesis L : forall c, In c (of_dim 3 m) -> c_kind c = Tet4 \/ c_kind c = Hex8.
Hypothesis O : directed_faces m.
Hypothesis F : features_new leb shuffle m false = Ok ft.
Hypothesis Side : forall k fc, In (k, fc) (ft_faces ft) -> loaded m (f_kind fc) (f_points fc) pr th (n k) (A k) (b k) (b' k) (q k).
Lemma moment_sum_3d i : (forall k fc, In (k, fc) (ft_faces ft) -> f_kind fc = Qua4 -> (4 <= n k)%nat) -> (i < 3)%nat ->
  Rabs (sum_over (fun kf => net_moment_3d (A (fst kf)) (b (fst kf)) (b' (fst kf)) i) (ft_faces ft))
  <= 6 * table_eps * Rabs (pr * th) * sum_over (fun kf => let s := a_pad (A (fst kf)) in extent s i * (extent s (nxt i) ^ 2 + extent s (nxt (nxt i)) ^ 2)) (ft_faces ft).
Proof.
  intros N Hi.
  assert (Z : sum_over (fun kf => circuit m i (corners (f_kind (snd kf)) (f_points (snd kf)))) (ft_faces ft) = 0).
  { rewrite (circulation_3d m C leb shuffle _ ft (linear_no_quadratic m L) (circuit_odd m i) (circuit_cyclic m i) O D F).
    apply sum_over_zero. intros c Hc. apply round_circuit. now apply L. }
  assert (Z' : sum_over (fun kf => pr * th * circuit m i (corners (f_kind (snd kf)) (f_points (snd kf)))) (ft_faces ft) = 0) by (rewrite sum_over_scal, Z; ring).
  rewrite <- (Rminus_0_r (sum_over _ (ft_faces ft))), <- Z' at 1. rewrite <- sum_over_scal. apply sum_over_near.
  intros [k fc] I. cbn [fst snd]. destruct (listed_faces_sound leb shuffle m ft C D F L k fc I) as (Sd & Kd). destruct (Side k fc I) as (P & Ax & Al & G & H).
  destruct (side_x m (f_kind fc) (f_points fc) (a_pad (A k)) K (or_intror D) Sd P) as (W & Ek & Es & X). rewrite D in *.
  rewrite <- Ek in G. assert (Fl : flat (p_kind (a_pad (A k)))) by (rewrite Ek; exact Kd).
  assert (Nk : p_kind (a_pad (A k)) = Qua4 -> (4 <= n k)%nat) by (rewrite Ek; apply (N k fc I)).
  pose proof (face_moment (A k) (n k) pr (b k) (b' k) (q k) W Fl Es Ax G H i Nk Hi) as B. rewrite Al in B.
  match goal with |- Rabs (?x - ?y) <= _ => match type of B with Rabs (?x' - ?y') <= _ => replace y with y'; [exact B|] end end.
  f_equal. destruct Sd as (_ & Ln & _). unfold corners, places, circuit.
  assert (Y : forall r a, (r < 3)%nat -> (a < kind_nnode (f_kind fc))%nat -> node_x (a_pad (A k)) r a = xcoord m (nth a (f_points fc) 0%nat) r) by (intros r a Hr Ha; apply X; auto).
  rewrite Ek. destruct Kd as [E | E]; rewrite E in *; cbn [kind_class] in *.
  - change (kind_nnode Tri3) with 3%nat in *. destruct (f_points fc) as [|p0 [|p1 [|p2 [|? ?]]]]; try discriminate Ln. unfold round_moment, line_moment. cbn [firstn seq map].
    destruct i as [|[|[|i]]]; [| | |lia]; rewrite !Y by lia; reflexivity.
  - change (kind_nnode Qua4) with 4%nat in *. destruct (f_points fc) as [|p0 [|p1 [|p2 [|p3 [|? ?]]]]]; try discriminate Ln. unfold round_moment, line_moment. cbn [firstn seq map].
    destruct i as [|[|[|i]]]; [| | |lia]; rewrite !Y by lia; reflexivity.
Qed.
End Boundary.
