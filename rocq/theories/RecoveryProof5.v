(* Proofs about the recovery functions: rules whose point values cannot be prescribed *)
From Coquelicot Require Import Coquelicot.
From Coq Require Import String Reals QArith Qreals List Arith Lia Lra Bool ZArith.
From Verif Require Import Base BaseFacts Kind Expr ExprProof ShapesModel ShapesSpec ShapesProof GeomModel PadModel PadSpec PadProof PadProof2 GaussModel GaussSpec GaussProof GaussProof2 GaussProof3
  TopoModel IntegModel IntegSpec IntegProof IntegProof2 IntegProof5 RecoveryData RecoveryModel RecoverySpec RecoveryProof RecoveryRank RecoveryRank2 RecoveryProof2 RecoveryProof3 RecoveryProof4.
Import ListNotations.
Local Open Scope list_scope.
Local Open Scope R_scope.

Definition comp0 (r : Z * Z * Z * Z) : Z := comp r 0.
Definition lam (k : geokind) (data : list (Z * Z * Z * Z)) (r : Z * Z * Z * Z) : Z :=
  let '(x, y, z, _) := r in
  match k with
  | Hex8 => if negb (x =? 0)%Z then 1 else if negb (y =? 0)%Z then -1 else 0
  | Qua17 =>
      let a := Z.abs (comp0 (nth 0 data row0)) in let b := Z.abs (comp0 (nth 1 data row0)) in
      let l x := if (Z.abs x =? a)%Z then (Z.sgn x * b)%Z else (- Z.sgn x * a)%Z in (l x * l y)%Z
  | _ => let l x := if (x =? 0)%Z then (-2)%Z else 1%Z in (l x * l y)%Z
  end.
Definition weighted (k : geokind) (g : gauss) : gauss :=
  mkGauss (g_class g) (map (fun r => let '(x, y, z, _) := r in (x, y, z, lam k (g_data g) r)) (g_data g)).
(* the exponents of the interpolation functions *)
Definition exps_eqb (e f : exponents) : bool := let '(a, b, c) := e in let '(x, y, z) := f in ((a =? x) && (b =? y) && (c =? z))%nat.
Definition exps_of (k : geokind) : list exponents :=
  fold_left (fun l t => let e := toe (fst t) in if existsb (exps_eqb e) l then l else e :: l) (concat (npolys k)) [].
Definition null_check (k : geokind) (n : nat) : bool :=
  match gauss_new_sized (kind_class k) n with
  | Ok g =>
      let h := weighted k g in
      let es := exps_of k in
      forallb (fun e => match norm e with Some _ => true | None => false end) (kind_interp k) &&
      forallb (fun e => zsum (map (row_mono e) (g_data h)) =? 0)%Z es &&
      forallb (fun p => forallb (fun t => (List.length (fst t) <=? 3)%nat && existsb (exps_eqb (toe (fst t))) es) p) (npolys k) &&
      negb (lam k (g_data g) (nth 0 (g_data g) row0) =? 0)%Z && (npoint g =? n)%nat && (0 <? n)%nat
  | _ => false
  end.
Definition exact_dependent : list (geokind * nat) := [(Qua12, 9); (Qua17, 16); (Hex8, 6); (Hex32, 27)]%nat.
Lemma null_checked : forallb (fun kn => null_check (fst kn) (snd kn)) exact_dependent = true.
Proof. vm_compute. reflexivity. Qed.
Lemma weighted_pt k g p : (p < npoint g)%nat -> npoint (weighted k g) = npoint g /\ (forall i, (i < 3)%nat -> pt (weighted k g) p i = pt g p i) /\
  wt (weighted k g) p = f64 (lam k (g_data g) (nth p (g_data g) row0)).
Proof.
  intros H. unfold npoint in *. assert (L : List.length (g_data (weighted k g)) = List.length (g_data g)) by (unfold weighted; cbn [g_data]; apply map_length).
  split; auto. unfold pt, wt, g_coords, g_weight. rewrite (get_ok (g_data g) p row0), (get_ok (g_data (weighted k g)) p row0) by lia. cbn [bind].
  unfold weighted. cbn [g_data]. rewrite (nth_map_in _ (g_data g) p row0) by auto.
  destruct (nth p (g_data g) row0) as [[[x y] z] w]. split; [|reflexivity]. intros [|[|[|i]]] Hi; try reflexivity. lia.
Qed.
Lemma exps_eqb_eq e f : exps_eqb e f = true -> e = f.
Proof. destruct e as [[a b] c], f as [[x y] z]. unfold exps_eqb. rewrite !andb_true_iff, !Nat.eqb_eq. intros [[-> ->] ->]. reflexivity. Qed.

Lemma sum_map_zero {A} (f : A -> R) l : (forall x, In x l -> f x = 0) -> sum (map f l) = 0.
Proof. induction l as [|x l IH]; intros H; [reflexivity|]. cbn [map sum]. unfold sum in *. cbn [fold_right]. rewrite IH, H; [ring|now left|intros; apply H; now right]. Qed.
Lemma null_vector k n g : In (k, n) exact_dependent -> gauss_new_sized (kind_class k) n = Ok g ->
  exists v : nat -> R, 0 < sum_n n (fun p => v p * v p) /\ forall m, (m < kind_nnode k)%nat -> sum_n n (fun p => nth m (calc_interp k (ksi_of k g p)) 0 * v p) = 0.
Proof.
  intros I G. pose proof null_checked as C. rewrite forallb_forall in C. specialize (C _ I). cbn [fst snd] in C. unfold null_check in C. rewrite G in C. cbv zeta in C.
  rewrite !andb_true_iff, !forallb_forall, Nat.eqb_eq, Nat.ltb_lt, negb_true_iff, Z.eqb_neq in C. destruct C as (((((F1 & F2) & F3) & NZ) & Np) & N0).
  exists (wt (weighted k g)). split.
  - destruct n as [|n']; [lia|]. rewrite sum_n_head.
    destruct (weighted_pt k g 0 ltac:(lia)) as (_ & _ & ->).
    assert (f64 (lam k (g_data g) (nth 0 (g_data g) row0)) <> 0).
    { unfold f64, Rdiv. apply Rmult_integral_contrapositive. split; [now apply not_0_IZR|]. apply Rinv_neq_0_compat, f64_scale_pos. }
    pose proof (sum_n_nonneg n' (fun i => wt (weighted k g) (S i) * wt (weighted k g) (S i)) ltac:(intros; apply Rle_0_sqr)) as P.
    pose proof (Rlt_0_sqr _ H) as Q. unfold Rsqr in Q. lra.
  - intros m Hm.
    assert (L : List.length (npolys k) = kind_nnode k) by (unfold npolys; rewrite map_length; destruct k; reflexivity).
    assert (J : In (nth m (npolys k) []) (npolys k)) by (apply nth_In; lia). specialize (F3 _ J). rewrite forallb_forall in F3.
    transitivity (quadrature (weighted k g) (fun x y z => N_at k m x y z)).
    + unfold quadrature. destruct (weighted_pt k g 0 ltac:(lia)) as (-> & _). rewrite Np. apply sum_n_ext. intros p Hp.
      destruct (weighted_pt k g p ltac:(lia)) as (_ & W & _). rewrite !W by lia. rewrite interp_N by lia. ring.
    + rewrite (quadrature_ext _ _ (polynomial (to_poly (nth m (npolys k) [])))).
      2:{ intros x y z. rewrite to_poly_eval; [apply npolys_eval; auto; now apply forallb_forall|]. apply forallb_forall. intros t Ht. specialize (F3 t Ht). apply andb_true_iff in F3. tauto. }
      rewrite quadrature_poly. unfold to_poly. rewrite map_map. cbn [fst snd].
      apply sum_map_zero. intros t Ht.
      specialize (F3 t Ht). apply andb_true_iff in F3 as [_ F3]. apply existsb_exists in F3 as (e & He & Ee). apply exps_eqb_eq in Ee. transitivity (Q2R (snd t) * Q2R (table_sum (g_data (weighted k g)) e)); [now rewrite <- Ee|].
      specialize (F2 e He). apply Z.eqb_eq in F2. unfold table_sum. destruct e as [[a b] c]. rewrite F2. unfold Q2R at 2. cbn [Qnum]. ring.
Qed.
Lemma dependent_values k n g pd : In (k, n) exact_dependent -> p_kind pd = k -> gauss_new_sized (kind_class k) n = Ok g ->
  exists v : nat -> R, forall u, ~ (forall p, (p < n)%nat -> field pd u (ksi_of k g p) = v p).
Proof.
  intros I K G. destruct (null_vector k n g I G) as (v & P & Z0). exists v. intros u H.
  assert (E : sum_n n (fun p => v p * v p) = 0).
  { rewrite (sum_n_ext n _ (fun p => v p * sum_n (kind_nnode k) (fun m => nth m (calc_interp k (ksi_of k g p)) 0 * u m))).
    2:{ intros p Hp. rewrite <- (H p Hp) at 2. unfold field. rewrite K. reflexivity. }
    rewrite (mul_assoc n (kind_nnode k) v (fun p m => nth m (calc_interp k (ksi_of k g p)) 0) u). apply sum_n_zero. intros m Hm.
    rewrite (sum_n_ext n _ (fun p => nth m (calc_interp k (ksi_of k g p)) 0 * v p)) by (intros; ring). rewrite Z0 by auto. ring. }
  lra.
Qed.
