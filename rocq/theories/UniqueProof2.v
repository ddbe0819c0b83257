(* Uniqueness of solutions: energy of the cells, rigid motions, chains of cells *)
From Coquelicot Require Import Coquelicot.
From Coq Require Import String Reals List Lia Lra Bool Arith ZArith Permutation Relations.
From Verif Require Import Base BaseFacts Kind MeshModel GraphModel MeshQuerySpec TopoModel TopoSpec TopoProof
  ShapesModel ShapesSpec PadModel PadSpec PadProof GaussModel GaussSpec IntegModel IntegSpec
  BalanceSpec BalanceProof PatchSpec PatchProof PatchProof3 PatchProof4 PatchProof5 UniqueSpec UniqueProof.
Import ListNotations.
Local Open Scope list_scope.
Local Open Scope R_scope.

Lemma tensor4_minor D i j k l : tensor4 D i j k l = tensor4 D j i k l.
Proof.
  unfold tensor4, mandel_factor. rewrite (Nat.eqb_sym j i). f_equal. f_equal.
  destruct i as [|[|[|i]]], j as [|[|[|j]]]; reflexivity.
Qed.
Lemma sum_n_sub n f g : sum_n n (fun i => f i - g i) = sum_n n f - sum_n n g.
Proof. rewrite (sum_n_ext _ _ (fun i => f i + -1 * g i)) by (intros; ring). rewrite sum_n_plus, sum_n_scal. ring. Qed.

Section Cell.
Variables (zdet : R) (m : mesh R) (c : cell) (th : R) (n : nat) (A : args).
Hypothesis Hz : 0 <= zdet.
Hypothesis C : consistent m.
Hypothesis K : coords_complete m.
Hypothesis D : (MeshModel.ndim m = 2 \/ MeshModel.ndim m = 3)%nat.
Hypothesis Hd : In c (of_dim (MeshModel.ndim m) m).
Hypothesis Sk : simplex_kind (MeshModel.ndim m) (c_kind c).
Hypothesis Ms : 0 < simplex_measure m (c_points c).
Hypothesis Ht : 0 < th.
Let nd := MeshModel.ndim m.
Lemma cell_in : In c (cells m). Proof. exact (proj1 (in_dim m c nd Hd)). Qed.
Lemma cell_simple : simple_kind (MeshModel.ndim m) (c_kind c).
Proof. unfold simple_kind, simplex_kind in *. destruct (MeshModel.ndim m) as [|[|[|k]]]; auto. Qed.
Lemma cell_length : List.length (c_points c) = S nd.
Proof.
  pose proof C as (_ & C2). destruct (C2 _ _ (cell_by_id m c C cell_in)) as (_ & Ln & _). rewrite Ln. unfold nd, simplex_kind in *.
  destruct D as [E|E]; rewrite E in *; rewrite Sk; reflexivity.
Qed.
Lemma cell_linear phi : exists t0, forall x, In x (c_points c) -> phi x = t0 + sum_n nd (fun l => slope m c phi l * xcoord m x l).
Proof.
  pose proof cell_length as L. assert (Nz : simplex_measure m (c_points c) <> 0) by lra. unfold nd, simplex_kind in *. destruct D as [E|E]; rewrite E in *.
  - destruct (c_points c) as [|p [|q [|r [|? ?]]]] eqn:Ec; try discriminate L. rewrite <- Ec in *. exact (linear2 m c p q r phi E Sk Ec Nz).
  - destruct (c_points c) as [|p [|q [|r [|s [|? ?]]]]] eqn:Ec; try discriminate L. rewrite <- Ec in *. exact (linear3 m c p q r s phi E Ec Nz).
Qed.
Lemma slope_sum phi j : sum_n (List.length (c_points c)) (fun a => phi (nth a (c_points c) 0%nat) * Ncell m c a j) = simplex_measure m (c_points c) * slope m c phi j.
Proof. unfold slope. field. lra. Qed.
Lemma table_small : 6 * table_eps < 1.
Proof. unfold table_eps. lra. Qed.
Lemma ratio_positive g : gauss_new_sized (kind_class (c_kind c)) n = Ok g -> 0 < weight_ratio (c_kind c) g.
Proof.
  intros G. assert (R1 : Rabs (weight_ratio (c_kind c) g - 1) <= 6 * table_eps).
  { set (m1 := mkMesh (MeshModel.ndim m) (points m) [c] [] [] : mesh R).
    apply (ratio_near m1 D) with (n := n); auto.
    - intros c' Hc'. apply filter_In in Hc' as ([<-|[]] & _). exact cell_simple.
    - apply filter_In. split; [now left|]. apply filter_In in Hd. tauto. }
  pose proof table_small. pose proof (Rle_abs (- (weight_ratio (c_kind c) g - 1))) as X. rewrite Rabs_Ropp in X. lra.
Qed.

(** ** the energy of displacements *)
Section Solid.
Variables (DD kk kk' : mat) (q : pad) (u : nat -> nat -> R).
Hypothesis F : firm nd DD.
Hypothesis St : stiffened zdet m c DD th n A kk kk' q.
Let gr i j := slope m c (fun p => u p i) j.
Lemma stiffness_value a i : (a < List.length (c_points c))%nat -> (i < nd)%nat ->
  stiffness_times A kk kk' (c_points c) u a i = weight_ratio (c_kind c) (a_gauss A) * th * sum_n nd (fun j => linear_stress nd DD gr i j * Ncell m c a j).
Proof.
  intros Ha Hi.
  assert (Ex : exists c0, forall j x, (j < nd)%nat -> In x (c_points c) -> u x j = linear m c0 gr x j).
  { destruct (cell_linear (fun p => u p 0%nat)) as (t0 & H0). destruct (cell_linear (fun p => u p 1%nat)) as (t1 & H1). destruct (cell_linear (fun p => u p 2%nat)) as (t2 & H2).
    exists (fun j => match j with 0%nat => t0 | 1%nat => t1 | _ => t2 end). intros j x Hj Hx. unfold linear.
    assert (j < 3)%nat by (unfold nd in Hj; lia). destruct j as [|[|[|j]]]; [apply H0|apply H1|apply H2|lia]; exact Hx. }
  destruct Ex as (c0 & Ex).
  transitivity (stiffness_times A kk kk' (c_points c) (linear m c0 gr) a i).
  - unfold stiffness_times. pose proof St as (Ep & _). destruct (cell_pad m c A C K D cell_in cell_simple Ep) as (_ & _ & Es & En & _).
    apply sum_n_ext. intros b Hb. apply sum_n_ext. intros j Hj. f_equal. apply Ex; [unfold nd; now rewrite <- Es|]. apply nth_In. now rewrite <- En.
  - exact (stiffened_value zdet m c th n A Hz C K D cell_in cell_simple DD kk kk' q c0 gr a i St Ha Hi).
Qed.
Definition work : R := sum_n nd (fun i => sum_n (List.length (c_points c)) (fun a => u (nth a (c_points c) 0%nat) i * stiffness_times A kk kk' (c_points c) u a i)).
Let e i j := (gr i j + gr j i) / 2.
Lemma work_value : work = weight_ratio (c_kind c) (a_gauss A) * th * simplex_measure m (c_points c) *
  sum_n nd (fun i => sum_n nd (fun j => sum_n nd (fun k => sum_n nd (fun l => tensor4 DD i j k l * e k l)) * e i j)).
Proof.
  unfold work. set (k := weight_ratio (c_kind c) (a_gauss A) * th). set (V := simplex_measure m (c_points c)).
  rewrite (sum_n_ext _ _ (fun i => k * V * sum_n nd (fun j => linear_stress nd DD gr i j * gr i j))).
  - rewrite sum_n_scal. f_equal.
    assert (Sy : forall i j, linear_stress nd DD gr i j = linear_stress nd DD gr j i).
    { intros i j. unfold linear_stress. apply sum_n_ext. intros a _. apply sum_n_ext. intros b _. f_equal. apply tensor4_minor. }
    set (s := linear_stress nd DD gr) in *.
    assert (Sw : sum_n nd (fun i => sum_n nd (fun j => s i j * gr i j)) = sum_n nd (fun i => sum_n nd (fun j => s i j * gr j i))).
    { rewrite sum_n_swap. apply sum_n_ext. intros i _. apply sum_n_ext. intros j _. now rewrite Sy. }
    transitivity (sum_n nd (fun i => sum_n nd (fun j => s i j * e i j))); [|reflexivity].
    rewrite (sum_n_ext nd (fun i => sum_n nd (fun j => s i j * e i j)) (fun i => / 2 * (sum_n nd (fun j => s i j * gr i j) + sum_n nd (fun j => s i j * gr j i)))).
    + rewrite sum_n_scal, sum_n_plus, <- Sw. field.
    + intros i _. rewrite <- sum_n_plus, <- sum_n_scal. apply sum_n_ext. intros j _. unfold e. field.
  - intros i Hi. rewrite (sum_n_ext _ _ (fun a => k * sum_n nd (fun j => linear_stress nd DD gr i j * (u (nth a (c_points c) 0%nat) i * Ncell m c a j)))).
    + rewrite sum_n_scal, sum_n_swap, Rmult_assoc. f_equal. rewrite <- sum_n_scal. apply sum_n_ext. intros j _. rewrite sum_n_scal.
      rewrite (slope_sum (fun p => u p i) j). fold V. unfold gr. ring.
    + intros a Ha. rewrite stiffness_value by auto. fold k.
      transitivity (k * (u (nth a (c_points c) 0%nat) i * sum_n nd (fun j => linear_stress nd DD gr i j * Ncell m c a j))); [ring|]. f_equal. rewrite <- sum_n_scal. apply sum_n_ext. intros j _. ring.
Qed.
Lemma e_sym i j : e i j = e j i. Proof. unfold e. now rewrite Rplus_comm. Qed.
Lemma ratio_pos : 0 < weight_ratio (c_kind c) (a_gauss A) * th * simplex_measure m (c_points c).
Proof. destruct St as (_ & _ & _ & G & _). pose proof (ratio_positive _ G). apply Rmult_lt_0_compat; auto. now apply Rmult_lt_0_compat. Qed.
Lemma form_cases : (forall i j, (i < nd)%nat -> (j < nd)%nat -> e i j = 0) \/ 0 < work.
Proof.
  assert (Dec : (forall i j, (i < nd)%nat -> (j < nd)%nat -> e i j = 0) \/ exists i j, (i < nd)%nat /\ (j < nd)%nat /\ e i j <> 0).
  { generalize e. clear. intros e. assert (In1 : forall i k, (forall j, (j < k)%nat -> e i j = 0) \/ exists j, (j < k)%nat /\ e i j <> 0).
    { intros i. induction k as [|k [IH|(j & Hj & IH)]]; [left; intros; lia| |right; exists j; split; [lia|auto]].
      destruct (Req_dec (e i k) 0) as [E|E]; [left|right; exists k; auto]. intros j Hj. destruct (Nat.eq_dec j k) as [->|]; auto. apply IH. lia. }
    assert (X : forall k, (forall i j, (i < k)%nat -> (j < nd)%nat -> e i j = 0) \/ exists i j, (i < k)%nat /\ (j < nd)%nat /\ e i j <> 0).
    { induction k as [|k [IH|(i & j & Hi & Hj & IH)]]; [left; intros; lia| |right; exists i, j; auto].
      destruct (In1 k nd) as [E|(j & Hj & E)]; [left|right; exists k, j; auto]. intros i j Hi Hj. destruct (Nat.eq_dec i k) as [->|]; auto. apply IH; auto; lia. }
    apply X. }
  destruct Dec as [Z|P]; [left; exact Z|right]. rewrite work_value. apply Rmult_lt_0_compat; [exact ratio_pos|]. apply F; auto. apply e_sym.
Qed.
Lemma work_nonneg : 0 <= work.
Proof.
  destruct form_cases as [Z|P]; [|lra]. rewrite work_value. rewrite (sum_n_zero nd); [lra|]. intros i Hi. apply sum_n_zero. intros j Hj. rewrite (Z i j Hi Hj). ring.
Qed.
Lemma work_zero : work = 0 -> exists c0 w, skew nd w /\ forall p i, In p (c_points c) -> (i < nd)%nat -> u p i = linear m c0 w p i.
Proof.
  intros W. destruct form_cases as [Z|P]; [|lra].
  destruct (cell_linear (fun p => u p 0%nat)) as (t0 & H0). destruct (cell_linear (fun p => u p 1%nat)) as (t1 & H1). destruct (cell_linear (fun p => u p 2%nat)) as (t2 & H2).
  exists (fun j => match j with 0%nat => t0 | 1%nat => t1 | _ => t2 end), gr. split.
  - intros i j Hi Hj. specialize (Z i j Hi Hj). unfold e in Z. lra.
  - intros x j Hx Hj. unfold linear. assert (j < 3)%nat by (unfold nd in Hj; lia). destruct j as [|[|[|j]]]; [apply H0|apply H1|apply H2|lia]; exact Hx.
Qed.
End Solid.

(** ** the dissipation of temperatures *)
Section Heat.
Variables (tt : list R) (kk kk' : mat) (q : pad) (phi : nat -> R).
Hypothesis F : dissipative nd tt.
Hypothesis St : conducting zdet m c tt th n A kk kk' q.
Let g j := slope m c phi j.
Lemma conductivity_value a : (a < List.length (c_points c))%nat ->
  conductivity_times A kk kk' (c_points c) phi a = weight_ratio (c_kind c) (a_gauss A) * th * sum_n nd (fun j => sum_n nd (fun l => tensor2 tt j l * g l) * Ncell m c a j).
Proof.
  intros Ha. destruct (cell_linear phi) as (t0 & H0).
  transitivity (conductivity_times A kk kk' (c_points c) (fun p => t0 + sum_n nd (fun l => g l * xcoord m p l)) a).
  - unfold conductivity_times. pose proof St as (Ep & _). destruct (cell_pad m c A C K D cell_in cell_simple Ep) as (_ & _ & Es & En & _).
    apply sum_n_ext. intros b Hb. f_equal. apply H0. apply nth_In. now rewrite <- En.
  - exact (conducting_value zdet m c th n A Hz C K D cell_in cell_simple tt kk kk' q t0 g a St Ha).
Qed.
Definition loss : R := sum_n (List.length (c_points c)) (fun a => phi (nth a (c_points c) 0%nat) * conductivity_times A kk kk' (c_points c) phi a).
Lemma loss_value : loss = weight_ratio (c_kind c) (a_gauss A) * th * simplex_measure m (c_points c) * sum_n nd (fun i => sum_n nd (fun j => tensor2 tt i j * g j) * g i).
Proof.
  unfold loss. set (k := weight_ratio (c_kind c) (a_gauss A) * th). set (V := simplex_measure m (c_points c)).
  rewrite (sum_n_ext _ _ (fun a => k * sum_n nd (fun j => sum_n nd (fun l => tensor2 tt j l * g l) * (phi (nth a (c_points c) 0%nat) * Ncell m c a j)))).
  - rewrite sum_n_scal, sum_n_swap, Rmult_assoc. f_equal. rewrite <- sum_n_scal. apply sum_n_ext. intros j _. rewrite sum_n_scal, slope_sum. fold V. unfold g. ring.
  - intros a Ha. rewrite conductivity_value by auto. fold k.
    transitivity (k * (phi (nth a (c_points c) 0%nat) * sum_n nd (fun j => sum_n nd (fun l => tensor2 tt j l * g l) * Ncell m c a j))); [ring|]. f_equal. rewrite <- sum_n_scal. apply sum_n_ext. intros j _. ring.
Qed.
Lemma heat_pos : 0 < weight_ratio (c_kind c) (a_gauss A) * th * simplex_measure m (c_points c).
Proof. destruct St as (_ & _ & _ & G & _). pose proof (ratio_positive _ G). apply Rmult_lt_0_compat; auto. now apply Rmult_lt_0_compat. Qed.
Lemma heat_cases : (forall i, (i < nd)%nat -> g i = 0) \/ 0 < loss.
Proof.
  assert (In1 : forall k, (forall j, (j < k)%nat -> g j = 0) \/ exists j, (j < k)%nat /\ g j <> 0).
  { induction k as [|k [IH|(j & Hj & IH)]]; [left; intros; lia| |right; exists j; split; [lia|auto]].
    destruct (Req_dec (g k) 0) as [E|E]; [left|right; exists k; auto]. intros j Hj. destruct (Nat.eq_dec j k) as [->|]; auto. apply IH. lia. }
  destruct (In1 nd) as [Z|P]; [left; exact Z|right]. rewrite loss_value. apply Rmult_lt_0_compat; [exact heat_pos|]. now apply F.
Qed.
Lemma loss_nonneg : 0 <= loss.
Proof. destruct heat_cases as [Z|P]; [|lra]. rewrite loss_value. rewrite (sum_n_zero nd); [lra|]. intros i Hi. rewrite (Z i Hi). ring. Qed.
Lemma loss_zero : loss = 0 -> exists t0, forall p, In p (c_points c) -> phi p = t0.
Proof.
  intros W. destruct heat_cases as [Z|P]; [|lra]. destruct (cell_linear phi) as (t0 & H0). exists t0. intros p Hp. rewrite (H0 p Hp).
  rewrite sum_n_zero; [ring|]. intros l Hl. fold (g l). rewrite (Z l Hl). ring.
Qed.
End Heat.
End Cell.
