(* Closed forms: rectangles. *)
From Coquelicot Require Import Coquelicot.
From Coq Require Import Reals QArith Qreals List Arith Bool Lia Lra.
From Verif Require Import Base BaseFacts Kind Expr ExprProof ShapesModel ShapesSpec ShapesProof PadModel PadSpec PadProof PadProof2 PadProof3 GaussModel GaussSpec GaussProof IntegModel IntegSpec AnaData AnaModel AnaSpec AnaProof AnaProof2 AnaProof3 AnaProof4.
Import ListNotations.
Local Open Scope R_scope.

Definition half (a b : R) (i : nat) : R := if (i =? 0)%nat then a else b.

Lemma rect_facts p a b c d B ksi : pad_wf p -> p_space p = 2%nat -> kind_ndim (p_kind p) = 2%nat -> rectangle p a b c -> solid_element p d B ->
  List.length ksi = 2%nat ->
  d ksi = a * b /\ a <> 0 /\ b <> 0 /\
  forall m i, (m < kind_nnode (p_kind p))%nat -> (i < 2)%nat -> ent (B ksi) m i = ent (calc_deriv (p_kind p) ksi) m i / half a b i.
Proof.
  intros W N2 D2 HR HS L.
  destruct (solid_grad p d B ksi (fun i j => if Nat.eqb i j then (if Nat.eqb i 0 then a else b) else 0) W HS) as (D & D0 & E); [lia| |].
  { intros i j Hi Hj. rewrite <- jj_ent by (auto; lia).
    apply (jacobian_unique p ksi _ (fun i j => if Nat.eqb i j then (if Nat.eqb i 0 then a else b) else 0)); [apply jj_partial; auto; lia|apply (affine_jacobian p _ c); auto; lia|auto|lia]. }
  rewrite N2 in *. unfold det in D. cbn [Nat.eqb] in D.
  assert (A : d ksi = a * b) by (rewrite D; ring).
  assert (Ha : a <> 0) by (intros ->; apply D0; rewrite A; ring). assert (Hb : b <> 0) by (intros ->; apply D0; rewrite A; ring).
  repeat split; auto. intros m i Hm Hi. rewrite <- (E m i Hm Hi). unfold sum_n. cases2 Hi; cbn [map seq sum Nat.eqb half]; field; auto.
Qed.

Definition en (k : geokind) (m : nat) : expr := nth m (kind_interp k) (C 0).
Definition ed (k : geokind) (m j : nat) : expr := nth j (nth m (kind_deriv k) []) (C 0).

(* one or two products of expressions *)
Lemma fit1 k e q c f v : eok (kind_class k) e = true -> (forall ksi, List.length ksi = kind_ndim k -> f ksi = c * eval (env ksi) e) ->
  Qeq_bool (eint (kind_class k) e) q = true -> v = c * Q2R q -> cell_integral k f v.
Proof.
  intros O F E ->. apply (cell_ext k (fun ksi => c * eval (env ksi) e + 0)); [intros; rewrite F by auto; ring|].
  rewrite <- (Rplus_0_r (c * Q2R q)). apply (cell_lin k (fun ksi => eval (env ksi) e) (fun _ => 0)).
  - now apply (expr_value k e _ q).
  - apply (ref_ext _ (fun _ _ _ => 0)); [reflexivity|apply ref_integral_zero].
Qed.
Lemma fit2 k e1 q1 c1 e2 q2 c2 f v : eok (kind_class k) e1 = true -> eok (kind_class k) e2 = true ->
  (forall ksi, List.length ksi = kind_ndim k -> f ksi = c1 * eval (env ksi) e1 + c2 * eval (env ksi) e2) ->
  Qeq_bool (eint (kind_class k) e1) q1 = true -> Qeq_bool (eint (kind_class k) e2) q2 = true -> v = c1 * Q2R q1 + c2 * Q2R q2 -> cell_integral k f v.
Proof.
  intros O1 O2 F E1 E2 ->. apply (cell_ext k (fun ksi => c1 * eval (env ksi) e1 + c2 * eval (env ksi) e2)); [intros; symmetry; apply F; auto|].
  apply (cell_lin k (fun ksi => eval (env ksi) e1)); [now apply (expr_value k e1 _ q1)|].
  now apply (fit1 k e2 q2 c2).
Qed.

Ltac iq e := eval vm_compute in (Qred (eint CQua e)).
Ltac vm := vm_compute; reflexivity.
Ltac one k e c := let e' := eval vm_compute in e in let q := iq e in apply (fit1 k e q c); [vm| |vm|].
Ltac two k e1 c1 e2 c2 := let q1 := iq e1 in let q2 := iq e2 in apply (fit2 k e1 q1 c1 e2 q2 c2); [vm|vm| |vm|vm|].
Ltac val := unfold ent, Q2R, half; cbn [nth Nat.add Nat.mul Nat.eqb Qnum Qden]; field; repeat split; auto.

Section Qua4.
Variables (p : pad) (a b : R) (c : nat -> R) (d : list R -> R) (B : list R -> mat).
Hypothesis W : pad_wf p.
Hypothesis K : p_kind p = Qua4.
Hypothesis N2 : p_space p = 2%nat.
Hypothesis HR : rectangle p a b c.
Hypothesis HS : solid_element p d B.
Let F ksi : List.length ksi = kind_ndim Qua4 -> d ksi = a * b /\ a <> 0 /\ b <> 0 /\
  forall m i, (m < 4)%nat -> (i < 2)%nat -> ent (B ksi) m i = ent (calc_deriv Qua4 ksi) m i / half a b i.
Proof. intros L. pose proof (rect_facts p a b c d B ksi W N2) as X. rewrite K in X. apply X; auto. Qed.
Let Ha : a <> 0. Proof. apply (F [0; 0] eq_refl). Qed.
Let Hb : b <> 0. Proof. apply (F [0; 0] eq_refl). Qed.

Ltac mx := split; [reflexivity|repeat (apply Forall_cons; [reflexivity|]); apply Forall_nil].
Ltac here := let ksi := fresh "ksi" in let L := fresh "L" in let D := fresh "D" in let E := fresh "E" in
  intros ksi L; destruct (F ksi L) as (D & _ & _ & E); rewrite D; unfold sum_n, half; cbn [map seq sum nth]; rewrite ?E by lia; rewrite ?shape_eval, ?deriv_eval; unfold en, ed; cbn [half Nat.eqb eval]; field; auto.

Lemma qua4_nsn s th : mat_integral Qua4 4 1 4 1 (fun m _ n _ ksi => shape Qua4 m ksi * s * shape Qua4 n ksi * th * d ksi) (qua4_mat_01_nsn a b s th).
Proof.
  split; [mx|]. intros m i n j Hm Hi Hn Hj. replace i with 0%nat by lia. replace j with 0%nat by lia. unfold qua4_mat_01_nsn.
  cases2 Hm; cases2 Hn; (match goal with |- cell_integral _ (fun ksi => shape _ ?m ksi * _ * shape _ ?n ksi * _ * _) _ => one Qua4 (Mul (en Qua4 m) (en Qua4 n)) (s * th * (a * b)) end; [here|val]).
Qed.
Lemma qua4_btb kx ky : mat_integral Qua4 4 1 4 1 (fun m _ n _ ksi => sum_n 2 (fun i => ent (B ksi) m i * nth i [kx; ky] 0 * ent (B ksi) n i) * d ksi) (qua4_mat_03_btb a b kx ky).
Proof.
  split; [mx|]. intros m i n j Hm Hi Hn Hj. replace i with 0%nat by lia. replace j with 0%nat by lia. unfold qua4_mat_03_btb.
  cases2 Hm; cases2 Hn; (match goal with |- cell_integral _ (fun ksi => sum_n 2 (fun i => ent (B ksi) ?m i * _ * ent (B ksi) ?n i) * _) _ =>
    two Qua4 (Mul (ed Qua4 m 0) (ed Qua4 n 0)) (kx * b / a) (Mul (ed Qua4 m 1) (ed Qua4 n 1)) (ky * a / b) end; [here|val]).
Qed.
End Qua4.

Section Qua8.
Variables (p : pad) (a b : R) (c : nat -> R) (d : list R -> R) (B : list R -> mat).
Hypothesis W : pad_wf p.
Hypothesis K : p_kind p = Qua8.
Hypothesis N2 : p_space p = 2%nat.
Hypothesis HR : rectangle p a b c.
Hypothesis HS : solid_element p d B.
Let F ksi : List.length ksi = kind_ndim Qua8 -> d ksi = a * b /\ a <> 0 /\ b <> 0 /\
  forall m i, (m < 8)%nat -> (i < 2)%nat -> ent (B ksi) m i = ent (calc_deriv Qua8 ksi) m i / half a b i.
Proof. intros L. pose proof (rect_facts p a b c d B ksi W N2) as X. rewrite K in X. apply X; auto. Qed.
Let Ha : a <> 0. Proof. apply (F [0; 0] eq_refl). Qed.
Let Hb : b <> 0. Proof. apply (F [0; 0] eq_refl). Qed.

Ltac mx := split; [reflexivity|repeat (apply Forall_cons; [reflexivity|]); apply Forall_nil].
Ltac here := let ksi := fresh "ksi" in let L := fresh "L" in let D := fresh "D" in let E := fresh "E" in
  intros ksi L; destruct (F ksi L) as (D & _ & _ & E); rewrite D; unfold sum_n, half; cbn [map seq sum nth]; rewrite ?E by lia; rewrite ?shape_eval, ?deriv_eval; unfold en, ed; cbn [half Nat.eqb eval]; field; auto.

Lemma qua8_nsn s th : mat_integral Qua8 8 1 8 1 (fun m _ n _ ksi => shape Qua8 m ksi * s * shape Qua8 n ksi * th * d ksi) (qua8_mat_01_nsn a b s th).
Proof.
  split; [mx|]. intros m i n j Hm Hi Hn Hj. replace i with 0%nat by lia. replace j with 0%nat by lia. unfold qua8_mat_01_nsn.
  cases2 Hm; cases2 Hn; (match goal with |- cell_integral _ (fun ksi => shape _ ?m ksi * _ * shape _ ?n ksi * _ * _) _ => one Qua8 (Mul (en Qua8 m) (en Qua8 n)) (s * th * (a * b)) end; [here|val]).
Qed.
Lemma qua8_btb kx ky : mat_integral Qua8 8 1 8 1 (fun m _ n _ ksi => sum_n 2 (fun i => ent (B ksi) m i * nth i [kx; ky] 0 * ent (B ksi) n i) * d ksi) (qua8_mat_03_btb a b kx ky).
Proof.
  split; [mx|]. intros m i n j Hm Hi Hn Hj. replace i with 0%nat by lia. replace j with 0%nat by lia. unfold qua8_mat_03_btb.
  cases2 Hm; cases2 Hn; (match goal with |- cell_integral _ (fun ksi => sum_n 2 (fun i => ent (B ksi) ?m i * _ * ent (B ksi) ?n i) * _) _ =>
    two Qua8 (Mul (ed Qua8 m 0) (ed Qua8 n 0)) (kx * b / a) (Mul (ed Qua8 m 1) (ed Qua8 n 1)) (ky * a / b) end; [here|val]).
Qed.

Lemma qua8_nsb s : mat_integral Qua8 4 1 8 2 (fun m _ n j ksi => shape Qua4 m ksi * s * ent (B ksi) n j * d ksi) (qua8_mat_04_nsb a b s).
Proof.
  split; [mx|]. intros m i n j Hm Hi Hn Hj. replace i with 0%nat by lia. unfold qua8_mat_04_nsb.
  cases2 Hm; cases2 Hn; cases2 Hj; (match goal with |- cell_integral _ (fun ksi => shape _ ?m ksi * _ * ent _ ?n ?j * _) _ => one Qua8 (Mul (en Qua4 m) (ed Qua8 n j)) (s * (a * b / half a b j)) end; [here|val]).
Qed.
Lemma qua8_nvn v0 v1 : mat_integral Qua8 8 2 4 1 (fun m i n _ ksi => shape Qua8 m ksi * nth i [v0; v1] 0 * shape Qua4 n ksi * d ksi) (qua8_mat_06_nvn a b v0 v1).
Proof.
  split; [mx|]. intros m i n j Hm Hi Hn Hj. replace j with 0%nat by lia. unfold qua8_mat_06_nvn.
  cases2 Hm; cases2 Hn; cases2 Hi; (match goal with |- cell_integral _ (fun ksi => shape _ ?m ksi * nth ?i _ _ * shape _ ?n ksi * _) _ => one Qua8 (Mul (en Qua8 m) (en Qua4 n)) (nth i [v0; v1] 0 * (a * b)) end; [here|val]).
Qed.
Lemma qua8_bsn s : mat_integral Qua8 8 2 4 1 (fun m i n _ ksi => ent (B ksi) m i * s * shape Qua4 n ksi * d ksi) (qua8_mat_07_bsn a b s).
Proof.
  split; [mx|]. intros m i n j Hm Hi Hn Hj. replace j with 0%nat by lia. unfold qua8_mat_07_bsn.
  cases2 Hm; cases2 Hn; cases2 Hi; (match goal with |- cell_integral _ (fun ksi => ent _ ?m ?i * _ * shape _ ?n ksi * _) _ => one Qua8 (Mul (ed Qua8 m i) (en Qua4 n)) (s * (a * b / half a b i)) end; [here|val]).
Qed.

(* the gradient of the functions of the Qua4 with the same corners *)
Variables (p4 : pad) (c4 : nat -> R) (d4 : list R -> R) (B4 : list R -> mat).
Hypothesis W4 : pad_wf p4.
Hypothesis K4 : p_kind p4 = Qua4.
Hypothesis N4 : p_space p4 = 2%nat.
Hypothesis HR4 : rectangle p4 a b c4.
Hypothesis HS4 : solid_element p4 d4 B4.
Let F4 ksi : List.length ksi = kind_ndim Qua8 -> 
  forall m i, (m < 4)%nat -> (i < 2)%nat -> ent (B4 ksi) m i = ent (calc_deriv Qua4 ksi) m i / half a b i.
Proof. intros L. pose proof (rect_facts p4 a b c4 d4 B4 ksi W4 N4) as X. rewrite K4 in X. apply X; auto. Qed.

Lemma qua8_btn tt : mat_integral Qua8 4 1 8 2 (fun m _ n j ksi => sum_n 2 (fun i => ent (B4 ksi) m i * tensor2 tt i j) * shape Qua8 n ksi * d ksi) (qua8_mat_05_btn a b tt).
Proof.
  split; [mx|]. intros m i n j Hm Hi Hn Hj. replace i with 0%nat by lia. unfold qua8_mat_05_btn.
  assert (T : forall i j, (i < 2)%nat -> (j < 2)%nat -> tensor_get tt i j = tensor2 tt i j).
  { clear. intros i j Hi Hj. unfold tensor2, mandel_factor. cases2 Hi; cases2 Hj; cbn [tensor_get mandel_index Nat.eqb]; unfold vat; field; apply s2. }
  rewrite !T by lia.
  cases2 Hm; cases2 Hn; cases2 Hj; (match goal with |- cell_integral _ (fun ksi => sum_n 2 (fun i => ent _ ?m i * tensor2 _ i ?j) * shape _ ?n ksi * _) _ =>
    two Qua8 (Mul (ed Qua4 m 0) (en Qua8 n)) (b * tensor2 tt 0 j) (Mul (ed Qua4 m 1) (en Qua8 n)) (a * tensor2 tt 1 j) end;
    [intros ksi L; destruct (F ksi L) as (D & _ & _ & _); rewrite D; unfold sum_n, half; cbn [map seq sum nth]; rewrite ?(F4 ksi L) by lia; rewrite ?shape_eval, ?deriv_eval; unfold en, ed; cbn [half Nat.eqb eval]; field; auto|val]).
Qed.
End Qua8.
