(* Closed forms: the vectors and matrices of a triangle. *)
From Coquelicot Require Import Coquelicot.
From Coq Require Import Reals QArith Qreals List Arith Bool Lia Lra.
From Verif Require Import Base BaseFacts Kind Expr ExprProof ShapesModel ShapesSpec ShapesProof PadModel PadSpec PadProof PadProof2 GaussModel GaussSpec GaussProof IntegModel IntegSpec AnaData AnaModel AnaSpec AnaProof AnaProof2.
Import ListNotations.
Local Open Scope R_scope.

(* the values of the integrals of 1, N_m and N_m N_n *)
Definition simple_ints (k : geokind) (v0 v1 vd vo : R) : Prop :=
  cell_integral k (fun _ => 1) v0 /\ (forall m, (m < kind_nnode k)%nat -> cell_integral k (shape k m) v1) /\
  (forall m n, (m < kind_nnode k)%nat -> (n < kind_nnode k)%nat ->
     cell_integral k (fun ksi => shape k m ksi * shape k n ksi) (if (m =? n)%nat then vd else vo)).

Lemma expr_value k e f q v : eok (kind_class k) e = true -> (forall ksi, List.length ksi = kind_ndim k -> f ksi = eval (env ksi) e) ->
  Qeq_bool (eint (kind_class k) e) q = true -> Q2R q = v -> cell_integral k f v.
Proof.
  intros O F E <-. apply (cell_ext k (fun ksi => eval (env ksi) e)); [intros; symmetry; now apply F|].
  apply Qeq_bool_iff, Qeq_eqR in E. rewrite <- E. now apply expr_integral.
Qed.

Lemma tri_ints : simple_ints Tri3 (1/2) (1/6) (1/12) (1/24).
Proof.
  split; [|split].
  - apply (expr_value _ (C 1) _ (1#2)); [reflexivity|intros; cbn; unfold Q2R; cbn; lra|reflexivity|unfold Q2R; cbn; lra].
  - intros m Hm. change (kind_nnode Tri3) with 3%nat in Hm. apply (expr_value _ (nth m (kind_interp Tri3) (C 0)) _ (1#6));
      [cases2 Hm; vm_compute; reflexivity|intros; apply shape_eval|cases2 Hm; vm_compute; reflexivity|unfold Q2R; cbn; lra].
  - intros m n Hm Hn. change (kind_nnode Tri3) with 3%nat in *. 
    apply (expr_value _ (Mul (nth m (kind_interp Tri3) (C 0)) (nth n (kind_interp Tri3) (C 0))) _ (if (m =? n)%nat then 1#12 else 1#24)); 
      [cases2 Hm; cases2 Hn; vm_compute; reflexivity|intros; rewrite !shape_eval; reflexivity|cases2 Hm; cases2 Hn; vm_compute; reflexivity|].
    destruct (m =? n)%nat; unfold Q2R; cbn; lra.
Qed.
Lemma tet_ints : simple_ints Tet4 (1/6) (1/24) (1/60) (1/120).
Proof.
  split; [|split].
  - apply (expr_value _ (C 1) _ (1#6)); [reflexivity|intros; cbn; unfold Q2R; cbn; lra|reflexivity|unfold Q2R; cbn; lra].
  - intros m Hm. change (kind_nnode Tet4) with 4%nat in Hm. apply (expr_value _ (nth m (kind_interp Tet4) (C 0)) _ (1#24));
      [cases2 Hm; vm_compute; reflexivity|intros; apply shape_eval|cases2 Hm; vm_compute; reflexivity|unfold Q2R; cbn; lra].
  - intros m n Hm Hn. change (kind_nnode Tet4) with 4%nat in *. 
    apply (expr_value _ (Mul (nth m (kind_interp Tet4) (C 0)) (nth n (kind_interp Tet4) (C 0))) _ (if (m =? n)%nat then 1#60 else 1#120)); 
      [cases2 Hm; cases2 Hn; vm_compute; reflexivity|intros; rewrite !shape_eval; reflexivity|cases2 Hm; cases2 Hn; vm_compute; reflexivity|].
    destruct (m =? n)%nat; unfold Q2R; cbn; lra.
Qed.

Lemma cell_sum k n (c : nat -> R) (f : nat -> list R -> R) (v : nat -> R) :
  (forall m, (m < n)%nat -> cell_integral k (f m) (v m)) ->
  cell_integral k (fun ksi => sum_n n (fun m => c m * f m ksi)) (sum_n n (fun m => c m * v m)).
Proof.
  induction n as [|n IH]; intros H.
  - apply (ref_ext _ (fun _ _ _ => 0)); [reflexivity|apply ref_integral_zero].
  - rewrite sum_n_S. rewrite Rplus_comm.
    apply (cell_ext k (fun ksi => c n * f n ksi + sum_n n (fun m => c m * f m ksi))); [intros; rewrite sum_n_S; ring|].
    apply cell_lin; [apply H; lia|apply IH; intros; apply H; lia].
Qed.

(* integrands c0 + sum c_k N_k + N_m sum e_k N_k *)
Lemma fit k v0 v1 vd vo m c0 c e f v : simple_ints k v0 v1 vd vo -> (m < kind_nnode k)%nat ->
  (forall ksi, List.length ksi = kind_ndim k -> f ksi = c0 + sum_n (kind_nnode k) (fun j => c j * shape k j ksi)
     + sum_n (kind_nnode k) (fun j => e j * (shape k m ksi * shape k j ksi))) ->
  v = c0 * v0 + sum_n (kind_nnode k) (fun j => c j * v1) + sum_n (kind_nnode k) (fun j => e j * (if (m =? j)%nat then vd else vo)) ->
  cell_integral k f v.
Proof.
  intros (I0 & I1 & I2) Hm F ->.
  apply (cell_ext k (fun ksi => c0 * 1 + (1 * (sum_n (kind_nnode k) (fun j => c j * shape k j ksi)) + sum_n (kind_nnode k) (fun j => e j * (shape k m ksi * shape k j ksi))))); [intros; rewrite F by auto; ring|].
  rewrite Rplus_assoc. rewrite <- (Rmult_1_l (sum_n _ (fun j => c j * v1))).
  apply (cell_lin k (fun _ => 1)); [exact I0|]. apply (cell_lin k (fun ksi => sum_n (kind_nnode k) (fun j => c j * shape k j ksi))).
  - apply (cell_sum k _ c (shape k) (fun _ => v1)). exact I1.
  - apply (cell_sum k _ e (fun j ksi => shape k m ksi * shape k j ksi) (fun j => if (m =? j)%nat then vd else vo)). intros; apply I2; auto.
Qed.

Lemma tri_coords p t : p_kind p = Tri3 -> tri3_new p = Ok t ->
  t_x0 t = node_x p 0 0 /\ t_x1 t = node_x p 0 1 /\ t_x2 t = node_x p 0 2.
Proof. intros K H. unfold tri3_new in H. rewrite K in H. injection H as <-. repeat split. Qed.

Definition z0 : nat -> R := fun _ => 0.
Ltac sums := unfold z0; repeat match goal with |- context [sum_n ?n ?f] => match goal with |- context [sum_n (kind_nnode ?k) f] => change (kind_nnode k) with (List.length (kind_interp k)) | _ => idtac end end.

Section Tri.
Variables (p : pad) (t : tri3) (d : list R -> R) (B : list R -> mat).
Hypothesis W : pad_wf p.
Hypothesis K : p_kind p = Tri3.
Hypothesis N2 : p_space p = 2%nat.
Hypothesis HT : tri3_new p = Ok t.
Hypothesis HS : solid_element p d B.

Let HA : t_area t <> 0. Proof. apply (tri_facts p t d B); auto. Qed.
Lemma td ksi : List.length ksi = 2%nat -> d ksi = 2 * t_area t.
Proof. intros L. now apply (tri_facts p t d B). Qed.
Lemma tB ksi m i : List.length ksi = 2%nat -> (m < 3)%nat -> (i < 2)%nat -> ent (B ksi) m i = ent (t_bb t) m i.
Proof. intros L. now apply (tri_facts p t d B). Qed.
Lemma tpos ksi i : pos p ksi i = shape Tri3 0 ksi * node_x p i 0 + shape Tri3 1 ksi * node_x p i 1 + shape Tri3 2 ksi * node_x p i 2.
Proof. unfold pos. rewrite K. unfold sum_n. change (kind_nnode Tri3) with 3%nat. cbn [map seq sum]. unfold shape. ring. Qed.

Ltac out := cbn [nth Nat.add Nat.mul Nat.eqb]; unfold ent; cbn [nth Nat.add Nat.mul Nat.eqb]; try change (kind_nnode Tri3) with 3%nat;
  unfold sum_n, z0; cbn [map seq sum Nat.eqb]; try field.
Ltac inn := let ksi := fresh "ksi" in let L := fresh "L" in intros ksi L; change (kind_ndim Tri3) with 2%nat in L; change (kind_nnode Tri3) with 3%nat;
  unfold sum_n, z0; cbn [map seq sum Nat.eqb nth andb]; rewrite ?(td ksi L), ?tpos, ?(fun m i => tB ksi m i L) by lia.

Lemma tri_vec_01 s axi : vec_integral Tri3 3 1 (fun m _ ksi => shape Tri3 m ksi * s * axi_weight axi p ksi * d ksi) (on_tri3 tri3_vec_01_ns t s axi).
Proof.
  destruct (tri_coords p t K HT) as (X0 & X1 & X2). split; [destruct axi; reflexivity|].
  intros m i Hm Hi. replace i with 0%nat by lia.
  unfold on_tri3, tri3_vec_01_ns, axi_weight. rewrite X0, X1, X2. destruct axi.
  - apply (fit Tri3 _ _ _ _ m 0 z0 (fun j => 2 * t_area t * s * node_x p 0 j) _ _ tri_ints Hm).
    + intros ksi L. rewrite td, tpos by exact L. unfold sum_n, z0. change (kind_nnode Tri3) with 3%nat. cbn [map seq sum]. ring.
    + cases2 Hm; out.
  - apply (fit Tri3 _ _ _ _ m 0 (fun j => if (j =? m)%nat then 2 * t_area t * s else 0) z0 _ _ tri_ints Hm).
    + intros ksi L. rewrite td by exact L. unfold sum_n, z0. change (kind_nnode Tri3) with 3%nat. cases2 Hm; cbn [map seq sum Nat.eqb]; ring.
    + cases2 Hm; out.
Qed.

Lemma tri_vec_02 v0 v1 : vec_integral Tri3 3 2 (fun m i ksi => shape Tri3 m ksi * nth i [v0; v1] 0 * d ksi) (on_tri3 tri3_vec_02_nv t v0 v1).
Proof.
  split; [reflexivity|]. intros m i Hm Hi.
  apply (fit Tri3 _ _ _ _ m 0 (fun j => if (j =? m)%nat then 2 * t_area t * nth i [v0; v1] 0 else 0) z0 _ _ tri_ints Hm).
  - inn. cases2 Hm; cbn [Nat.eqb]; ring.
  - cases2 Hm; cases2 Hi; unfold on_tri3, tri3_vec_02_nv; out.
Qed.

Lemma tri_vec_03 w0 w1 : vec_integral Tri3 3 1 (fun m _ ksi => sum_n 2 (fun i => nth i [w0; w1] 0 * ent (B ksi) m i) * d ksi) (on_tri3 tri3_vec_03_bv t w0 w1).
Proof.
  split; [reflexivity|]. intros m i Hm Hi. replace i with 0%nat by lia.
  apply (fit Tri3 _ _ _ _ m ((w0 * ent (t_bb t) m 0 + w1 * ent (t_bb t) m 1) * (2 * t_area t)) z0 z0 _ _ tri_ints Hm).
  - inn. ring.
  - cases2 Hm; unfold on_tri3, tri3_vec_03_bv; out.
Qed.

Lemma tri_vec_03_bilinear : vec_integral Tri3 3 1 (fun m _ ksi => sum_n 2 (fun i => pos p ksi i * ent (B ksi) m i) * d ksi) (on_tri3 tri3_vec_03_bv_bilinear t (p_xxt p)).
Proof.
  split; [reflexivity|]. intros m i Hm Hi. replace i with 0%nat by lia.
  apply (fit Tri3 _ _ _ _ m 0 (fun j => (node_x p 0 j * ent (t_bb t) m 0 + node_x p 1 j * ent (t_bb t) m 1) * (2 * t_area t)) z0 _ _ tri_ints Hm).
  - inn. ring.
  - unfold node_x. cases2 Hm; unfold on_tri3, tri3_vec_03_bv_bilinear; out.
Qed.

Lemma s2 : sqrt 2 <> 0. Proof. pose proof (sqrt_lt_R0 2). lra. Qed.

Lemma tri_vec_04 tt axi : vec_integral Tri3 3 2 (fun m i ksi =>
    sum_n 2 (fun j => tensor2 tt i j * ent (B ksi) m j) * axi_weight axi p ksi * d ksi
    + (if axi && (i =? 0)%nat then shape Tri3 m ksi * tensor2 tt 2 2 * d ksi else 0)) (on_tri3 tri3_vec_04_bt t tt axi).
Proof.
  destruct (tri_coords p t K HT) as (X0 & X1 & X2). split; [destruct axi; reflexivity|]. intros m i Hm Hi. pose proof s2 as Q.
  unfold on_tri3, tri3_vec_04_bt, axi_weight. rewrite X0, X1, X2. destruct axi.
  - apply (fit Tri3 _ _ _ _ m 0 (fun j => node_x p 0 j * (tensor2 tt i 0 * ent (t_bb t) m 0 + tensor2 tt i 1 * ent (t_bb t) m 1) * (2 * t_area t)
      + (if ((j =? m) && (i =? 0))%nat then tensor2 tt 2 2 * (2 * t_area t) else 0)) z0 _ _ tri_ints Hm).
    + inn. cases2 Hm; cases2 Hi; cbn [Nat.eqb andb]; ring.
    + cases2 Hm; cases2 Hi; out; unfold tensor2, mandel_factor, vat; cbn [mandel_index Nat.eqb andb]; field; exact Q.
  - apply (fit Tri3 _ _ _ _ m ((tensor2 tt i 0 * ent (t_bb t) m 0 + tensor2 tt i 1 * ent (t_bb t) m 1) * (2 * t_area t)) z0 z0 _ _ tri_ints Hm).
    + inn. ring.
    + cases2 Hm; cases2 Hi; out; unfold tensor2, mandel_factor, vat; cbn [mandel_index Nat.eqb]; field; exact Q.
Qed.

Ltac mx := repeat constructor.

Lemma tri_mat_01 s th : mat_integral Tri3 3 1 3 1 (fun m _ n _ ksi => shape Tri3 m ksi * s * shape Tri3 n ksi * th * d ksi) (on_tri3 tri3_mat_01_nsn t s th).
Proof.
  split; [mx|]. intros m i n j Hm Hi Hn Hj. replace i with 0%nat by lia. replace j with 0%nat by lia.
  apply (fit Tri3 _ _ _ _ m 0 z0 (fun j => if (j =? n)%nat then s * th * (2 * t_area t) else 0) _ _ tri_ints Hm).
  - inn. cases2 Hn; cbn [Nat.eqb]; ring.
  - unfold on_tri3, tri3_mat_01_nsn. cases2 Hm; cases2 Hn; out.
Qed.

Lemma tri_mat_02 v0 v1 : mat_integral Tri3 3 1 3 1 (fun m _ n _ ksi => sum_n 2 (fun i => ent (B ksi) m i * nth i [v0; v1] 0) * shape Tri3 n ksi * d ksi) (on_tri3 tri3_mat_02_bvn t v0 v1).
Proof.
  split; [mx|]. intros m i n j Hm Hi Hn Hj. replace i with 0%nat by lia. replace j with 0%nat by lia.
  apply (fit Tri3 _ _ _ _ m 0 (fun j => if (j =? n)%nat then (ent (t_bb t) m 0 * v0 + ent (t_bb t) m 1 * v1) * (2 * t_area t) else 0) z0 _ _ tri_ints Hm).
  - inn. cases2 Hn; cbn [Nat.eqb]; ring.
  - unfold on_tri3, tri3_mat_02_bvn. cases2 Hm; cases2 Hn; out.
Qed.

Lemma tri_mat_02_bilinear : mat_integral Tri3 3 1 3 1 (fun m _ n _ ksi => sum_n 2 (fun i => ent (B ksi) m i * pos p ksi i) * shape Tri3 n ksi * d ksi) (on_tri3 tri3_mat_02_bvn_bilinear t (p_xxt p)).
Proof.
  split; [mx|]. intros m i n j Hm Hi Hn Hj. replace i with 0%nat by lia. replace j with 0%nat by lia.
  apply (fit Tri3 _ _ _ _ n 0 z0 (fun j => (ent (t_bb t) m 0 * node_x p 0 j + ent (t_bb t) m 1 * node_x p 1 j) * (2 * t_area t)) _ _ tri_ints Hn).
  - inn. ring.
  - unfold on_tri3, tri3_mat_02_bvn_bilinear, node_x. cases2 Hm; cases2 Hn; out.
Qed.

Lemma tri_mat_03 kx ky axi : mat_integral Tri3 3 1 3 1 (fun m _ n _ ksi => sum_n 2 (fun i => ent (B ksi) m i * nth i [kx; ky] 0 * ent (B ksi) n i) * axi_weight axi p ksi * d ksi) (on_tri3 tri3_mat_03_btb t kx ky axi).
Proof.
  destruct (tri_coords p t K HT) as (X0 & X1 & X2).
  split; [mx|]. intros m i n j Hm Hi Hn Hj. replace i with 0%nat by lia. replace j with 0%nat by lia.
  unfold on_tri3, tri3_mat_03_btb, axi_weight. rewrite X0, X1, X2. destruct axi.
  - apply (fit Tri3 _ _ _ _ m 0 (fun j => node_x p 0 j * (ent (t_bb t) m 0 * kx * ent (t_bb t) n 0 + ent (t_bb t) m 1 * ky * ent (t_bb t) n 1) * (2 * t_area t)) z0 _ _ tri_ints Hm).
    + inn. ring.
    + cases2 Hm; cases2 Hn; out.
  - apply (fit Tri3 _ _ _ _ m ((ent (t_bb t) m 0 * kx * ent (t_bb t) n 0 + ent (t_bb t) m 1 * ky * ent (t_bb t) n 1) * (2 * t_area t)) z0 z0 _ _ tri_ints Hm).
    + inn. ring.
    + cases2 Hm; cases2 Hn; out.
Qed.

Lemma tri_mat_08 rho th : mat_integral Tri3 3 2 3 2 (fun m i n j ksi => shape Tri3 m ksi * (rho * delta i j) * shape Tri3 n ksi * th * d ksi) (on_tri3 tri3_mat_08_ntn t rho th).
Proof.
  split; [mx|]. intros m i n j Hm Hi Hn Hj.
  apply (fit Tri3 _ _ _ _ m 0 z0 (fun l => if (l =? n)%nat then rho * delta i j * th * (2 * t_area t) else 0) _ _ tri_ints Hm).
  - inn. cases2 Hn; cbn [Nat.eqb]; ring.
  - unfold on_tri3, tri3_mat_08_ntn, delta. cases2 Hm; cases2 Hn; cases2 Hi; cases2 Hj; out.
Qed.

Lemma tri_mat_09 v0 v1 : mat_integral Tri3 3 2 3 2 (fun m i n j ksi => shape Tri3 m ksi * nth i [v0; v1] 0 * ent (B ksi) n j * d ksi) (on_tri3 tri3_mat_09_nvb t v0 v1).
Proof.
  split; [mx|]. intros m i n j Hm Hi Hn Hj.
  apply (fit Tri3 _ _ _ _ m 0 (fun l => if (l =? m)%nat then nth i [v0; v1] 0 * ent (t_bb t) n j * (2 * t_area t) else 0) z0 _ _ tri_ints Hm).
  - inn. cases2 Hm; cbn [Nat.eqb]; ring.
  - unfold on_tri3, tri3_mat_09_nvb. cases2 Hm; cases2 Hn; cases2 Hi; cases2 Hj; out.
Qed.
End Tri.
