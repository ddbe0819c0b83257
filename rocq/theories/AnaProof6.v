(* Closed forms: the vectors and matrices of a tetrahedron. *)
From Coquelicot Require Import Coquelicot.
From Coq Require Import Reals QArith Qreals List Arith Bool Lia Lra.
From Verif Require Import Base BaseFacts Kind Expr ExprProof ShapesModel ShapesSpec ShapesProof PadModel PadSpec PadProof PadProof2 GaussModel GaussSpec GaussProof IntegModel IntegSpec AnaData AnaModel AnaSpec AnaProof AnaProof2 AnaProof3 AnaProof4.
Import ListNotations.
Local Open Scope R_scope.

Lemma tensor_matrix tt i j : (i < 3)%nat -> (j < 3)%nat -> ent (as_matrix tt) i j = tensor2 tt i j.
Proof. intros Hi Hj. unfold as_matrix, tensor2, mandel_factor, ent. cases2 Hi; cases2 Hj; cbn [nth map seq tensor_get mandel_index Nat.eqb]; unfold vat; field; apply s2. Qed.

Lemma tensor_sym tt i j : tensor2 tt i j = tensor2 tt j i.
Proof. unfold tensor2, mandel_factor. rewrite (Nat.eqb_sym j i). f_equal. f_equal. destruct i as [|[|[|i]]], j as [|[|[|j]]]; reflexivity. Qed.

Section Tet.
Variables (p : pad) (t : tet4) (d : list R -> R) (B : list R -> mat).
Hypothesis W : pad_wf p.
Hypothesis K : p_kind p = Tet4.
Hypothesis HT : tet4_new p = Ok t.
Hypothesis HS : solid_element p d B.

Lemma ed ksi : List.length ksi = 3%nat -> d ksi = 6 * e_volume t.
Proof. intros L. now apply (tet_facts p t d B). Qed.
Lemma eB ksi m i : List.length ksi = 3%nat -> (m < 4)%nat -> (i < 3)%nat -> ent (B ksi) m i = ent (e_bb t) m i.
Proof. intros L. now apply (tet_facts p t d B). Qed.
Lemma epos ksi i : pos p ksi i = shape Tet4 0 ksi * node_x p i 0 + shape Tet4 1 ksi * node_x p i 1 + shape Tet4 2 ksi * node_x p i 2 + shape Tet4 3 ksi * node_x p i 3.
Proof. unfold pos. rewrite K. unfold sum_n. change (kind_nnode Tet4) with 4%nat. cbn [map seq sum]. unfold shape. ring. Qed.

Ltac out := try change (kind_nnode Tet4) with 4%nat; cbn [nth Nat.add Nat.mul Nat.eqb]; unfold ent; cbn [nth Nat.add Nat.mul Nat.eqb]; 
  unfold sum_n, z0; cbn [map seq sum Nat.eqb nth]; field.
Ltac inn := let ksi := fresh "ksi" in let L := fresh "L" in intros ksi L; change (kind_ndim Tet4) with 3%nat in L; change (kind_nnode Tet4) with 4%nat;
  unfold sum_n, z0; cbn [map seq sum Nat.eqb nth andb]; rewrite ?(ed ksi L), ?epos, ?(fun m i => eB ksi m i L) by lia.

Lemma tet_vec_01 cs : vec_integral Tet4 4 1 (fun m _ ksi => shape Tet4 m ksi * cs * d ksi) (on_tet4 tet4_vec_01_ns t cs).
Proof.
  split; [reflexivity|]. intros m i Hm Hi. replace i with 0%nat by lia.
  apply (fit Tet4 _ _ _ _ m 0 (fun l => if (l =? m)%nat then cs * (6 * e_volume t) else 0) z0 _ _ tet_ints Hm).
  - inn. cases2 Hm; cbn [Nat.eqb]; ring.
  - unfold on_tet4, tet4_vec_01_ns. cases2 Hm; out.
Qed.

Lemma tet_vec_01_z  : vec_integral Tet4 4 1 (fun m _ ksi => shape Tet4 m ksi * pos p ksi 2 * d ksi) (on_tet4 tet4_vec_01_ns_linear_along_z t (p_xxt p)).
Proof.
  split; [reflexivity|]. intros m i Hm Hi. replace i with 0%nat by lia.
  apply (fit Tet4 _ _ _ _ m 0 z0 (fun l => node_x p 2 l * (6 * e_volume t)) _ _ tet_ints Hm).
  - inn.  ring.
  - unfold on_tet4, tet4_vec_01_ns_linear_along_z. cases2 Hm; unfold node_x; out.
Qed.

Lemma tet_vec_02 v0 v1 v2 : vec_integral Tet4 4 3 (fun m i ksi => shape Tet4 m ksi * nth i [v0; v1; v2] 0 * d ksi) (on_tet4 tet4_vec_02_nv t v0 v1 v2).
Proof.
  split; [reflexivity|]. intros m i Hm Hi. 
  apply (fit Tet4 _ _ _ _ m 0 (fun l => if (l =? m)%nat then nth i [v0; v1; v2] 0 * (6 * e_volume t) else 0) z0 _ _ tet_ints Hm).
  - inn. cases2 Hm; cbn [Nat.eqb]; ring.
  - unfold on_tet4, tet4_vec_02_nv. cases2 Hm; cases2 Hi; out.
Qed.

Lemma tet_vec_03 w0 w1 w2 : vec_integral Tet4 4 1 (fun m _ ksi => sum_n 3 (fun i => nth i [w0; w1; w2] 0 * ent (B ksi) m i) * d ksi) (on_tet4 tet4_vec_03_bv t w0 w1 w2).
Proof.
  split; [reflexivity|]. intros m i Hm Hi. replace i with 0%nat by lia.
  apply (fit Tet4 _ _ _ _ m ((w0 * ent (e_bb t) m 0 + w1 * ent (e_bb t) m 1 + w2 * ent (e_bb t) m 2) * (6 * e_volume t)) z0 z0 _ _ tet_ints Hm).
  - inn.  ring.
  - unfold on_tet4, tet4_vec_03_bv. cases2 Hm; out.
Qed.

Lemma tet_vec_04 tt : vec_integral Tet4 4 3 (fun m i ksi => sum_n 3 (fun j => tensor2 tt i j * ent (B ksi) m j) * d ksi) (on_tet4 tet4_vec_04_bt t tt).
Proof.
  split; [reflexivity|]. intros m i Hm Hi. 
  apply (fit Tet4 _ _ _ _ m ((tensor2 tt i 0 * ent (e_bb t) m 0 + tensor2 tt i 1 * ent (e_bb t) m 1 + tensor2 tt i 2 * ent (e_bb t) m 2) * (6 * e_volume t)) z0 z0 _ _ tet_ints Hm).
  - inn.  ring.
  - unfold on_tet4, tet4_vec_04_bt. rewrite ?tensor_matrix by lia. cases2 Hm; cases2 Hi; rewrite ?tensor_matrix by lia; rewrite ?(tensor_sym tt 1 0), ?(tensor_sym tt 2 0), ?(tensor_sym tt 2 1); out.
Qed.

Lemma tet_mat_01 s : mat_integral Tet4 4 1 4 1 (fun m _ n _ ksi => shape Tet4 m ksi * s * shape Tet4 n ksi * d ksi) (on_tet4 tet4_mat_01_nsn t s).
Proof.
  split; [split; [reflexivity|repeat (apply Forall_cons; [reflexivity|]); apply Forall_nil]|].
  intros m i n j Hm Hi Hn Hj. replace i with 0%nat by lia. replace j with 0%nat by lia.
  apply (fit Tet4 _ _ _ _ m 0 z0 (fun l => if (l =? n)%nat then s * (6 * e_volume t) else 0) _ _ tet_ints Hm).
  - inn. cases2 Hn; cbn [Nat.eqb]; ring.
  - unfold on_tet4, tet4_mat_01_nsn. cases2 Hm; cases2 Hn; out.
Qed.

Lemma tet_mat_02 v0 v1 v2 : mat_integral Tet4 4 1 4 1 (fun m _ n _ ksi => sum_n 3 (fun i => ent (B ksi) m i * nth i [v0; v1; v2] 0) * shape Tet4 n ksi * d ksi) (on_tet4 tet4_mat_02_bvn t v0 v1 v2).
Proof.
  split; [split; [reflexivity|repeat (apply Forall_cons; [reflexivity|]); apply Forall_nil]|].
  intros m i n j Hm Hi Hn Hj. replace i with 0%nat by lia. replace j with 0%nat by lia.
  apply (fit Tet4 _ _ _ _ m 0 (fun l => if (l =? n)%nat then (v0 * ent (e_bb t) m 0 + v1 * ent (e_bb t) m 1 + v2 * ent (e_bb t) m 2) * (6 * e_volume t) else 0) z0 _ _ tet_ints Hm).
  - inn. cases2 Hn; cbn [Nat.eqb]; ring.
  - unfold on_tet4, tet4_mat_02_bvn. cases2 Hm; cases2 Hn; out.
Qed.

Lemma tet_mat_03 tt : mat_integral Tet4 4 1 4 1 (fun m _ n _ ksi => sum_n 3 (fun i => sum_n 3 (fun j => ent (B ksi) m i * tensor2 tt i j * ent (B ksi) n j)) * d ksi) (on_tet4 tet4_mat_03_btb t tt).
Proof.
  split; [split; [reflexivity|repeat (apply Forall_cons; [reflexivity|]); apply Forall_nil]|].
  intros m i n j Hm Hi Hn Hj. replace i with 0%nat by lia. replace j with 0%nat by lia.
  apply (fit Tet4 _ _ _ _ m ((ent (e_bb t) m 0 * tensor2 tt 0 0 * ent (e_bb t) n 0 + ent (e_bb t) m 0 * tensor2 tt 0 1 * ent (e_bb t) n 1 + ent (e_bb t) m 0 * tensor2 tt 0 2 * ent (e_bb t) n 2 + ent (e_bb t) m 1 * tensor2 tt 1 0 * ent (e_bb t) n 0 + ent (e_bb t) m 1 * tensor2 tt 1 1 * ent (e_bb t) n 1 + ent (e_bb t) m 1 * tensor2 tt 1 2 * ent (e_bb t) n 2 + ent (e_bb t) m 2 * tensor2 tt 2 0 * ent (e_bb t) n 0 + ent (e_bb t) m 2 * tensor2 tt 2 1 * ent (e_bb t) n 1 + ent (e_bb t) m 2 * tensor2 tt 2 2 * ent (e_bb t) n 2) * (6 * e_volume t)) z0 z0 _ _ tet_ints Hm).
  - inn.  ring.
  - unfold on_tet4, tet4_mat_03_btb. rewrite ?tensor_matrix by lia. cases2 Hm; cases2 Hn; rewrite ?(tensor_sym tt 1 0), ?(tensor_sym tt 2 0), ?(tensor_sym tt 2 1); out.
Qed.

Lemma tet_mat_04 s : mat_integral Tet4 4 1 4 3 (fun m _ n j ksi => shape Tet4 m ksi * s * ent (B ksi) n j * d ksi) (on_tet4 tet4_mat_04_nsb t s).
Proof.
  split; [split; [reflexivity|repeat (apply Forall_cons; [reflexivity|]); apply Forall_nil]|].
  intros m i n j Hm Hi Hn Hj. replace i with 0%nat by lia. 
  apply (fit Tet4 _ _ _ _ m 0 (fun l => if (l =? m)%nat then s * ent (e_bb t) n j * (6 * e_volume t) else 0) z0 _ _ tet_ints Hm).
  - inn. cases2 Hm; cbn [Nat.eqb]; ring.
  - unfold on_tet4, tet4_mat_04_nsb. cases2 Hm; cases2 Hn; cases2 Hj; out.
Qed.

Lemma tet_mat_05 tt : mat_integral Tet4 4 1 4 3 (fun m _ n j ksi => sum_n 3 (fun i => ent (B ksi) m i * tensor2 tt i j) * shape Tet4 n ksi * d ksi) (on_tet4 tet4_mat_05_btn t tt).
Proof.
  split; [split; [reflexivity|repeat (apply Forall_cons; [reflexivity|]); apply Forall_nil]|].
  intros m i n j Hm Hi Hn Hj. replace i with 0%nat by lia. 
  apply (fit Tet4 _ _ _ _ m 0 (fun l => if (l =? n)%nat then (tensor2 tt 0 j * ent (e_bb t) m 0 + tensor2 tt 1 j * ent (e_bb t) m 1 + tensor2 tt 2 j * ent (e_bb t) m 2) * (6 * e_volume t) else 0) z0 _ _ tet_ints Hm).
  - inn. cases2 Hn; cbn [Nat.eqb]; ring.
  - unfold on_tet4, tet4_mat_05_btn. rewrite ?tensor_matrix by lia. cases2 Hm; cases2 Hn; cases2 Hj; rewrite ?(tensor_sym tt 1 0), ?(tensor_sym tt 2 0), ?(tensor_sym tt 2 1); out.
Qed.

Lemma tet_mat_06 v0 v1 v2 : mat_integral Tet4 4 3 4 1 (fun m i n _ ksi => shape Tet4 m ksi * nth i [v0; v1; v2] 0 * shape Tet4 n ksi * d ksi) (on_tet4 tet4_mat_06_nvn t v0 v1 v2).
Proof.
  split; [split; [reflexivity|repeat (apply Forall_cons; [reflexivity|]); apply Forall_nil]|].
  intros m i n j Hm Hi Hn Hj. replace j with 0%nat by lia.
  apply (fit Tet4 _ _ _ _ m 0 z0 (fun l => if (l =? n)%nat then nth i [v0; v1; v2] 0 * (6 * e_volume t) else 0) _ _ tet_ints Hm).
  - inn. cases2 Hn; cbn [Nat.eqb]; ring.
  - unfold on_tet4, tet4_mat_06_nvn. cases2 Hm; cases2 Hn; cases2 Hi; out.
Qed.

Lemma tet_mat_07 s : mat_integral Tet4 4 3 4 1 (fun m i n _ ksi => ent (B ksi) m i * s * shape Tet4 n ksi * d ksi) (on_tet4 tet4_mat_07_bsn t s).
Proof.
  split; [split; [reflexivity|repeat (apply Forall_cons; [reflexivity|]); apply Forall_nil]|].
  intros m i n j Hm Hi Hn Hj. replace j with 0%nat by lia.
  apply (fit Tet4 _ _ _ _ m 0 (fun l => if (l =? n)%nat then s * ent (e_bb t) m i * (6 * e_volume t) else 0) z0 _ _ tet_ints Hm).
  - inn. cases2 Hn; cbn [Nat.eqb]; ring.
  - unfold on_tet4, tet4_mat_07_bsn. cases2 Hm; cases2 Hn; cases2 Hi; out.
Qed.

Lemma tet_mat_08 tt : mat_integral Tet4 4 3 4 3 (fun m i n j ksi => shape Tet4 m ksi * tensor2 tt i j * shape Tet4 n ksi * d ksi) (on_tet4 tet4_mat_08_ntn t tt).
Proof.
  split; [split; [reflexivity|repeat (apply Forall_cons; [reflexivity|]); apply Forall_nil]|].
  intros m i n j Hm Hi Hn Hj. 
  apply (fit Tet4 _ _ _ _ m 0 z0 (fun l => if (l =? n)%nat then tensor2 tt i j * (6 * e_volume t) else 0) _ _ tet_ints Hm).
  - inn. cases2 Hn; cbn [Nat.eqb]; ring.
  - unfold on_tet4, tet4_mat_08_ntn. rewrite ?tensor_matrix by lia. cases2 Hm; cases2 Hn; cases2 Hi; cases2 Hj; rewrite ?(tensor_sym tt 1 0), ?(tensor_sym tt 2 0), ?(tensor_sym tt 2 1); out.
Qed.

Lemma tet_mat_09 v0 v1 v2 : mat_integral Tet4 4 3 4 3 (fun m i n j ksi => shape Tet4 m ksi * nth i [v0; v1; v2] 0 * ent (B ksi) n j * d ksi) (on_tet4 tet4_mat_09_nvb t v0 v1 v2).
Proof.
  split; [split; [reflexivity|repeat (apply Forall_cons; [reflexivity|]); apply Forall_nil]|].
  intros m i n j Hm Hi Hn Hj. 
  apply (fit Tet4 _ _ _ _ m 0 (fun l => if (l =? m)%nat then nth i [v0; v1; v2] 0 * ent (e_bb t) n j * (6 * e_volume t) else 0) z0 _ _ tet_ints Hm).
  - inn. cases2 Hm; cbn [Nat.eqb]; ring.
  - unfold on_tet4, tet4_mat_09_nvb. cases2 Hm; cases2 Hn; cases2 Hi; cases2 Hj; out.
Qed.
End Tet.
