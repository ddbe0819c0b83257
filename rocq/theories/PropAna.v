(* Property C80: the closed forms of element vectors and matrices are the integrals they stand for. *)
From Coquelicot Require Import Coquelicot.
From Coq Require Import Reals List Arith Bool Lia Lra.
From Verif Require Import Base Kind ShapesModel ShapesSpec PadModel PadSpec GaussModel GaussSpec IntegModel IntegSpec
  AnaData AnaModel AnaSpec AnaProof AnaProof3 AnaProof4 AnaProof5 AnaProof6 AnaProof7 AnaProof8.
Import ListNotations.
Local Open Scope R_scope.

(** AnalyticalTri3::new: area, gradients and deformation matrix; other kinds panic *)
Theorem C80_tri3_new : forall p t, pad_wf p -> p_kind p = Tri3 -> p_space p = 2%nat -> tri3_new p = Ok t ->
  (forall d B, solid_element p d B -> cell_integral Tri3 d (t_area t) /\ forall ksi, List.length ksi = 2%nat -> d ksi = 2 * t_area t /\ forall m i, (m < 3)%nat -> (i < 2)%nat -> ent (B ksi) m i = ent (t_bb t) m i) /\
  (t_area t <> 0 -> solid_element p (fun _ => 2 * t_area t) (fun _ => t_bb t)) /\
  is_matrix 3 2 (t_bb t) /\ is_matrix 4 6 (t_bbe t) /\
  (t_area t <> 0 -> forall m i k, (m < 3)%nat -> (i < 2)%nat -> (k < 4)%nat -> ent (t_bbe t) k (i + m * 2) = mandel (sym_grad 2 (t_bb t) m i) k).
Proof. exact tri_fields. Qed.
Print Assumptions C80_tri3_new.
Theorem C80_tet4_new : forall p t, pad_wf p -> p_kind p = Tet4 -> tet4_new p = Ok t ->
  (forall d B, solid_element p d B -> cell_integral Tet4 d (e_volume t) /\ forall ksi, List.length ksi = 3%nat -> d ksi = 6 * e_volume t /\ forall m i, (m < 4)%nat -> (i < 3)%nat -> ent (B ksi) m i = ent (e_bb t) m i) /\
  (e_volume t <> 0 -> solid_element p (fun _ => 6 * e_volume t) (fun _ => e_bb t)) /\
  is_matrix 4 3 (e_bb t) /\ is_matrix 6 12 (e_bbe t) /\
  (e_volume t <> 0 -> forall m i k, (m < 4)%nat -> (i < 3)%nat -> (k < 6)%nat -> ent (e_bbe t) k (i + m * 3) = mandel (sym_grad 3 (e_bb t) m i) k).
Proof. exact tet_fields. Qed.
Print Assumptions C80_tet4_new.
Theorem C80_other_kinds : forall p, (p_kind p <> Tri3 -> tri3_new p = Panic) /\ (p_kind p <> Tet4 -> tet4_new p = Panic).
Proof. intros p. split; [apply tri_panics|apply tet_panics]. Qed.
Print Assumptions C80_other_kinds.
Example C80_tri3_new_ex : exists t d B, pad_wf a_tri /\ tri3_new a_tri = Ok t /\ t_area t = 3 /\ solid_element a_tri d B.
Proof.
  destruct a_tri_new as (t & H & A). exists t. do 2 eexists. split; [exact a_tri_wf|]. split; [exact H|]. split; [exact A|].
  apply (tri_solid a_tri t); auto; [exact a_tri_wf|rewrite A; lra].
Qed.
Example C80_tet4_new_ex : exists t d B, pad_wf a_tet /\ tet4_new a_tet = Ok t /\ e_volume t = 4 /\ solid_element a_tet d B.
Proof.
  destruct a_tet_new as (t & H & A). exists t. do 2 eexists. split; [exact a_tet_wf|]. split; [exact H|]. split; [exact A|].
  apply (tet_solid a_tet t); auto; [exact a_tet_wf|rewrite A; lra].
Qed.

(** the vectors of AnalyticalTri3 *)
Theorem C80_tri3_vectors : forall p t d B, pad_wf p -> p_kind p = Tri3 -> p_space p = 2%nat -> tri3_new p = Ok t -> solid_element p d B ->
  (forall s (axi : bool), vec_integral Tri3 3 1 (fun m _ ksi => shape Tri3 m ksi * s * axi_weight axi p ksi * d ksi) (on_tri3 tri3_vec_01_ns t s axi)) /\
  (forall v0 v1, vec_integral Tri3 3 2 (fun m i ksi => shape Tri3 m ksi * nth i [v0; v1] 0 * d ksi) (on_tri3 tri3_vec_02_nv t v0 v1)) /\
  (forall w0 w1, vec_integral Tri3 3 1 (fun m _ ksi => sum_n 2 (fun i => nth i [w0; w1] 0 * ent (B ksi) m i) * d ksi) (on_tri3 tri3_vec_03_bv t w0 w1)) /\
  vec_integral Tri3 3 1 (fun m _ ksi => sum_n 2 (fun i => pos p ksi i * ent (B ksi) m i) * d ksi) (on_tri3 tri3_vec_03_bv_bilinear t (p_xxt p)) /\
  (forall tt (axi : bool), vec_integral Tri3 3 2 (fun m i ksi =>
    sum_n 2 (fun j => tensor2 tt i j * ent (B ksi) m j) * axi_weight axi p ksi * d ksi
    + (if axi && (i =? 0)%nat then shape Tri3 m ksi * tensor2 tt 2 2 * d ksi else 0)) (on_tri3 tri3_vec_04_bt t tt axi)).
Proof.
  intros. split; [intros; eapply tri_vec_01; eauto|]. split; [intros; eapply tri_vec_02; eauto|]. split; [intros; eapply tri_vec_03; eauto|]. split; [intros; eapply tri_vec_03_bilinear; eauto|]. intros; eapply tri_vec_04; eauto.
Qed.
Print Assumptions C80_tri3_vectors.

(** the matrices of AnalyticalTri3 *)
Theorem C80_tri3_matrices : forall p t d B, pad_wf p -> p_kind p = Tri3 -> p_space p = 2%nat -> tri3_new p = Ok t -> solid_element p d B ->
  (forall s th, mat_integral Tri3 3 1 3 1 (fun m _ n _ ksi => shape Tri3 m ksi * s * shape Tri3 n ksi * th * d ksi) (on_tri3 tri3_mat_01_nsn t s th)) /\
  (forall v0 v1, mat_integral Tri3 3 1 3 1 (fun m _ n _ ksi => sum_n 2 (fun i => ent (B ksi) m i * nth i [v0; v1] 0) * shape Tri3 n ksi * d ksi) (on_tri3 tri3_mat_02_bvn t v0 v1)) /\
  mat_integral Tri3 3 1 3 1 (fun m _ n _ ksi => sum_n 2 (fun i => ent (B ksi) m i * pos p ksi i) * shape Tri3 n ksi * d ksi) (on_tri3 tri3_mat_02_bvn_bilinear t (p_xxt p)) /\
  (forall kx ky (axi : bool), mat_integral Tri3 3 1 3 1 (fun m _ n _ ksi => sum_n 2 (fun i => ent (B ksi) m i * nth i [kx; ky] 0 * ent (B ksi) n i) * axi_weight axi p ksi * d ksi) (on_tri3 tri3_mat_03_btb t kx ky axi)) /\
  (forall rho th, mat_integral Tri3 3 2 3 2 (fun m i n j ksi => shape Tri3 m ksi * (rho * delta i j) * shape Tri3 n ksi * th * d ksi) (on_tri3 tri3_mat_08_ntn t rho th)) /\
  (forall v0 v1, mat_integral Tri3 3 2 3 2 (fun m i n j ksi => shape Tri3 m ksi * nth i [v0; v1] 0 * ent (B ksi) n j * d ksi) (on_tri3 tri3_mat_09_nvb t v0 v1)).
Proof.
  intros. split; [intros; eapply tri_mat_01; eauto|]. split; [intros; eapply tri_mat_02; eauto|]. split; [intros; eapply tri_mat_02_bilinear; eauto|]. split; [intros; eapply tri_mat_03; eauto|]. split; [intros; eapply tri_mat_08; eauto|]. intros; eapply tri_mat_09; eauto.
Qed.
Print Assumptions C80_tri3_matrices.

(** the stiffness matrix of AnalyticalTri3 for any modulus *)
Theorem C80_tri3_stiffness : forall p t d B dd th, pad_wf p -> p_kind p = Tri3 -> p_space p = 2%nat -> tri3_new p = Ok t -> solid_element p d B ->
  is_matrix 4 4 dd -> exists kk, tri3_mat_10_bdb t dd th = Ok kk /\
  mat_integral Tri3 3 2 3 2 (fun m i n j ksi => double_dot (tensor4 dd) (sym_grad 2 (B ksi) m i) (sym_grad 2 (B ksi) n j) * th * d ksi) kk.
Proof. exact tri_mat_10. Qed.
Print Assumptions C80_tri3_stiffness.

(** the integrals along a side of the triangle (nodes in the order of the edge) *)
Theorem C80_tri3_sides : forall p q t d side s axi, pad_wf q -> p_kind p = Tri3 -> p_space p = 2%nat -> tri3_new p = Ok t ->
  side_of p q side -> (side < 3)%nat -> measured q d ->
  (exists v, tri3_vec_01_ns_bry t side s axi = Ok v /\
    vec_integral Lin2 2 1 (fun m _ ksi => shape Lin2 m ksi * s * axi_weight axi q ksi * d ksi) v) /\
  (exists K, tri3_mat_01_nsn_bry t side s axi = Ok K /\
    mat_integral Lin2 2 1 2 1 (fun m _ n _ ksi => shape Lin2 m ksi * s * shape Lin2 n ksi * axi_weight axi q ksi * d ksi) K).
Proof. intros. split; [eapply bry_vec_01; eauto|eapply bry_mat_01; eauto]. Qed.
Print Assumptions C80_tri3_sides.
Example C80_tri3_sides_ex : exists t d, pad_wf a_side /\ tri3_new a_tri = Ok t /\ side_of a_tri a_side 1 /\ measured a_side d.
Proof.
  destruct a_tri_new as (t & H & _). destruct (measured_exists a_side a_side_wf eq_refl eq_refl) as (d & D).
  exists t, d. split; [exact a_side_wf|]. split; [exact H|]. split; [exact a_side_of|exact D].
Qed.
Theorem C80_tri3_side_panics : forall p t side s axi, tri3_new p = Ok t -> (3 <= side)%nat ->
  tri3_vec_01_ns_bry t side s axi = Panic /\ tri3_mat_01_nsn_bry t side s axi = Panic.
Proof. exact tri_side_panics. Qed.
Print Assumptions C80_tri3_side_panics.

(** the vectors of AnalyticalTet4 *)
Theorem C80_tet4_vectors : forall p t d B, pad_wf p -> p_kind p = Tet4 -> tet4_new p = Ok t -> solid_element p d B ->
  (forall cs, vec_integral Tet4 4 1 (fun m _ ksi => shape Tet4 m ksi * cs * d ksi) (on_tet4 tet4_vec_01_ns t cs)) /\
  vec_integral Tet4 4 1 (fun m _ ksi => shape Tet4 m ksi * pos p ksi 2 * d ksi) (on_tet4 tet4_vec_01_ns_linear_along_z t (p_xxt p)) /\
  (forall v0 v1 v2, vec_integral Tet4 4 3 (fun m i ksi => shape Tet4 m ksi * nth i [v0; v1; v2] 0 * d ksi) (on_tet4 tet4_vec_02_nv t v0 v1 v2)) /\
  (forall w0 w1 w2, vec_integral Tet4 4 1 (fun m _ ksi => sum_n 3 (fun i => nth i [w0; w1; w2] 0 * ent (B ksi) m i) * d ksi) (on_tet4 tet4_vec_03_bv t w0 w1 w2)) /\
  (forall tt, vec_integral Tet4 4 3 (fun m i ksi => sum_n 3 (fun j => tensor2 tt i j * ent (B ksi) m j) * d ksi) (on_tet4 tet4_vec_04_bt t tt)).
Proof.
  intros. split; [intros; eapply tet_vec_01; eauto|]. split; [intros; eapply tet_vec_01_z; eauto|]. split; [intros; eapply tet_vec_02; eauto|]. split; [intros; eapply tet_vec_03; eauto|]. intros; eapply tet_vec_04; eauto.
Qed.
Print Assumptions C80_tet4_vectors.

(** the matrices of AnalyticalTet4 *)
Theorem C80_tet4_matrices : forall p t d B, pad_wf p -> p_kind p = Tet4 -> tet4_new p = Ok t -> solid_element p d B ->
  (forall s, mat_integral Tet4 4 1 4 1 (fun m _ n _ ksi => shape Tet4 m ksi * s * shape Tet4 n ksi * d ksi) (on_tet4 tet4_mat_01_nsn t s)) /\
  (forall v0 v1 v2, mat_integral Tet4 4 1 4 1 (fun m _ n _ ksi => sum_n 3 (fun i => ent (B ksi) m i * nth i [v0; v1; v2] 0) * shape Tet4 n ksi * d ksi) (on_tet4 tet4_mat_02_bvn t v0 v1 v2)) /\
  (forall tt, mat_integral Tet4 4 1 4 1 (fun m _ n _ ksi => sum_n 3 (fun i => sum_n 3 (fun j => ent (B ksi) m i * tensor2 tt i j * ent (B ksi) n j)) * d ksi) (on_tet4 tet4_mat_03_btb t tt)) /\
  (forall s, mat_integral Tet4 4 1 4 3 (fun m _ n j ksi => shape Tet4 m ksi * s * ent (B ksi) n j * d ksi) (on_tet4 tet4_mat_04_nsb t s)) /\
  (forall tt, mat_integral Tet4 4 1 4 3 (fun m _ n j ksi => sum_n 3 (fun i => ent (B ksi) m i * tensor2 tt i j) * shape Tet4 n ksi * d ksi) (on_tet4 tet4_mat_05_btn t tt)) /\
  (forall v0 v1 v2, mat_integral Tet4 4 3 4 1 (fun m i n _ ksi => shape Tet4 m ksi * nth i [v0; v1; v2] 0 * shape Tet4 n ksi * d ksi) (on_tet4 tet4_mat_06_nvn t v0 v1 v2)) /\
  (forall s, mat_integral Tet4 4 3 4 1 (fun m i n _ ksi => ent (B ksi) m i * s * shape Tet4 n ksi * d ksi) (on_tet4 tet4_mat_07_bsn t s)) /\
  (forall tt, mat_integral Tet4 4 3 4 3 (fun m i n j ksi => shape Tet4 m ksi * tensor2 tt i j * shape Tet4 n ksi * d ksi) (on_tet4 tet4_mat_08_ntn t tt)) /\
  (forall v0 v1 v2, mat_integral Tet4 4 3 4 3 (fun m i n j ksi => shape Tet4 m ksi * nth i [v0; v1; v2] 0 * ent (B ksi) n j * d ksi) (on_tet4 tet4_mat_09_nvb t v0 v1 v2)).
Proof.
  intros. split; [intros; eapply tet_mat_01; eauto|]. split; [intros; eapply tet_mat_02; eauto|]. split; [intros; eapply tet_mat_03; eauto|]. split; [intros; eapply tet_mat_04; eauto|]. split; [intros; eapply tet_mat_05; eauto|]. split; [intros; eapply tet_mat_06; eauto|]. split; [intros; eapply tet_mat_07; eauto|]. split; [intros; eapply tet_mat_08; eauto|]. intros; eapply tet_mat_09; eauto.
Qed.
Print Assumptions C80_tet4_matrices.

(** the stiffness matrix of AnalyticalTet4 for any modulus *)
Theorem C80_tet4_stiffness : forall p t d B dd, pad_wf p -> p_kind p = Tet4 -> tet4_new p = Ok t -> solid_element p d B ->
  is_matrix 6 6 dd -> exists kk, tet4_mat_10_bdb t dd = Ok kk /\
  mat_integral Tet4 4 3 4 3 (fun m i n j ksi => double_dot (tensor4 dd) (sym_grad 3 (B ksi) m i) (sym_grad 3 (B ksi) n j) * d ksi) kk.
Proof. exact tet_mat_10. Qed.
Print Assumptions C80_tet4_stiffness.
Example C80_stiffness_ex : is_matrix 4 4 [[9; 1; 1; 0]; [1; 9; 1; 0]; [1; 1; 9; 0]; [0; 0; 0; 8]].
Proof. split; [reflexivity|]. repeat (apply Forall_cons; [reflexivity|]). apply Forall_nil. Qed.

(** the matrices of AnalyticalQua4: rectangles with sides 2 a and 2 b *)
Theorem C80_qua4 : forall p a b c d B, pad_wf p -> p_kind p = Qua4 -> p_space p = 2%nat -> rectangle p a b c -> solid_element p d B ->
  (forall s th, mat_integral Qua4 4 1 4 1 (fun m _ n _ ksi => shape Qua4 m ksi * s * shape Qua4 n ksi * th * d ksi) (qua4_mat_01_nsn a b s th)) /\
  (forall kx ky, mat_integral Qua4 4 1 4 1 (fun m _ n _ ksi => sum_n 2 (fun i => ent (B ksi) m i * nth i [kx; ky] 0 * ent (B ksi) n i) * d ksi) (qua4_mat_03_btb a b kx ky)).
Proof.
  intros. split; [intros; eapply qua4_nsn; eauto|]. intros; eapply qua4_btb; eauto.
Qed.
Print Assumptions C80_qua4.

(** the matrices of AnalyticalQua8; those of two elements have Qua4 (m or n < 4) as the second one *)
Theorem C80_qua8 : forall p a b c d B, pad_wf p -> p_kind p = Qua8 -> p_space p = 2%nat -> rectangle p a b c -> solid_element p d B ->
  (forall s th, mat_integral Qua8 8 1 8 1 (fun m _ n _ ksi => shape Qua8 m ksi * s * shape Qua8 n ksi * th * d ksi) (qua8_mat_01_nsn a b s th)) /\
  (forall kx ky, mat_integral Qua8 8 1 8 1 (fun m _ n _ ksi => sum_n 2 (fun i => ent (B ksi) m i * nth i [kx; ky] 0 * ent (B ksi) n i) * d ksi) (qua8_mat_03_btb a b kx ky)) /\
  (forall s, mat_integral Qua8 4 1 8 2 (fun m _ n j ksi => shape Qua4 m ksi * s * ent (B ksi) n j * d ksi) (qua8_mat_04_nsb a b s)) /\
  (forall v0 v1, mat_integral Qua8 8 2 4 1 (fun m i n _ ksi => shape Qua8 m ksi * nth i [v0; v1] 0 * shape Qua4 n ksi * d ksi) (qua8_mat_06_nvn a b v0 v1)) /\
  (forall s, mat_integral Qua8 8 2 4 1 (fun m i n _ ksi => ent (B ksi) m i * s * shape Qua4 n ksi * d ksi) (qua8_mat_07_bsn a b s)).
Proof.
  intros. split; [intros; eapply qua8_nsn; eauto|]. split; [intros; eapply qua8_btb; eauto|]. split; [intros; eapply qua8_nsb; eauto|]. split; [intros; eapply qua8_nvn; eauto|]. intros; eapply qua8_bsn; eauto.
Qed.
Print Assumptions C80_qua8.
Theorem C80_qua8_btn : forall p a b c d B p4 c4 d4 B4, pad_wf p -> p_kind p = Qua8 -> p_space p = 2%nat -> rectangle p a b c -> solid_element p d B ->
  pad_wf p4 -> p_kind p4 = Qua4 -> p_space p4 = 2%nat -> rectangle p4 a b c4 -> solid_element p4 d4 B4 ->
  forall tt, mat_integral Qua8 4 1 8 2 (fun m _ n j ksi => sum_n 2 (fun i => ent (B4 ksi) m i * tensor2 tt i j) * shape Qua8 n ksi * d ksi) (qua8_mat_05_btn a b tt).
Proof. intros p a b c d B; intros. eapply (qua8_btn p a b c d B); eauto. Qed.
Print Assumptions C80_qua8_btn.
Example C80_qua_ex : exists d B d4 B4, pad_wf a_qua4 /\ rectangle a_qua4 2 1 a_centre /\ solid_element a_qua4 d4 B4 /\
  pad_wf a_qua8 /\ rectangle a_qua8 2 1 a_centre /\ solid_element a_qua8 d B.
Proof.
  do 4 eexists. split; [exact a_qua4_wf|]. split; [exact a_qua4_rect|]. split; [apply (rect_solid a_qua4 2 1 a_centre); auto using a_qua4_wf, a_qua4_rect; lra|].
  split; [exact a_qua8_wf|]. split; [exact a_qua8_rect|]. apply (rect_solid a_qua8 2 1 a_centre); auto using a_qua8_wf, a_qua8_rect; lra.
Qed.

(** the result is the only vector with these integrals: the closed form cannot differ from an exact quadrature *)
Theorem C80_unique : forall k M ni V u v, vec_integral k M ni V u -> vec_integral k M ni V v -> u = v.
Proof. exact vec_unique. Qed.
Print Assumptions C80_unique.
