(* C51, C52, C53, C63 - C68: integration of element vectors and matrices. *)
From Coquelicot Require Import Coquelicot.
From Coq Require Import Reals List Arith Bool Lia Lra.
From Verif Require Import Base Kind ShapesModel ShapesSpec GeomModel PadModel PadSpec PadProof PadProof2 PadProof3
  GaussModel GaussSpec GaussProof3 IntegModel IntegSpec IntegProof2 IntegProof3 IntegProof4 IntegProof5 IntegProof6 IntegProof7
  IntegProof8 IntegProof9 IntegProof10.
Import ListNotations.
Local Open Scope R_scope.

Local Notation npts A := (npoint (a_gauss A)).
Local Notation ndim A := (p_space (a_pad A)).
(* d is the Jacobian determinant and B the gradient matrix at the integration points *)
Local Notation at_points A P := (forall p, (p < npoint (a_gauss A))%nat -> P p).

Ltac restate H :=
  let SE := fresh in let x := fresh in let s := fresh in let F := fresh in let V := fresh in let p := fresh in let Hp := fresh in
  destruct H as (SE & x & s & F & V); split; [exact SE|]; exists (fun p => fst (x p)), (fun p => snd (x p)), s;
  split; [intros p Hp; destruct (F p Hp) as (? & ?); split; [eapply grad_facts_at; eassumption|assumption]|exact V].

(** vec_01_ns: entry m is the integral of s N_m; the entries add up to the integral of s *)
Theorem C51_scalar : forall zdet A a fn a' q, 0 <= zdet -> pad_wf (a_pad A) -> vec_01_ns zdet A a fn = Ok (a', q) ->
  same_element (a_pad A) q /\ exists d s,
    at_points A (fun p => measure_at (a_pad A) (ksi_at A p) (d p) /\ fn p (N_p A p) = Ok (s p)) /\
    vec_result A a a' (a_nnode A) 1 (fun m _ => integral A (fun p => dvol A d p * s p * N_of A p m)) /\
    sum_n (a_nnode A) (vec_added A a a') = integral A (fun p => dvol A d p * s p).
Proof. 
  intros zdet A a fn a' q Hz W H. destruct (vec_01_form zdet A Hz W a fn a' q H) as (SE & d & s & F & V). split; auto.
  exists d, s. split; auto. split; auto. now apply total_scalar.
 Qed.
Print Assumptions C51_scalar.
Example C51_scalar_ex : exists a' q, vec_01_ns (1/1000) tri_args [7; 1; 2; 3] (fun p _ => Ok (INR p)) = Ok (a', q).
Proof. apply tri_vec_01; eauto. Qed.

(** vec_02_nv: same in each direction *)
Theorem C51_vector : forall zdet A b fn b' q, 0 <= zdet -> pad_wf (a_pad A) -> vec_02_nv zdet A b fn = Ok (b', q) ->
  same_element (a_pad A) q /\ exists d v,
    at_points A (fun p => measure_at (a_pad A) (ksi_at A p) (d p) /\ fn p (N_p A p) = Ok (v p)) /\
    vec_result A b b' (a_nnode A) (ndim A) (fun m i => integral A (fun p => dvol A d p * nth i (v p) 0 * N_of A p m)) /\
    forall i, (i < ndim A)%nat ->
      sum_n (a_nnode A) (fun m => vec_added A b b' (i + m * ndim A)) = integral A (fun p => dvol A d p * nth i (v p) 0).
Proof. 
  intros zdet A b fn b' q Hz W H. destruct (vec_02_form zdet A Hz W b fn b' q H) as (SE & d & v & F & V). split; auto.
  exists d, v. split; auto. split; auto. intros i Hi. now apply total_vector.
 Qed.
Print Assumptions C51_vector.

(** vec_03_bv: entry m is the integral of w . B_m; the entries add up to zero *)
Theorem C51_flux : forall zdet A c fn c' q, 0 <= zdet -> pad_wf (a_pad A) -> vec_03_bv zdet A c fn = Ok (c', q) ->
  same_element (a_pad A) q /\ (exists d B w,
    at_points A (fun p => gradient_at (a_pad A) (ksi_at A p) (d p) (B p) /\ fn p (N_p A p) (B p) = Ok (w p)) /\
    vec_result A c c' (a_nnode A) 1 (fun m _ => integral A (fun p =>
      dvol A d p * sum_n (ndim A) (fun i => nth i (w p) 0 * ent (B p) m i)))) /\
  sum_n (a_nnode A) (vec_added A c c') = 0.
Proof. 
  intros zdet A c fn c' q Hz W H. pose proof (vec_03_zero zdet A Hz W c fn c' q H) as Z.
  apply (vec_03_form zdet A Hz W) in H. cut (same_element (a_pad A) q /\ exists d B w,
    at_points A (fun p => gradient_at (a_pad A) (ksi_at A p) (d p) (B p) /\ fn p (N_p A p) (B p) = Ok (w p)) /\
    vec_result A c c' (a_nnode A) 1 (fun m _ => integral A (fun p =>
      dvol A d p * sum_n (ndim A) (fun i => nth i (w p) 0 * ent (B p) m i)))); [tauto|]. restate H.
 Qed.
Print Assumptions C51_flux.
Example C51_flux_ex : exists c' q, vec_03_bv (1/1000) tri_args [7; 1; 2; 3] (fun _ _ _ => Ok [3; 5]) = Ok (c', q).
Proof. apply tri_vec_03; eauto. Qed.

(** mat_01_nsn: entry m n is the integral of s N_m N_n; symmetric; not negative when s and the volumes are not *)
Theorem C52_mass : forall zdet A nr nc kk fn kk' q, 0 <= zdet -> pad_wf (a_pad A) -> is_matrix nr nc kk -> mat_01_nsn zdet A kk fn = Ok (kk', q) ->
  (same_element (a_pad A) q /\ exists d B s,
    at_points A (fun p => gradient_at (a_pad A) (ksi_at A p) (d p) (B p) /\ fn p (N_p A p) (B p) = Ok (s p)) /\
    mat_result A kk kk' (a_nnode A) 1 (a_nnode A) 1 (fun m _ n _ => integral A (fun p => dvol A d p * s p * N_of A p m * N_of A p n))) /\
  symmetric (a_nnode A) (mat_added A kk kk') /\
  (good_volumes A -> positive_jacobian A -> (forall p nn bb s, fn p nn bb = Ok s -> 0 <= s) -> psd (a_nnode A) (mat_added A kk kk')).
Proof. 
  intros zdet A nr nc kk fn kk' q Hz W M H. split; [apply (mat_01_form zdet A Hz W nr nc) in H; auto; restate H|].
  split; [exact (mat_01_symmetric zdet A Hz W nr nc kk fn kk' q M H)|exact (mat_01_psd zdet A Hz W nr nc kk fn kk' q M H)].
 Qed.
Print Assumptions C52_mass.
Example C52_mass_ex : exists kk' q, mat_01_nsn (1/1000) tri_args (zeros 5 4) (fun p _ _ => Ok (INR p)) = Ok (kk', q).
Proof. apply tri_mat_01; eauto. Qed.
Example C52_volumes_ex : good_volumes tri_args /\ positive_jacobian tri_args.
Proof. split; [apply tri_volumes|apply tri_positive]. Qed.

(** the rows add up to the lumped mass, all entries to the mass *)
Theorem C52_mass_rows : forall zdet A nr nc kk fn kk' q, 0 <= zdet -> pad_wf (a_pad A) -> is_matrix nr nc kk -> mat_01_nsn zdet A kk fn = Ok (kk', q) -> exists d B s,
  at_points A (fun p => gradient_at (a_pad A) (ksi_at A p) (d p) (B p) /\ fn p (N_p A p) (B p) = Ok (s p)) /\
  (forall m, (m < a_nnode A)%nat -> sum_n (a_nnode A) (mat_added A kk kk' m) = integral A (fun p => dvol A d p * s p * N_of A p m)) /\
  sum_n (a_nnode A) (fun m => sum_n (a_nnode A) (mat_added A kk kk' m)) = integral A (fun p => dvol A d p * s p).
Proof. intros zdet A nr nc kk fn kk' q Hz W M H. exact (mat_01_rows zdet A Hz W nr nc kk fn kk' q M H). Qed.
Print Assumptions C52_mass_rows.

(** with a rule that has a negative weight (Tri 4 points, Tet 5 points), a non-negative s can give a negative mass matrix *)
Theorem C52_mass_psd_refuted : exists zdet A kk fn kk' q u, 0 <= zdet /\ pad_wf (a_pad A) /\ is_matrix (a_nnode A) (a_nnode A) kk /\
  (exists c n, gauss_new_sized c n = Ok (a_gauss A)) /\ 0 < a_alpha A /\ positive_jacobian A /\
  (forall p nn bb s, fn p nn bb = Ok s -> 0 <= s) /\ mat_01_nsn zdet A kk fn = Ok (kk', q) /\
  quad_form (a_nnode A) (mat_added A kk kk') u < 0.
Proof. exact mass_negative. Qed.
Print Assumptions C52_mass_psd_refuted.

(** mat_03_btb: entry m n is the integral of B_m . T . B_n; symmetric, rows add up to zero, not negative when T is not *)
Theorem C52_conductivity : forall zdet A nr nc kk fn kk' q, 0 <= zdet -> pad_wf (a_pad A) -> is_matrix nr nc kk -> mat_03_btb zdet A kk fn = Ok (kk', q) ->
  (same_element (a_pad A) q /\ exists d B T,
    at_points A (fun p => gradient_at (a_pad A) (ksi_at A p) (d p) (B p) /\ fn p (N_p A p) (B p) = Ok (T p)) /\
    mat_result A kk kk' (a_nnode A) 1 (a_nnode A) 1 (fun m _ n _ => integral A (fun p =>
      dvol A d p * sum_n (ndim A) (fun i => sum_n (ndim A) (fun j => ent (B p) m i * tensor2 (T p) i j * ent (B p) n j))))) /\
  symmetric (a_nnode A) (mat_added A kk kk') /\
  (forall m, (m < a_nnode A)%nat -> sum_n (a_nnode A) (mat_added A kk kk' m) = 0) /\
  (good_volumes A -> positive_jacobian A -> (forall p nn bb T, fn p nn bb = Ok T -> psd (ndim A) (tensor2 T)) ->
   psd (a_nnode A) (mat_added A kk kk')).
Proof. 
  intros zdet A nr nc kk fn kk' q Hz W M H. split; [apply (mat_03_form zdet A Hz W nr nc) in H; auto; restate H|].
  split; [exact (mat_03_symmetric zdet A Hz W nr nc kk fn kk' q M H)|].
  split; [exact (mat_03_rows zdet A Hz W nr nc kk fn kk' q M H)|exact (mat_03_psd zdet A Hz W nr nc kk fn kk' q M H)].
 Qed.
Print Assumptions C52_conductivity.

(** mat_10_bdb: entry (m,i) (n,j) is the integral of eps(N_m e_i) : D : eps(N_n e_j); symmetric when D is *)
Theorem C52_stiffness : forall zdet A nr nc kk fn kk' q, 0 <= zdet -> pad_wf (a_pad A) -> (a_axi A = true -> forall p, (p < npts A)%nat -> r_of A p <> 0) ->
  is_matrix nr nc kk -> mat_10_bdb zdet A kk fn = Ok (kk', q) ->
  (a_axi A = true -> ndim A = 2%nat) /\
  (same_element (a_pad A) q /\ exists d B D,
    at_points A (fun p => gradient_at (a_pad A) (ksi_at A p) (d p) (B p) /\ fn p (N_p A p) (B p) = Ok (D p)) /\
    mat_result A kk kk' (a_nnode A) (ndim A) (a_nnode A) (ndim A) (fun m i n j => integral A (fun p =>
      dvol A d p * double_dot (tensor4 (D p)) (strain A (B p) p m i) (strain A (B p) p n j)))) /\
  ((forall p nn bb D, fn p nn bb = Ok D -> symmetric 6 (ent D)) -> symmetric (a_nnode A * ndim A) (mat_added A kk kk')).
Proof. 
  intros zdet A nr nc kk fn kk' q Hz W O M H. split; [now apply (mat_10_form zdet A Hz W O nr nc) in H|].
  split; [|exact (mat_10_symmetric zdet A Hz W O nr nc kk fn kk' q M H)].
  apply (mat_10_strain zdet A nr nc) in H; auto. restate H.
 Qed.
Print Assumptions C52_stiffness.
Example C52_stiffness_ex : exists kk' q, mat_10_bdb (1/1000) tri_args (zeros 7 7) (fun _ _ _ => Ok (ident 4)) = Ok (kk', q).
Proof. apply tri_mat_10; eauto. Qed.
Example C52_axisymmetric_ex : a_axi axi_args = true /\
  (forall p, (p < npts axi_args)%nat -> r_of axi_args p <> 0) /\
  exists kk' q, mat_10_bdb (1/1000) axi_args (zeros 6 6) (fun _ _ _ => Ok (ident 4)) = Ok (kk', q).
Proof. split; [reflexivity|]. split; [exact axi_off|apply axi_mat_10]. Qed.

(** the two functions have the same results when the matrix is the element matrix *)
Theorem C53_equal : forall zdet A kk fn, 0 <= zdet -> pad_wf (a_pad A) -> a_ii0 A = 0%nat -> a_jj0 A = 0%nat ->
  is_matrix (a_nnode A * ndim A) (a_nnode A * ndim A) kk ->
  (a_axi A = true -> forall p, (p < npts A)%nat -> r_of A p <> 0) ->
  (forall p nn bb D, fn p nn bb = Ok D -> is_matrix (2 * ndim A) (2 * ndim A) D) ->
  mat_10_bdb_alt zdet A kk fn = mat_10_bdb zdet A kk fn.
Proof. exact alt_equal. Qed.
Print Assumptions C53_equal.
Example C53_ex : exists kk' q, mat_10_bdb_alt (1/1000) axi_args (zeros 6 6) (fun _ _ _ => Ok (ident 4)) = Ok (kk', q).
Proof.
  rewrite C53_equal; [apply axi_mat_10|lra|apply tri_wf|reflexivity|reflexivity|apply zeros_matrix|intros _; exact axi_off|].
  intros p nn bb D [= <-]. apply ident_matrix.
Qed.

(** mat_10_bdb_alt never returns a value when the matrix is larger than the element matrix, hence never with ii0 or jj0 > 0 *)
Theorem C53_larger : forall zdet A nr nc kk fn, 0 <= zdet -> pad_wf (a_pad A) -> is_matrix nr nc kk ->
  (nr <> a_nnode A * ndim A \/ nc <> a_nnode A * ndim A)%nat -> (0 < npts A)%nat ->
  forall kk' q, mat_10_bdb_alt zdet A kk fn <> Ok (kk', q).
Proof. intros zdet A nr nc kk fn Hz W. exact (alt_larger zdet A nr nc kk fn Hz W). Qed.
Print Assumptions C53_larger.

(** a call that succeeds with mat_10_bdb and panics with mat_10_bdb_alt *)
Theorem C53_refuted : exists zdet A kk fn, 0 <= zdet /\ pad_wf (a_pad A) /\
  (exists kk' q, mat_10_bdb zdet A kk fn = Ok (kk', q)) /\ mat_10_bdb_alt zdet A kk fn = Panic.
Proof. exact alt_panics. Qed.
Print Assumptions C53_refuted.

(** vec_04_bt: the force on node m in direction i is the integral of sigma_ij B_mj (plus the hoop term) *)
Theorem C63_forces : forall zdet A t fn t' q, 0 <= zdet -> pad_wf (a_pad A) -> vec_04_bt zdet A t fn = Ok (t', q) ->
  (a_axi A = true -> ndim A = 2%nat) /\ (same_element (a_pad A) q /\ exists d B sg,
    at_points A (fun p => gradient_at (a_pad A) (ksi_at A p) (d p) (B p) /\ fn p (N_p A p) (B p) = Ok (sg p)) /\
    vec_result A t t' (a_nnode A) (ndim A) (fun m i => integral A (fun p =>
      dvol A d p * sum_n (ndim A) (fun j => tensor2 (sg p) i j * ent (B p) m j) +
      (if a_axi A && (i =? 0)%nat then d p * wt (a_gauss A) p * a_alpha A * N_of A p m * tensor2 (sg p) 2 2 else 0)))).
Proof. 
  intros zdet A t fn t' q Hz W H. apply (vec_04_form zdet A Hz W) in H as (Ax & H). split; [exact Ax|]. restate H.
 Qed.
Print Assumptions C63_forces.
Example C63_forces_ex : exists t' q, vec_04_bt (1/1000) tri_args (repeat 0 7) (fun _ _ _ => Ok [1; 2; 3; 4]) = Ok (t', q).
Proof. apply tri_vec_04; eauto. Qed.

(** the internal forces are in equilibrium: their sum and their moments vanish *)
Theorem C63_equilibrium : forall zdet A t fn t' q, 0 <= zdet -> pad_wf (a_pad A) -> a_axi A = false -> vec_04_bt zdet A t fn = Ok (t', q) ->
  (forall i, (i < ndim A)%nat -> sum_n (a_nnode A) (fun m => vec_added A t t' (i + m * ndim A)) = 0) /\
  (forall i j, (i < ndim A)%nat -> (j < ndim A)%nat ->
     sum_n (a_nnode A) (fun m => node_x (a_pad A) i m * vec_added A t t' (j + m * ndim A)
                               - node_x (a_pad A) j m * vec_added A t t' (i + m * ndim A)) = 0).
Proof. exact forces_balance. Qed.
Print Assumptions C63_equilibrium.

(** when the stress is D : eps(u), the forces are the stiffness matrix times u *)
Theorem C63_stiffness_times : forall zdet A nr nc kk fn_dd kk' q t fn_sig t' q' u, 0 <= zdet -> pad_wf (a_pad A) -> (a_axi A = true -> forall p, (p < npts A)%nat -> r_of A p <> 0) ->
  is_matrix nr nc kk -> mat_10_bdb zdet A kk fn_dd = Ok (kk', q) -> vec_04_bt zdet A t fn_sig = Ok (t', q') ->
  (forall p nn bb D sg, fn_dd p nn bb = Ok D -> fn_sig p nn bb = Ok sg ->
     forall i j, (i < 3)%nat -> (j < 3)%nat -> tensor2 sg i j = stress_u A bb p u D i j) ->
  forall m i, (m < a_nnode A)%nat -> (i < ndim A)%nat ->
    vec_added A t t' (i + m * ndim A) =
    sum_n (a_nnode A) (fun n => sum_n (ndim A) (fun j => mat_added A kk kk' (i + m * ndim A) (j + n * ndim A) * u n j)).
Proof. intros; eapply forces_stiffness; eassumption. Qed.
Print Assumptions C63_stiffness_times.
Example C63_stress_ex : forall A u D, exists fn_sig, (forall p nn bb, exists sg, fn_sig p nn bb = Ok sg) /\
  forall p (nn : list R) bb sg, fn_sig p nn bb = Ok sg -> forall i j, (i < 3)%nat -> (j < 3)%nat -> tensor2 sg i j = stress_u A bb p u D i j.
Proof.
  intros A u D. exists (fun p _ bb => Ok (mandel (stress_u A bb p u D))). split; [eauto|]. intros p nn bb sg [= <-] i j Hi Hj.
  apply mandel_tensor; auto. intros; apply stress_sym.
Qed.

(** when the flux is T . grad(phi), the flow vector is the conductivity matrix times phi *)
Theorem C63_conductivity_times : forall zdet A nr nc kk fn_tt kk' q c fn_w c' q' phi, 0 <= zdet -> pad_wf (a_pad A) -> is_matrix nr nc kk ->
  mat_03_btb zdet A kk fn_tt = Ok (kk', q) -> vec_03_bv zdet A c fn_w = Ok (c', q') ->
  (forall p nn bb T w, fn_tt p nn bb = Ok T -> fn_w p nn bb = Ok w -> forall i, (i < ndim A)%nat ->
     nth i w 0 = sum_n (ndim A) (fun j => tensor2 T i j * sum_n (a_nnode A) (fun n => phi n * ent bb n j))) ->
  forall m, (m < a_nnode A)%nat -> vec_added A c c' m = sum_n (a_nnode A) (fun n => mat_added A kk kk' m n * phi n).
Proof. exact fluxes_conductivity. Qed.
Print Assumptions C63_conductivity_times.

(** the stiffness matrix is positive semi-definite when D is *)
Theorem C64_not_negative : forall zdet A nr nc kk fn kk' q, 0 <= zdet -> pad_wf (a_pad A) -> (a_axi A = true -> forall p, (p < npts A)%nat -> r_of A p <> 0) ->
  is_matrix nr nc kk -> mat_10_bdb zdet A kk fn = Ok (kk', q) -> good_volumes A -> positive_jacobian A ->
  (forall p nn bb D, fn p nn bb = Ok D -> psd 6 (ent D)) -> psd (a_nnode A * ndim A) (mat_added A kk kk').
Proof. intros; eapply mat_10_psd; eassumption. Qed.
Print Assumptions C64_not_negative.
Example C64_ex : psd 6 (ent (ident 4)).
Proof. exact ident_psd. Qed.

(** a rigid motion causes no forces (in axisymmetric problems: translation along the axis) *)
Theorem C64_rigid : forall zdet A nr nc kk fn kk' q c w, 0 <= zdet -> pad_wf (a_pad A) -> (a_axi A = true -> forall p, (p < npts A)%nat -> r_of A p <> 0) ->
  is_matrix nr nc kk -> mat_10_bdb zdet A kk fn = Ok (kk', q) -> (forall k l, w k l = - w l k) ->
  (a_axi A = true -> c 0%nat = 0 /\ forall k l, w k l = 0) ->
  forall k, (k < a_nnode A * ndim A)%nat ->
    sum_n (a_nnode A) (fun n => sum_n (ndim A) (fun j => mat_added A kk kk' k (j + n * ndim A) * rigid A c w n j)) = 0.
Proof. intros; eapply mat_10_rigid; eassumption. Qed.
Print Assumptions C64_rigid.
Example C64_rigid_ex : let w := fun k l => if (k <? l)%nat then 1 else if (l <? k)%nat then -1 else 0 in
  (forall k l, w k l = - w l k) /\ w 0%nat 1%nat = 1.
Proof. split; [intros k l; destruct (Nat.ltb_spec k l), (Nat.ltb_spec l k); try lra; lia|reflexivity]. Qed.

(** mat_02_bvn: integral of (B_m . v) N_n *)
Theorem C65_mat_02 : forall zdet A nr nc kk fn kk' q, 0 <= zdet -> pad_wf (a_pad A) -> is_matrix nr nc kk -> mat_02_bvn zdet A kk fn = Ok (kk', q) ->
  same_element (a_pad A) q /\ exists d B v,
    at_points A (fun p => gradient_at (a_pad A) (ksi_at A p) (d p) (B p) /\ fn p (N_p A p) (B p) = Ok (v p)) /\
    mat_result A kk kk' (a_nnode A) 1 (a_nnode A) 1 (fun m _ n _ => integral A (fun p => dvol A d p * sum_n (ndim A) (fun i => ent (B p) m i * nth i (v p) 0) * N_of A p n)).
Proof. intros zdet A nr nc kk fn kk' q Hz W M H. apply (mat_02_form zdet A Hz W nr nc) in H; auto. restate H. Qed.
Print Assumptions C65_mat_02.

(** mat_04_nsb: integral of Nb_m s B_n; Nb belongs to the second geometry *)
Theorem C65_mat_04 : forall zdet A nr nc kk pb fn kk' q, 0 <= zdet -> pad_wf (a_pad A) -> is_matrix nr nc kk -> mat_04_nsb zdet A kk pb fn = Ok (kk', q) ->
  same_element (a_pad A) q /\ exists d B s,
    at_points A (fun p => gradient_at (a_pad A) (ksi_at A p) (d p) (B p) /\ fn p (N_b A pb p) (N_p A p) (B p) = Ok (s p)) /\
    mat_result A kk kk' (kind_nnode (p_kind pb)) 1 (a_nnode A) (ndim A) (fun m _ n j => integral A (fun p => dvol A d p * s p * nth m (N_b A pb p) 0 * ent (B p) n j)).
Proof. intros zdet A nr nc kk pb fn kk' q Hz W M H. apply (mat_04_form zdet A Hz W nr nc) in H; auto. restate H. Qed.
Print Assumptions C65_mat_04.

(** mat_05_btn: integral of (Bb_m . T) N_n *)
Theorem C65_mat_05 : forall zdet A nr nc kk pb fn kk' q, 0 <= zdet -> pad_wf (a_pad A) -> pad_wf pb -> is_matrix nr nc kk -> mat_05_btn zdet A kk pb fn = Ok (kk', q) ->
  same_element (a_pad A) q /\ exists d B Bb T,
    at_points A (fun p => gradient_at (a_pad A) (ksi_at A p) (d p) (B p) /\ (exists db, gradient_at pb (ksi_b A pb p) db (Bb p)) /\
      fn p (Bb p) (N_p A p) (B p) = Ok (T p)) /\
    mat_result A kk kk' (kind_nnode (p_kind pb)) 1 (a_nnode A) (ndim A) (fun m _ n j => integral A (fun p =>
      dvol A d p * sum_n (ndim A) (fun i => ent (Bb p) m i * tensor2 (T p) i j) * N_of A p n)).
Proof. 
  intros zdet A nr nc kk pb fn kk' q Hz W Wb M H. apply (mat_05_form zdet A Hz W nr nc) in H as (SE & x & gb & T & F & V); auto. split; auto.
  exists (fun p => fst (x p)), (fun p => snd (x p)), gb, T. split; auto.
  intros p Hp. destruct (F p Hp) as (Gx & Fx). split; [eapply grad_facts_at; eassumption|assumption].
 Qed.
Print Assumptions C65_mat_05.

(** mat_06_nvn: integral of N_m v Nb_n *)
Theorem C65_mat_06 : forall zdet A nr nc kk pb fn kk' q, 0 <= zdet -> pad_wf (a_pad A) -> is_matrix nr nc kk -> mat_06_nvn zdet A kk pb fn = Ok (kk', q) ->
  same_element (a_pad A) q /\ exists d B v,
    at_points A (fun p => gradient_at (a_pad A) (ksi_at A p) (d p) (B p) /\ fn p (N_p A p) (B p) (N_b A pb p) = Ok (v p)) /\
    mat_result A kk kk' (a_nnode A) (ndim A) (kind_nnode (p_kind pb)) 1 (fun m i n _ => integral A (fun p => dvol A d p * N_of A p m * nth i (v p) 0 * nth n (N_b A pb p) 0)).
Proof. intros zdet A nr nc kk pb fn kk' q Hz W M H. apply (mat_06_form zdet A Hz W nr nc) in H; auto. restate H. Qed.
Print Assumptions C65_mat_06.

(** mat_07_bsn: integral of B_m s Nb_n *)
Theorem C65_mat_07 : forall zdet A nr nc kk pb fn kk' q, 0 <= zdet -> pad_wf (a_pad A) -> is_matrix nr nc kk -> mat_07_bsn zdet A kk pb fn = Ok (kk', q) ->
  same_element (a_pad A) q /\ exists d B s,
    at_points A (fun p => gradient_at (a_pad A) (ksi_at A p) (d p) (B p) /\ fn p (N_p A p) (B p) (N_b A pb p) = Ok (s p)) /\
    mat_result A kk kk' (a_nnode A) (ndim A) (kind_nnode (p_kind pb)) 1 (fun m i n _ => integral A (fun p => dvol A d p * s p * ent (B p) m i * nth n (N_b A pb p) 0)).
Proof. intros zdet A nr nc kk pb fn kk' q Hz W M H. apply (mat_07_form zdet A Hz W nr nc) in H; auto. restate H. Qed.
Print Assumptions C65_mat_07.

(** mat_08_ntn: integral of N_m T N_n *)
Theorem C65_mat_08 : forall zdet A nr nc kk fn kk' q, 0 <= zdet -> pad_wf (a_pad A) -> is_matrix nr nc kk -> mat_08_ntn zdet A kk fn = Ok (kk', q) ->
  same_element (a_pad A) q /\ exists d B T,
    at_points A (fun p => gradient_at (a_pad A) (ksi_at A p) (d p) (B p) /\ fn p (N_p A p) (B p) = Ok (T p)) /\
    mat_result A kk kk' (a_nnode A) (ndim A) (a_nnode A) (ndim A) (fun m i n j => integral A (fun p => dvol A d p * N_of A p m * tensor2 (T p) i j * N_of A p n)).
Proof. intros zdet A nr nc kk fn kk' q Hz W M H. apply (mat_08_form zdet A Hz W nr nc) in H; auto. restate H. Qed.
Print Assumptions C65_mat_08.

(** mat_09_nvb: integral of N_m v x B_n *)
Theorem C65_mat_09 : forall zdet A nr nc kk fn kk' q, 0 <= zdet -> pad_wf (a_pad A) -> is_matrix nr nc kk -> mat_09_nvb zdet A kk fn = Ok (kk', q) ->
  same_element (a_pad A) q /\ exists d B v,
    at_points A (fun p => gradient_at (a_pad A) (ksi_at A p) (d p) (B p) /\ fn p (N_p A p) (B p) = Ok (v p)) /\
    mat_result A kk kk' (a_nnode A) (ndim A) (a_nnode A) (ndim A) (fun m i n j => integral A (fun p => dvol A d p * N_of A p m * nth i (v p) 0 * ent (B p) n j)).
Proof. intros zdet A nr nc kk fn kk' q Hz W M H. apply (mat_09_form zdet A Hz W nr nc) in H; auto. restate H. Qed.
Print Assumptions C65_mat_09.

(** the matrices of mat_04_nsb and mat_07_bsn are transposes of one another *)
Theorem C65_transpose : forall zdet A A' nr nc nr' nc' kk kk2 pb fn fn' kk' q kk2' q2, 0 <= zdet -> pad_wf (a_pad A) ->
  a_pad A' = a_pad A -> a_gauss A' = a_gauss A -> a_axi A' = a_axi A -> a_alpha A' = a_alpha A ->
  is_matrix nr nc kk -> is_matrix nr' nc' kk2 ->
  mat_04_nsb zdet A kk pb fn = Ok (kk', q) -> mat_07_bsn zdet A' kk2 pb fn' = Ok (kk2', q2) ->
  (forall p nnb nn bb, fn' p nn bb nnb = fn p nnb nn bb) ->
  forall k l, (k < kind_nnode (p_kind pb))%nat -> (l < a_nnode A * ndim A)%nat ->
    mat_added A' kk2 kk2' l k = mat_added A kk kk' k l.
Proof. exact transpose_04_07. Qed.
Print Assumptions C65_transpose.
Example C65_ex : exists kk' q kk2 q2, mat_04_nsb (1/1000) tri_args (zeros 4 7) (tri_pad true) (fun _ _ _ _ => Ok 3) = Ok (kk', q) /\
  mat_07_bsn (1/1000) tri_args (zeros 7 4) (tri_pad true) (fun _ _ _ _ => Ok 3) = Ok (kk2, q2).
Proof.
  destruct (tri_mat_04 (fun _ _ _ _ => Ok 3) ltac:(eauto)) as (a & b & H). destruct (tri_mat_07 (fun _ _ _ _ => Ok 3) ltac:(eauto)) as (c & d & H').
  exists a, b, c, d. auto.
Qed.
Example C65_05_ex : exists kk' q, mat_05_btn (1/1000) tri_args (zeros 4 7) (tri_pad true) (fun _ _ _ _ => Ok [1; 2; 0; 4]) = Ok (kk', q).
Proof. apply tri_mat_05; eauto. Qed.

(** vec_01_ns_bry: the integral over a line in 2D or a surface in 3D, with the unit normal vector u given to the closure *)
Theorem C66_scalar : forall A a fn a' q, pad_wf (a_pad A) -> vec_01_ns_bry A a fn = Ok (a', q) ->
  same_element (a_pad A) q /\ exists d u s,
    at_points A (fun p => normal_at (a_pad A) (ksi_at A p) (d p) (u p) /\ fn p (u p) (N_p A p) = Ok (s p)) /\
    vec_result A a a' (a_nnode A) 1 (fun m _ => integral A (fun p => dvol A d p * s p * N_of A p m)) /\ sum_n (a_nnode A) (vec_added A a a') = integral A (fun p => dvol A d p * s p).
Proof. 
  intros A a fn a' q W H. destruct (vec_01_bry_form A W a fn a' q H) as (SE & d & u & s & F & V). split; auto.
  exists d, u, s. split; auto. split; auto. now apply total_scalar.
 Qed.
Print Assumptions C66_scalar.
Example C66_ex : exists a' q, vec_01_ns_bry line_args [0; 0] (fun _ un _ => Ok (nth 0 un 0)) = Ok (a', q).
Proof. apply line_vec_01; eauto. Qed.

(** vec_02_nv_bry: the integral over a line in 2D or a surface in 3D, with the unit normal vector u given to the closure *)
Theorem C66_vector : forall A a fn a' q, pad_wf (a_pad A) -> vec_02_nv_bry A a fn = Ok (a', q) ->
  same_element (a_pad A) q /\ exists d u s,
    at_points A (fun p => normal_at (a_pad A) (ksi_at A p) (d p) (u p) /\ fn p (u p) (N_p A p) = Ok (s p)) /\
    vec_result A a a' (a_nnode A) (ndim A) (fun m i => integral A (fun p => dvol A d p * nth i (s p) 0 * N_of A p m)) /\ forall i, (i < ndim A)%nat -> sum_n (a_nnode A) (fun m => vec_added A a a' (i + m * ndim A)) = integral A (fun p => dvol A d p * nth i (s p) 0).
Proof. 
  intros A a fn a' q W H. destruct (vec_02_bry_form A W a fn a' q H) as (SE & d & u & s & F & V). split; auto.
  exists d, u, s. split; auto. split; auto. intros i Hi; now apply total_vector.
 Qed.
Print Assumptions C66_vector.

(** mat_01_nsn_bry: same *)
Theorem C66_matrix : forall A nr nc kk fn kk' q, pad_wf (a_pad A) -> is_matrix nr nc kk -> mat_01_nsn_bry A kk fn = Ok (kk', q) ->
  same_element (a_pad A) q /\ exists d u s,
    at_points A (fun p => normal_at (a_pad A) (ksi_at A p) (d p) (u p) /\ fn p (u p) (N_p A p) = Ok (s p)) /\
    mat_result A kk kk' (a_nnode A) 1 (a_nnode A) 1 (fun m _ n _ => integral A (fun p => dvol A d p * s p * N_of A p m * N_of A p n)).
Proof. intros A nr nc kk fn kk' q W M H. exact (mat_01_bry_form A W nr nc kk fn kk' q M H). Qed.
Print Assumptions C66_matrix.

(** When the functions return a value, given closures that do; and they never panic *)

Theorem C67_vec_01 : forall zdet A a fn, 0 <= zdet -> pad_wf (a_pad A) -> 
  total_when (forall p nn, exists y, fn p nn = Ok y) (forall p nn, no_panic (fn p nn)) ((a_ii0 A + a_nnode A <= List.length a)%nat /\ forall p, (p < npts A)%nat -> jac_ok zdet A p) (vec_01_ns zdet A a fn).
Proof. intros.  eapply total_weaken; [| | |eapply run_total; apply vec_01_run; assumption]; [intros T; intros; apply T|intros T; intros; apply T|cbv beta; tauto]. Qed.
Print Assumptions C67_vec_01.

Theorem C67_vec_02 : forall zdet A a fn, 0 <= zdet -> pad_wf (a_pad A) -> 
  total_when (forall p nn, exists y, fn p nn = Ok y) (forall p nn, no_panic (fn p nn)) ((a_ii0 A + a_nnode A * ndim A <= List.length a)%nat /\ forall p, (p < npts A)%nat -> jac_ok zdet A p) (vec_02_nv zdet A a fn).
Proof. intros.  eapply total_weaken; [| | |eapply run_total; apply vec_02_run; assumption]; [intros T; intros; apply T|intros T; intros; apply T|cbv beta; tauto]. Qed.
Print Assumptions C67_vec_02.

Theorem C67_vec_03 : forall zdet A a fn, 0 <= zdet -> pad_wf (a_pad A) -> 
  total_when (forall p nn bb, exists y, fn p nn bb = Ok y) (forall p nn bb, no_panic (fn p nn bb)) ((a_ii0 A + a_nnode A <= List.length a)%nat /\ forall p, (p < npts A)%nat -> grad_ok zdet A p) (vec_03_bv zdet A a fn).
Proof. intros.  eapply total_weaken; [| | |eapply run_total; apply vec_03_run; assumption]; [intros T; intros; apply T|intros T; intros; apply T|cbv beta; tauto]. Qed.
Print Assumptions C67_vec_03.

Theorem C67_vec_04 : forall zdet A a fn, 0 <= zdet -> pad_wf (a_pad A) -> 
  total_when (forall p nn bb, exists y, fn p nn bb = Ok y) (forall p nn bb, no_panic (fn p nn bb)) ((a_ii0 A + a_nnode A * ndim A <= List.length a)%nat /\ (a_axi A = true -> ndim A = 2%nat) /\ forall p, (p < npts A)%nat -> grad_ok zdet A p) (vec_04_bt zdet A a fn).
Proof. intros.  eapply total_weaken; [| | |eapply run_total; apply vec_04_run; assumption]; [intros T; intros; apply T|intros T; intros; apply T|cbv beta; tauto]. Qed.
Print Assumptions C67_vec_04.

Theorem C67_vec_01_bry : forall A a fn, pad_wf (a_pad A) -> 
  total_when (forall p un nn, exists y, fn p un nn = Ok y) (forall p un nn, no_panic (fn p un nn)) (ndim A = (kind_ndim (p_kind (a_pad A)) + 1)%nat /\ (a_ii0 A + a_nnode A <= List.length a)%nat) (vec_01_ns_bry A a fn).
Proof. intros.  eapply total_weaken; [| | |eapply run_total; apply vec_01_bry_run; assumption]; [intros T; intros; apply T|intros T; intros; apply T|cbv beta; tauto]. Qed.
Print Assumptions C67_vec_01_bry.

Theorem C67_vec_02_bry : forall A a fn, pad_wf (a_pad A) -> 
  total_when (forall p un nn, exists y, fn p un nn = Ok y) (forall p un nn, no_panic (fn p un nn)) (ndim A = (kind_ndim (p_kind (a_pad A)) + 1)%nat /\ (a_ii0 A + a_nnode A * ndim A <= List.length a)%nat) (vec_02_nv_bry A a fn).
Proof. intros.  eapply total_weaken; [| | |eapply run_total; apply vec_02_bry_run; assumption]; [intros T; intros; apply T|intros T; intros; apply T|cbv beta; tauto]. Qed.
Print Assumptions C67_vec_02_bry.

Theorem C67_mat_01 : forall zdet A nr nc kk fn, 0 <= zdet -> pad_wf (a_pad A) -> is_matrix nr nc kk ->
  total_when (forall p nn bb, exists y, fn p nn bb = Ok y) (forall p nn bb, no_panic (fn p nn bb)) ((a_ii0 A + a_nnode A <= nr)%nat /\ (a_jj0 A + a_nnode A <= nc)%nat /\ forall p, (p < npts A)%nat -> grad_ok zdet A p) (mat_01_nsn zdet A kk fn).
Proof. intros.  eapply total_weaken; [| | |eapply run_total; apply mat_01_run; eassumption]; [intros T; intros; apply T|intros T; intros; apply T|cbv beta; tauto]. Qed.
Print Assumptions C67_mat_01.

Theorem C67_mat_01_bry : forall A nr nc kk fn, pad_wf (a_pad A) -> is_matrix nr nc kk ->
  total_when (forall p un nn, exists y, fn p un nn = Ok y) (forall p un nn, no_panic (fn p un nn)) (ndim A = (kind_ndim (p_kind (a_pad A)) + 1)%nat /\ (a_ii0 A + a_nnode A <= nr)%nat /\ (a_jj0 A + a_nnode A <= nc)%nat) (mat_01_nsn_bry A kk fn).
Proof. intros.  eapply total_weaken; [| | |eapply run_total; apply mat_01_bry_run; eassumption]; [intros T; intros; apply T|intros T; intros; apply T|cbv beta; tauto]. Qed.
Print Assumptions C67_mat_01_bry.

Theorem C67_mat_02 : forall zdet A nr nc kk fn, 0 <= zdet -> pad_wf (a_pad A) -> is_matrix nr nc kk ->
  total_when (forall p nn bb, exists y, fn p nn bb = Ok y) (forall p nn bb, no_panic (fn p nn bb)) ((a_ii0 A + a_nnode A <= nr)%nat /\ (a_jj0 A + a_nnode A <= nc)%nat /\ forall p, (p < npts A)%nat -> grad_ok zdet A p) (mat_02_bvn zdet A kk fn).
Proof. intros.  eapply total_weaken; [| | |eapply run_total; apply mat_02_run; eassumption]; [intros T; intros; apply T|intros T; intros; apply T|cbv beta; tauto]. Qed.
Print Assumptions C67_mat_02.

Theorem C67_mat_03 : forall zdet A nr nc kk fn, 0 <= zdet -> pad_wf (a_pad A) -> is_matrix nr nc kk ->
  total_when (forall p nn bb, exists y, fn p nn bb = Ok y) (forall p nn bb, no_panic (fn p nn bb)) ((a_ii0 A + a_nnode A <= nr)%nat /\ (a_jj0 A + a_nnode A <= nc)%nat /\ forall p, (p < npts A)%nat -> grad_ok zdet A p) (mat_03_btb zdet A kk fn).
Proof. intros.  eapply total_weaken; [| | |eapply run_total; apply mat_03_run; eassumption]; [intros T; intros; apply T|intros T; intros; apply T|cbv beta; tauto]. Qed.
Print Assumptions C67_mat_03.

Theorem C67_mat_04 : forall zdet A nr nc kk pb fn, 0 <= zdet -> pad_wf (a_pad A) -> is_matrix nr nc kk ->
  total_when (forall p nnb nn bb, exists y, fn p nnb nn bb = Ok y) (forall p nnb nn bb, no_panic (fn p nnb nn bb)) ((a_ii0 A + kind_nnode (p_kind pb) <= nr)%nat /\ (a_jj0 A + a_nnode A * ndim A <= nc)%nat /\ forall p, (p < npts A)%nat -> grad_ok zdet A p) (mat_04_nsb zdet A kk pb fn).
Proof. intros.  eapply total_weaken; [| | |eapply run_total; apply mat_04_run; eassumption]; [intros T; intros; apply T|intros T; intros; apply T|cbv beta; tauto]. Qed.
Print Assumptions C67_mat_04.

Theorem C67_mat_05 : forall zdet A nr nc kk pb fn, 0 <= zdet -> pad_wf (a_pad A) -> pad_wf pb -> is_matrix nr nc kk ->
  total_when (forall p gb nn bb, exists y, fn p gb nn bb = Ok y) (forall p gb nn bb, no_panic (fn p gb nn bb)) ((a_ii0 A + kind_nnode (p_kind pb) <= nr)%nat /\ (a_jj0 A + a_nnode A * ndim A <= nc)%nat /\ forall p, (p < npts A)%nat -> grad_ok zdet (mkArgs pb (a_gauss A) true false 1 0 0) p /\ grad_ok zdet A p) (mat_05_btn zdet A kk pb fn).
Proof. intros.  eapply total_weaken; [| | |eapply run_total; apply mat_05_run; eassumption]; [intros T; intros; apply T|intros T; intros; apply T|cbv beta; tauto]. Qed.
Print Assumptions C67_mat_05.

Theorem C67_mat_06 : forall zdet A nr nc kk pb fn, 0 <= zdet -> pad_wf (a_pad A) -> is_matrix nr nc kk ->
  total_when (forall p nn bb nnb, exists y, fn p nn bb nnb = Ok y) (forall p nn bb nnb, no_panic (fn p nn bb nnb)) ((a_ii0 A + a_nnode A * ndim A <= nr)%nat /\ (a_jj0 A + kind_nnode (p_kind pb) <= nc)%nat /\ forall p, (p < npts A)%nat -> grad_ok zdet A p) (mat_06_nvn zdet A kk pb fn).
Proof. intros.  eapply total_weaken; [| | |eapply run_total; apply mat_06_run; eassumption]; [intros T; intros; apply T|intros T; intros; apply T|cbv beta; tauto]. Qed.
Print Assumptions C67_mat_06.

Theorem C67_mat_07 : forall zdet A nr nc kk pb fn, 0 <= zdet -> pad_wf (a_pad A) -> is_matrix nr nc kk ->
  total_when (forall p nn bb nnb, exists y, fn p nn bb nnb = Ok y) (forall p nn bb nnb, no_panic (fn p nn bb nnb)) ((a_ii0 A + a_nnode A * ndim A <= nr)%nat /\ (a_jj0 A + kind_nnode (p_kind pb) <= nc)%nat /\ forall p, (p < npts A)%nat -> grad_ok zdet A p) (mat_07_bsn zdet A kk pb fn).
Proof. intros.  eapply total_weaken; [| | |eapply run_total; apply mat_07_run; eassumption]; [intros T; intros; apply T|intros T; intros; apply T|cbv beta; tauto]. Qed.
Print Assumptions C67_mat_07.

Theorem C67_mat_08 : forall zdet A nr nc kk fn, 0 <= zdet -> pad_wf (a_pad A) -> is_matrix nr nc kk ->
  total_when (forall p nn bb, exists y, fn p nn bb = Ok y) (forall p nn bb, no_panic (fn p nn bb)) ((a_ii0 A + a_nnode A * ndim A <= nr)%nat /\ (a_jj0 A + a_nnode A * ndim A <= nc)%nat /\ forall p, (p < npts A)%nat -> grad_ok zdet A p) (mat_08_ntn zdet A kk fn).
Proof. intros.  eapply total_weaken; [| | |eapply run_total; apply mat_08_run; eassumption]; [intros T; intros; apply T|intros T; intros; apply T|cbv beta; tauto]. Qed.
Print Assumptions C67_mat_08.

Theorem C67_mat_09 : forall zdet A nr nc kk fn, 0 <= zdet -> pad_wf (a_pad A) -> is_matrix nr nc kk ->
  total_when (forall p nn bb, exists y, fn p nn bb = Ok y) (forall p nn bb, no_panic (fn p nn bb)) ((a_ii0 A + a_nnode A * ndim A <= nr)%nat /\ (a_jj0 A + a_nnode A * ndim A <= nc)%nat /\ forall p, (p < npts A)%nat -> grad_ok zdet A p) (mat_09_nvb zdet A kk fn).
Proof. intros.  eapply total_weaken; [| | |eapply run_total; apply mat_09_run; eassumption]; [intros T; intros; apply T|intros T; intros; apply T|cbv beta; tauto]. Qed.
Print Assumptions C67_mat_09.

Theorem C67_mat_10 : forall zdet A nr nc kk fn, 0 <= zdet -> pad_wf (a_pad A) -> (a_axi A = true -> forall p, (p < npts A)%nat -> r_of A p <> 0) -> is_matrix nr nc kk ->
  total_when (forall p nn bb, exists y, fn p nn bb = Ok y) (forall p nn bb, no_panic (fn p nn bb)) ((a_ii0 A + a_nnode A * ndim A <= nr)%nat /\ (a_jj0 A + a_nnode A * ndim A <= nc)%nat /\ (a_axi A = true -> ndim A = 2%nat) /\ forall p, (p < npts A)%nat -> grad_ok zdet A p) (mat_10_bdb zdet A kk fn).
Proof. intros.  eapply total_weaken; [| | |eapply run_total; apply mat_10_run; eassumption]; [intros T; intros; apply T|intros T; intros; apply T|cbv beta; tauto]. Qed.
Print Assumptions C67_mat_10.
Example C67_ex : (forall p, (p < npts tri_args)%nat -> jac_ok (1/1000) tri_args p) /\ (forall p, (p < npts tri_args)%nat -> grad_ok (1/1000) tri_args p).
Proof. split; intros p _; [apply tri_jac_ok|apply tri_grad_ok]. Qed.

(** scalar_field: the sum over the integration points; when it returns a value *)
Theorem C68_value : forall zdet p0 g fn, 0 <= zdet -> pad_wf p0 ->
  let A := args_new p0 g in
  (forall v q, scalar_field zdet p0 g fn = Ok (v, q) -> same_element p0 q /\ exists d s,
     at_points A (fun p => measure_at p0 (ksi_at A p) (d p) /\ fn p = Ok (s p)) /\ v = sum_n (npoint g) (fun p => s p * d p * wt g p)) /\
  total_when (forall p, exists s, fn p = Ok s) (forall p, no_panic (fn p))
    (forall p, (p < npoint g)%nat -> jac_ok zdet A p) (scalar_field zdet p0 g fn).
Proof. 
  intros zdet p0 g fn Hz W A. destruct (scalar_run zdet p0 g Hz W fn) as (R1 & R2 & R3). split; [exact R1|]. split; [|auto].
  intros T. specialize (R2 ltac:(auto)). split; [intros ([v q] & E); apply R2; eauto|intros E; apply R2 in E as (v & q & E); eauto].
 Qed.
Print Assumptions C68_value.

(** when s J is a polynomial in the reference coordinates within the degree of the rule, the result is its integral *)
Theorem C68_exact : forall zdet p0 c n g fn v q P, 0 <= zdet -> pad_wf p0 -> gauss_new_sized c n = Ok g ->
  scalar_field zdet p0 g fn = Ok (v, q) -> Forall (fun t => within_degree c n (snd t)) P ->
  (forall p s d, (p < n)%nat -> fn p = Ok s -> measure_at p0 (ksi_at (args_new p0 g) p) d ->
     s * d = polynomial P (pt g p 0) (pt g p 1) (pt g p 2)) ->
  exists i, ref_integral c (polynomial P) i /\ Rabs (v - i) <= table_eps * abs_coefs P.
Proof. exact scalar_exact. Qed.
Print Assumptions C68_exact.

(** constants over straight elements: the length, area or volume (up to the rounding of the table of weights) *)
Theorem C68_sizes : forall zdet p n g fn s v q, 0 <= zdet -> pad_wf p -> (forall i, fn i = Ok s) -> scalar_field zdet p g fn = Ok (v, q) ->
  (p_kind p = Lin2 -> gauss_new_sized CLin n = Ok g -> Rabs (v - s * line_length p) <= table_eps * Rabs (s * line_length p)) /\
  (p_kind p = Tri3 -> p_space p = 2%nat -> gauss_new_sized CTri n = Ok g -> Rabs (v - s * tri_area p) <= 2 * table_eps * Rabs (s * tri_area p)) /\
  (p_kind p = Qua4 -> p_space p = 2%nat -> gauss_new_sized CQua n = Ok g -> Rabs (v - s * qua_area p) <= table_eps * (Rabs s * qua_bound p)) /\
  (p_kind p = Tet4 -> p_space p = 3%nat -> gauss_new_sized CTet n = Ok g -> Rabs (v - s * tet_volume p) <= 6 * table_eps * Rabs (s * tet_volume p)).
Proof. 
  intros zdet p n g fn s v q Hz W F H. split; [|split; [|split]]; intros;
    [eapply lin2_size|eapply tri3_area|eapply qua4_area|eapply tet4_volume]; eauto.
 Qed.
Print Assumptions C68_sizes.
Example C68_sizes_ex : exists v q g, gauss_new_sized CTri 3 = Ok g /\ scalar_field (1/1000) (tri_pad true) g (fun _ => Ok 5) = Ok (v, q) /\ tri_area (tri_pad true) = 3.
Proof. exact tri_scalar. Qed.

(** over a surface in 3D the result does not depend on the surface at all, and has the wrong sign *)
Theorem C68_surface : forall zdet p0 g fn v q, 0 <= zdet -> pad_wf p0 -> (1 < kind_ndim (p_kind p0) < p_space p0)%nat ->
  scalar_field zdet p0 g fn = Ok (v, q) -> exists s, (forall p, (p < npoint g)%nat -> fn p = Ok (s p)) /\
    v = - sum_n (npoint g) (fun p => s p * wt g p).
Proof. exact shell_scalar. Qed.
Print Assumptions C68_surface.

(** the integral of 1 over a triangle in 3D is negative *)
Theorem C68_surface_refuted : exists zdet p0 g v q, 0 <= zdet /\ pad_wf p0 /\ p_ok p0 = true /\ gauss_new_sized (kind_class (p_kind p0)) 3 = Ok g /\
  scalar_field zdet p0 g (fun _ => Ok 1) = Ok (v, q) /\ v < 0.
Proof. exact shell_negative. Qed.
Print Assumptions C68_surface_refuted.
