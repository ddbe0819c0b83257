(* Properties C41-C43 and C60: Jacobian, gradient, normal vectors, inversion of the map, check_jacobian. *)
From Coq Require Import String Reals QArith Qreals List Lia Lra Bool Arith ZArith.
From Verif Require Import Base BaseFacts Expr ShapesData Kind MeshModel MeshQuerySpec ShapesModel ShapesSpec
  GeomModel GeomProof PadModel PadSpec PadProof PadProof2 PadProof3 PadProof4.
Import ListNotations.
Local Open Scope R_scope.

(** C41: the coordinates are those of the isoparametric map *)
Theorem C41_coords : forall p ksi, pad_wf p -> p_ok p = true ->
  exists x q, pad_coords p (p_space p) ksi = Ok (x, q) /\ List.length x = p_space p /\
    (forall i, (i < p_space p)%nat -> nth i x 0 = pos p ksi i) /\ same_element p q.
Proof. exact pad_coords_ok. Qed.
Print Assumptions C41_coords.

(** the matrix is that of the partial derivatives, the result its determinant (solid), the length
    of the tangent (cable) or -1 (shell); the inverse is two-sided *)
Theorem C41_jacobian : forall zdet p ksi d q, 0 <= zdet -> pad_wf p -> List.length ksi = kind_ndim (p_kind p) ->
  calc_jacobian zdet p ksi = Ok (d, q) ->
  same_element p q /\ jacobian_of p ksi (ent (p_jac q)) /\
  (kind_ndim (p_kind p) = p_space p ->
     d = det (p_space p) (ent (p_jac q)) /\ zdet < Rabs d /\
     inverse_of (p_space p) (ent (p_jac q)) (ent (p_inv q))) /\
  (kind_ndim (p_kind p) = 1%nat -> d = sqrt (sum_n (p_space p) (fun i => ent (p_jac q) i 0 ^ 2))) /\
  ((1 < kind_ndim (p_kind p) < p_space p)%nat -> d = -1).
Proof.
  intros zdet p ksi d q Hz W L H. pose proof (calc_jacobian_post zdet p ksi d q Hz W H) as P.
  split; [apply P|]. split; [now apply (jac_post_jacobian zdet p q ksi d)|].
  destruct P as (_ & _ & _ & _ & P1 & P2 & P3). split; [|auto]. intros E. destruct (P1 E) as (A & B & C & _). auto.
Qed.
Print Assumptions C41_jacobian.

(** the function succeeds exactly when the coordinates are set and (solid) |det| > zdet *)
Theorem C41_jacobian_total : forall zdet p ksi a, pad_wf p -> List.length ksi = kind_ndim (p_kind p) ->
  jacobian_of p ksi a ->
  ((exists d q, calc_jacobian zdet p ksi = Ok (d, q)) <->
   p_ok p = true /\ (kind_ndim (p_kind p) = p_space p -> zdet < Rabs (det (p_space p) a))) /\
  ((exists d q, calc_jacobian zdet p ksi = Ok (d, q)) \/ exists msg, calc_jacobian zdet p ksi = Err msg).
Proof.
  intros zdet p ksi a W L J. destruct (p_ok p) eqn:O.
  2:{ rewrite calc_jacobian_unset by auto. split; [|right; eauto]. split; [intros (? & ? & ?); discriminate|intros []; discriminate]. }
  destruct (Nat.eq_dec (kind_ndim (p_kind p)) (p_space p)) as [E|N].
  - destruct (calc_jacobian_solid zdet p ksi a W O ltac:(lia) E J) as (H1 & H2).
    destruct (Rlt_le_dec zdet (Rabs (det (p_space p) a))) as [D|D].
    + destruct (H1 D) as (q & Eq). rewrite Eq. split; [|left; eauto]. split; eauto.
    + rewrite (H2 D). split; [|right; eauto]. split; [intros (? & ? & ?); discriminate|].
      intros (_ & H). specialize (H E). lra.
  - destruct (calc_jacobian_flat zdet p ksi O N) as (d & q & Eq). rewrite Eq.
    split; [|left; eauto]. split; eauto. intros _. split; auto. intros; contradiction.
Qed.
Print Assumptions C41_jacobian_total.

Definition tri_pad (ok : bool) : pad :=
  mkPad Tri3 2 [] [] [] [] [] [[0; 2; 1]; [0; 0; 3]] ok.
Lemma tri_pad_wf ok : pad_wf (tri_pad ok).
Proof. repeat split; simpl; auto. Qed.
Ltac numbers := cbn; unfold Q2R; simpl; try lra.
Lemma tri_pad_jac ok : let a := ent (mat_mul 2 (p_xxt (tri_pad ok)) (calc_deriv Tri3 [1/4; 1/4])) in
  a 0%nat 0%nat = 2 /\ a 0%nat 1%nat = 1 /\ a 1%nat 0%nat = 0 /\ a 1%nat 1%nat = 3.
Proof. repeat split; numbers. Qed.
Example C41_ex : exists d q, calc_jacobian (1 / 1000) (tri_pad true) [1/4; 1/4] = Ok (d, q) /\ d = 6.
Proof.
  pose proof (jj_partial (tri_pad true) [1/4; 1/4] (tri_pad_wf true) (le_n _)) as J.
  destruct (calc_jacobian_solid (1/1000) (tri_pad true) [1/4; 1/4] _ (tri_pad_wf true) eq_refl (le_n _) eq_refl J) as (H & _).
  assert (E : det (p_space (tri_pad true)) (ent (mat_mul (p_geo (tri_pad true)) (p_xxt (tri_pad true)) (calc_deriv (p_kind (tri_pad true)) [1/4; 1/4]))) = 6).
  { destruct (tri_pad_jac true) as (A & B & C & D). cbv zeta in *.
    transitivity (2 * 3 - 0 * 1); [|lra]. rewrite <- A at 1. rewrite <- B, <- C, <- D. reflexivity. }
  rewrite E in H. destruct H as (q & H); [rewrite Rabs_pos_eq; lra|]. exists 6, q. auto.
Qed.

(** the gradient: along every motion of the reference point the field changes by the gradient times
    the velocity of the image point; affine fields have the exact gradient; the columns add up to zero *)
Theorem C41_gradient : forall zdet p ksi d q, 0 <= zdet -> pad_wf p -> calc_gradient zdet p ksi = Ok (d, q) ->
  let grad u i := sum_n (kind_nnode (p_kind p)) (fun m => u m * ent (p_grad q) m i) in
  same_element p q /\ d = det (p_space p) (ent (p_jac q)) /\
  (forall u gamma t0 g v, curve_at (kind_ndim (p_kind p)) gamma t0 ksi g ->
    (forall i, (i < p_space p)%nat -> derivable_pt_lim (fun t => pos p (gamma t) i) t0 (v i)) ->
    derivable_pt_lim (fun t => field p u (gamma t)) t0 (sum_n (p_space p) (fun i => grad u i * v i))) /\
  (forall c0 c i, (i < p_space p)%nat -> grad (fun m => c0 + sum_n (p_space p) (fun l => c l * node_x p l m)) i = c i) /\
  (forall i, (i < p_space p)%nat -> sum_n (kind_nnode (p_kind p)) (fun m => ent (p_grad q) m i) = 0).
Proof.
  intros zdet p ksi d q Hz W G grad. destruct (gradient_entries _ _ _ _ _ Hz W G) as (E & S & P & _).
  split; auto. split; [now apply P|]. split; [|split].
  - exact (gradient_chain _ _ _ _ _ Hz W G).
  - exact (gradient_affine _ _ _ _ _ Hz W G).
  - exact (gradient_sum _ _ _ _ _ Hz W G).
Qed.
Print Assumptions C41_gradient.

(** calc_gradient and calc_jacobian succeed together on solids; other elements are rejected *)
Theorem C41_gradient_total : forall zdet p ksi, pad_wf p ->
  (kind_ndim (p_kind p) <> p_space p -> exists msg, calc_gradient zdet p ksi = Err msg) /\
  (kind_ndim (p_kind p) = p_space p -> forall d,
     (exists q, calc_gradient zdet p ksi = Ok (d, q)) <-> (exists q, calc_jacobian zdet p ksi = Ok (d, q))).
Proof.
  intros zdet p ksi W. unfold calc_gradient. unfold p_geo. split.
  - intros N. destruct (Nat.eqb_spec (kind_ndim (p_kind p)) (p_space p)); [contradiction|]. simpl. eauto.
  - intros ->. rewrite Nat.eqb_refl. cbn [negb]. intros d.
    destruct (calc_jacobian zdet p ksi) as [[d' q]| | |]; cbn [bind fst snd];
      (split; intros (r & H); try discriminate; injection H as <- _; eauto).
Qed.
Print Assumptions C41_gradient_total.
Example C41_gradient_ex : exists d q, calc_gradient (1 / 1000) (tri_pad true) [1/4; 1/4] = Ok (d, q).
Proof.
  destruct C41_ex as (d & q & H & _).
  destruct (proj2 (proj2 (C41_gradient_total (1/1000) (tri_pad true) [1/4; 1/4] (tri_pad_wf true)) eq_refl d)) as (r & Hr); eauto.
Qed.

(** the pad of a cell of a consistent mesh holds the coordinates of the points of the cell *)
Theorem C41_get_pad : forall m i c, consistent m -> coords_complete m -> (ndim m = 2 \/ ndim m = 3)%nat ->
  nth_error (cells m) i = Some c -> (kind_ndim (c_kind c) <= ndim m)%nat ->
  exists p, get_pad m i = Ok p /\ element_of m c p /\ p_ok p = true.
Proof. exact get_pad_ok. Qed.
Print Assumptions C41_get_pad.

Definition kite (a : R) : mesh R :=
  mkMesh 2 [mkPoint 0 0%Z [0; 0]; mkPoint 1 0%Z [2; 0]; mkPoint 2 0%Z [a; a]; mkPoint 3 0%Z [0; 2]]
    [mkCell 0 1%Z Qua4 [0; 1; 2; 3]%nat] [] [].
Lemma kite_ok a : consistent (kite a) /\ coords_complete (kite a).
Proof.
  split; [split|].
  - intros i p H. destruct i as [|[|[|[|i]]]]; simpl in H; try (injection H as <-; reflexivity). destruct i; discriminate.
  - intros i c H. destruct i as [|i]; simpl in H; [injection H as <-|destruct i; discriminate].
    repeat split. intros q Hq. simpl in *. lia.
  - intros p H. simpl in H. repeat (destruct H as [<-|H]; [reflexivity|]). destruct H.
Qed.
Example C41_get_pad_ex : exists p, get_pad (kite 3) 0 = Ok p /\ p_ok p = true /\ node_x p 1 3 = 2.
Proof.
  destruct (kite_ok 3) as (C & K).
  destruct (C41_get_pad (kite 3) 0 _ C K (or_introl eq_refl) eq_refl (le_n _)) as (p & E & H & O).
  exists p. split; auto. split; auto. apply (proj2 (proj2 (proj2 H)) 3%nat 3%nat (mkPoint 3 0%Z [0; 2]) 1%nat); auto.
Qed.

(** the flag "all coordinates are set" is raised although only one of six components was set *)
Theorem C41_flag_refuted : exists p q, pad_new 2 Tri3 = Ok p /\ set_xx p 2 1 5 = Ok q /\ p_ok q = true.
Proof. eexists _, _. split; [reflexivity|]. split; reflexivity. Qed.
Print Assumptions C41_flag_refuted.

(** C42: normal of a line in 2D: unit, orthogonal to the tangent t, and equal to t turned by +90 degrees *)
Theorem C42_normal_2d : forall p n ksi mag un q, pad_wf p -> p_space p = 2%nat -> List.length ksi = kind_ndim (p_kind p) ->
  calc_normal_vector p n ksi = Ok (mag, un, q) ->
  jacobian_of p ksi (ent (p_jac q)) /\ List.length un = 2%nat /\
  let t i := ent (p_jac q) i 0 in
  mag = sqrt (t 0%nat ^ 2 + t 1%nat ^ 2) /\
  (0 < mag -> nth 0 un 0 ^ 2 + nth 1 un 0 ^ 2 = 1 /\ nth 0 un 0 * t 0%nat + nth 1 un 0 * t 1%nat = 0 /\
              nth 0 un 0 = - t 1%nat / mag /\ nth 1 un 0 = t 0%nat / mag) /\
  (mag = 0 -> un = [0; 0]).
Proof.
  intros p n ksi mag un q W S L H.
  destruct (normal_2d p n ksi mag un q W S L H) as (_ & _ & _ & J & Lu & M & A & B & U & Z).
  split; auto. split; auto. cbv zeta in *. split; auto. split; auto. intros Hm.
  rewrite (proj2 (Rltb_iff 0 mag) Hm) in A, B. split; auto.
  assert (E0 : nth 0 un 0 = - ent (p_jac q) 1 0 / mag) by (apply Rmult_eq_reg_l with mag; [rewrite A; field; lra|lra]).
  assert (E1 : nth 1 un 0 = ent (p_jac q) 0 0 / mag) by (apply Rmult_eq_reg_l with mag; [rewrite B; field; lra|lra]).
  split; [|auto]. rewrite E0, E1. field. lra.
Qed.
Print Assumptions C42_normal_2d.

(** normal of a surface in 3D: unit, orthogonal to both tangents t and s, right-handed, and the
    magnitude is the area of the parallelogram of the tangents *)
Theorem C42_normal_3d : forall p n ksi mag un q, pad_wf p -> p_space p = 3%nat -> List.length ksi = kind_ndim (p_kind p) ->
  calc_normal_vector p n ksi = Ok (mag, un, q) ->
  jacobian_of p ksi (ent (p_jac q)) /\ List.length un = 3%nat /\
  let t i := ent (p_jac q) i 0 in let s i := ent (p_jac q) i 1 in
  mag = sqrt (sum_n 3 (fun i => t i ^ 2) * sum_n 3 (fun i => s i ^ 2) - sum_n 3 (fun i => t i * s i) ^ 2) /\
  sum_n 3 (fun i => nth i un 0 * t i) = 0 /\ sum_n 3 (fun i => nth i un 0 * s i) = 0 /\
  (0 < mag -> sum_n 3 (fun i => nth i un 0 ^ 2) = 1 /\
     det 3 (fun i j => match j with 0%nat => t i | 1%nat => s i | _ => nth i un 0 end) = mag) /\
  (mag = 0 -> un = [0; 0; 0]).
Proof.
  intros p n ksi mag un q W S L H.
  destruct (normal_3d p n ksi mag un q W S L H) as (_ & _ & _ & J & Lu & M & A & B & D & U & Z).
  split; auto. split; auto. cbv zeta in *. split; auto. split; auto. split; auto. split; auto. intros Hm.
  rewrite (proj2 (Rltb_iff 0 mag) Hm) in D. auto.
Qed.
Print Assumptions C42_normal_3d.

(** it is defined exactly for lines in 2D and surfaces in 3D *)
Theorem C42_total : forall p ksi, pad_wf p ->
  (p_space p = kind_ndim (p_kind p) + 1 -> exists mag un q, calc_normal_vector p (p_space p) ksi = Ok (mag, un, q))%nat /\
  (p_space p <> kind_ndim (p_kind p) + 1 -> forall n, exists msg, calc_normal_vector p n ksi = Err msg)%nat.
Proof. intros p ksi W. split; intros H; [now apply normal_total|]. intros n. now apply normal_err. Qed.
Print Assumptions C42_total.
Definition lin_pad : pad := mkPad Lin2 2 [] [] [] [] [] [[1; 4]; [1; 5]] true.
Example C42_ex : pad_wf lin_pad /\ exists mag un q, calc_normal_vector lin_pad 2 [0] = Ok (mag, un, q) /\ 0 < mag.
Proof.
  split; [repeat split; simpl; auto|]. destruct (proj1 (C42_total lin_pad [0] ltac:(repeat split; simpl; auto)) eq_refl) as (mag & un & q & H).
  exists mag, un, q. split; auto.
  assert (W : pad_wf lin_pad) by (repeat split; simpl; auto).
  destruct (C42_normal_2d lin_pad 2 [0] mag un q W eq_refl eq_refl H) as (_ & _ & -> & _).
  apply sqrt_lt_R0. unfold calc_normal_vector in H. cbn -[ent mat_mul calc_deriv] in H. injection H as _ _ <-.
  cbn [p_jac with_jac].
  match goal with |- 0 < ?a ^ 2 + ?b ^ 2 => assert (E : a = 3/2) by numbers; rewrite E end.
  match goal with |- 0 < _ + ?b ^ 2 => pose proof (pow2_ge_0 b) end. lra.
Qed.

(** unlike calc_jacobian, calc_normal_vector accepts a pad whose coordinates were never set *)
Theorem C42_unset_refuted : exists p mag un q, pad_new 2 Lin2 = Ok p /\
  (forall zdet, exists msg, calc_jacobian zdet p [0] = Err msg) /\ calc_normal_vector p 2 [0] = Ok (mag, un, q).
Proof.
  eexists _, _, _, _. split; [reflexivity|]. split; [intros; eexists; reflexivity|reflexivity].
Qed.
Print Assumptions C42_unset_refuted.

(** C43: success means that the image of the result is within tol of x; the result is reached by
    Newton steps from the documented first guess, and the number of steps is returned *)
Theorem C43_residual : forall zdet p nk x nit_max tol it ksi q, 0 <= zdet -> pad_wf p ->
  approximate_ksi zdet p nk x nit_max tol = Ok (it, ksi, q) ->
  (it < nit_max)%nat /\ List.length ksi = nk /\ residual p ksi x <= tol /\ same_element p q.
Proof.
  intros. destruct (approximate_ksi_post zdet p nk x nit_max tol it ksi q) as (A & B & C & D & _); auto.
Qed.
Print Assumptions C43_residual.

Theorem C43_newton : forall zdet p nk x nit_max tol it ksi q, 0 <= zdet -> pad_wf p ->
  approximate_ksi zdet p nk x nit_max tol = Ok (it, ksi, q) ->
  exists z : nat -> list R, first_guess p x (z 0%nat) /\ z it = ksi /\
    forall s, (s < it)%nat -> tol < residual p (z s) x /\ newton_step p x (z s) (z (S s)).
Proof.
  intros. destruct (approximate_ksi_post zdet p nk x nit_max tol it ksi q) as (_ & _ & _ & _ & Z); auto.
Qed.
Print Assumptions C43_newton.

(** elements that are affine images of the reference element are inverted by at most one step *)
Theorem C43_affine : forall zdet p a b x nit_max tol, 0 <= zdet -> pad_wf p -> p_ok p = true ->
  kind_ndim (p_kind p) = p_space p -> affine_pad p a b -> zdet < Rabs (det (p_space p) a) ->
  List.length x = p_space p -> (2 <= nit_max)%nat -> 0 <= tol ->
  exists it ksi q, approximate_ksi zdet p (p_space p) x nit_max tol = Ok (it, ksi, q) /\ (it <= 1)%nat.
Proof. exact approximate_ksi_affine. Qed.
Print Assumptions C43_affine.
Example C43_affine_ex : exists a b, affine_pad (tri_pad true) a b /\ det 2 a = 6.
Proof.
  exists (fun i j => match i, j with 0%nat, 0%nat => 2 | 0%nat, _ => 1 | _, 0%nat => 0 | _, _ => 3 end), (fun _ => 0).
  split; [|simpl; lra]. intros i m Hi Hm. change (i < 2)%nat in Hi. change (m < 3)%nat in Hm.
  destruct i as [|[|i]]; [| |lia]; (destruct m as [|[|[|m]]]; [| | |lia]);
    unfold sum_n, node_x, ref_coords; numbers.
Qed.
Example C43_ex : exists it ksi q, approximate_ksi (1 / 1000) (tri_pad true) 2 [7; -5] 10 0 = Ok (it, ksi, q).
Proof.
  destruct C43_affine_ex as (a & b & A & D).
  destruct (C43_affine (1/1000) (tri_pad true) a b [7; -5] 10 0) as (it & ksi & q & H & _); auto; try lia; try lra.
  - apply tri_pad_wf.
  - change (p_space (tri_pad true)) with 2%nat. rewrite D. rewrite Rabs_pos_eq; lra.
  - eauto.
Qed.

(** C60: check_jacobian accepts exactly the meshes whose cells fit in the space and whose solid
    cells have a determinant above zdet at the point (1/3, 1/3, ..) *)
Theorem C60_check_jacobian : forall zdet m, 0 <= zdet -> consistent m -> coords_complete m ->
  (check_jacobian zdet m = Ok tt <->
   forall c, In c (cells m) -> (ndim m = 2 \/ ndim m = 3)%nat /\ (kind_ndim (c_kind c) <= ndim m)%nat /\
     (kind_ndim (c_kind c) = ndim m -> exists d, det_third m c d /\ zdet < d)) /\
  (check_jacobian zdet m = Ok tt \/ exists msg, check_jacobian zdet m = Err msg).
Proof. exact check_jacobian_iff. Qed.
Print Assumptions C60_check_jacobian.

Definition kite_pad (a : R) : pad := mkPad Qua4 2 [] [] [] [] [] [[0; 2; a; 0]; [0; 0; a; 2]] true.
Lemma kite_pad_wf a : pad_wf (kite_pad a).
Proof. repeat split; simpl; auto. Qed.
Lemma kite_element a : element_of (kite a) (mkCell 0 1%Z Qua4 [0; 1; 2; 3]%nat) (kite_pad a).
Proof.
  split; [apply kite_pad_wf|]. split; [reflexivity|]. split; [reflexivity|].
  intros n id pt i Hn Hp Hi. change (i < 2)%nat in Hi.
  destruct n as [|[|[|[|n]]]]; cbn in Hn; try (injection Hn as <-); cbn in Hp; try (injection Hp as <-);
    [| | | |destruct n; discriminate]; (destruct i as [|[|i]]; [| |lia]); reflexivity.
Qed.
Lemma kite_det a ksi : List.length ksi = 2%nat ->
  let r := nth 0 ksi 0 in let s := nth 1 ksi 0 in
  exists A, jacobian_of (kite_pad a) ksi A /\
    det 2 A = ((1 - s) * 2 + (1 + s) * a) / 4 * (((1 - r) * 2 + (1 + r) * a) / 4) - (1 + s) * (a - 2) / 4 * ((1 + r) * (a - 2) / 4).
Proof.
  intros L r s. exists (ent (mat_mul 2 (p_xxt (kite_pad a)) (calc_deriv Qua4 ksi))). split.
  - apply (jj_partial (kite_pad a)); [apply kite_pad_wf|rewrite L; apply le_n].
  - destruct ksi as [|r' [|s' [|? ?]]]; try discriminate. cbn in r, s. subst r s. unfold det, ent. cbn. unfold Q2R. simpl. field.
Qed.
Lemma kite_third a : det_third (kite a) (mkCell 0 1%Z Qua4 [0; 1; 2; 3]%nat) (2 / 3 * a - 1 / 3).
Proof.
  destruct (kite_det a [1/3; 1/3] eq_refl) as (A & J & E). exists (kite_pad a), A.
  split; [apply kite_element|]. split; [exact J|]. change (ndim (kite a)) with 2%nat. rewrite E. cbn [nth]. field.
Qed.
Example C60_ex : check_jacobian (1 / 1000) (kite 2) = Ok tt.
Proof.
  destruct (kite_ok 2) as (C & K). apply C60_check_jacobian; auto; [lra|].
  intros c [<-|[]]. cbn. split; auto. split; auto. intros _. exists (2 / 3 * 2 - 1 / 3). split; [apply kite_third|lra].
Qed.

(** a mesh that passes may contain a cell with a negative determinant somewhere in its interior *)
Theorem C60_everywhere_refuted : exists m c p ksi A, check_jacobian (1 / 1000) m = Ok tt /\ In c (cells m) /\
  element_of m c p /\ List.length ksi = 2%nat /\ (forall j, (j < 2)%nat -> -1 < nth j ksi 0 < 1) /\
  jacobian_of p ksi A /\ det 2 A < 0.
Proof.
  destruct (kite_ok (3/4)) as (C & K). destruct (kite_det (3/4) [9/10; 9/10] eq_refl) as (A & J & E).
  exists (kite (3/4)), (mkCell 0 1%Z Qua4 [0; 1; 2; 3]%nat), (kite_pad (3/4)), [9/10; 9/10], A.
  split.
  { apply C60_check_jacobian; auto; [lra|]. intros c [<-|[]]. cbn. split; auto. split; auto. intros _.
    exists (2 / 3 * (3/4) - 1 / 3). split; [apply kite_third|lra]. }
  split; [simpl; auto|]. split; [apply kite_element|]. split; [reflexivity|]. split.
  { intros j Hj. destruct j as [|[|j]]; [| |lia]; simpl; lra. }
  split; auto. rewrite E. cbn [nth]. lra.
Qed.
Print Assumptions C60_everywhere_refuted.
