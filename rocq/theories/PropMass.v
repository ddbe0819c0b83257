(* C106: mass matrices are regular; implicit time steps have exactly one solution *)
From Coquelicot Require Import Coquelicot.
From Coq Require Import String Reals List Lia Lra Bool Arith ZArith.
From Verif Require Import Base BaseFacts Kind MeshModel MeshQuerySpec TopoProof ShapesModel ShapesSpec PadModel PadSpec PadProof PadProof2 PadProof3 GaussModel GaussSpec GaussProof3 IntegModel IntegSpec
  IntegProof IntegProof2 IntegProof3 IntegProof6 IntegProof9 IntegProof10 PadProof4 BalanceSpec BalanceProof BalanceProof2 PatchSpec PatchProof3 PatchProof4 UniqueSpec LinearProof MassSpec MassProof PropInteg PropPatch PropUnique.
Import ListNotations.
Local Open Scope list_scope.
Local Open Scope R_scope.

(** the matrix of a positive density is positive definite, for all kinds of cells and all rules with at least as many points as nodes *)
Theorem C106_definite : forall zdet A n nr nc kk fn kk' q, 0 <= zdet -> pad_wf (a_pad A) -> is_matrix nr nc kk ->
  gauss_new_sized (kind_class (p_kind (a_pad A))) n = Ok (a_gauss A) -> (a_nnode A <= n)%nat -> sound_volumes A ->
  (forall p nn bb s, fn p nn bb = Ok s -> 0 < s) -> mat_01_nsn zdet A kk fn = Ok (kk', q) -> positive_definite (a_nnode A) (mat_added A kk kk').
Proof. intros zdet A n nr nc kk fn kk' q Hz W. exact (mass_definite zdet A Hz W n nr nc kk fn kk' q). Qed.
Print Assumptions C106_definite.

(** also if the density is a positive definite tensor (vector-valued unknowns) *)
Theorem C106_tensor : forall zdet A n nr nc kk fn kk' q, 0 <= zdet -> pad_wf (a_pad A) -> is_matrix nr nc kk ->
  gauss_new_sized (kind_class (p_kind (a_pad A))) n = Ok (a_gauss A) -> (a_nnode A <= n)%nat -> sound_volumes A ->
  (forall p nn bb T, fn p nn bb = Ok T -> positive_definite (p_space (a_pad A)) (tensor2 T)) -> mat_08_ntn zdet A kk fn = Ok (kk', q) ->
  positive_definite (a_nnode A * p_space (a_pad A)) (mat_added A kk kk').
Proof.
  intros zdet A n nr nc kk fn kk' q Hz W. apply (mass_tensor_definite zdet A Hz W n nr nc kk fn kk' q). destruct W as ([-> | ->] & _); lia.
Qed.
Print Assumptions C106_tensor.

(** with fewer points than nodes the matrix is singular *)
Theorem C106_singular : forall zdet A nr nc kk fn kk' q, 0 <= zdet -> pad_wf (a_pad A) -> is_matrix nr nc kk ->
  (npoint (a_gauss A) < a_nnode A)%nat -> mat_01_nsn zdet A kk fn = Ok (kk', q) -> singular (a_nnode A) (mat_added A kk kk').
Proof. intros zdet A nr nc kk fn kk' q Hz W. exact (mass_singular zdet A Hz W nr nc kk fn kk' q). Qed.
Print Assumptions C106_singular.

(** the default rules have enough points and positive weights, but for the quadrilateral with 17 nodes *)
Theorem C106_default : forall zdet A nr nc kk fn kk' q, 0 <= zdet -> pad_wf (a_pad A) -> is_matrix nr nc kk ->
  a_gauss A = gauss_new (p_kind (a_pad A)) -> p_kind (a_pad A) <> Qua17 ->
  0 < a_alpha A -> (a_axi A = true -> forall p, (p < npoint (a_gauss A))%nat -> 0 < r_of A p) -> positive_jacobian A ->
  (forall p nn bb s, fn p nn bb = Ok s -> 0 < s) -> mat_01_nsn zdet A kk fn = Ok (kk', q) -> positive_definite (a_nnode A) (mat_added A kk kk').
Proof.
  intros zdet A nr nc kk fn kk' q Hz W M G Ne Ha Hr Pj Ps. apply (mass_definite zdet A Hz W (default_size (p_kind (a_pad A))) nr nc kk fn kk' q M); auto.
  - rewrite G. apply default_sized.
  - now apply default_enough.
  - split; [exact Ha|]. split; [|split; [exact Hr|exact Pj]]. rewrite G. intros p. apply default_positive.
Qed.
Print Assumptions C106_default.

(* the reference cell as an element *)
Definition model_pad (k : geokind) : pad :=
  mkPad k (kind_ndim k) (repeat 0 (kind_nnode k)) (zeros (kind_nnode k) (kind_ndim k)) (zeros (kind_ndim k) (kind_ndim k)) (zeros (kind_ndim k) (kind_ndim k))
    (zeros (kind_nnode k) (kind_ndim k)) (map (fun i => map (fun m => nth i (ref_coords k m) 0) (seq 0 (kind_nnode k))) (seq 0 (kind_ndim k))) true.
Definition model_args (k : geokind) : args := mkArgs (model_pad k) (gauss_new k) true false 1 0 0.
Lemma solid_dim k : (2 <= kind_ndim k)%nat -> kind_ndim k = 2%nat \/ kind_ndim k = 3%nat.
Proof. destruct k; vm_compute; intros H; try (now left); try (now right); lia. Qed.
Lemma model_wf k : (2 <= kind_ndim k)%nat -> pad_wf (model_pad k).
Proof.
  intros H. split; [exact (solid_dim k H)|]. split; [apply le_n|]. split; [cbn; now rewrite map_length, seq_length|].
  apply Forall_forall. intros r Hr. cbn in Hr. apply in_map_iff in Hr as (i & <- & _). now rewrite map_length, seq_length.
Qed.
Lemma model_det k p J : (2 <= kind_ndim k)%nat -> jacobian_of (model_pad k) (ksi_at (model_args k) p) J -> det (kind_ndim k) J = 1.
Proof.
  intros H HJ. assert (Af : affine_pad (model_pad k) (fun i j => if (i =? j)%nat then 1 else 0) (fun _ => 0)).
  { intros i m Hi Hm. cbn [model_pad p_space p_kind] in *. unfold node_x. cbn [p_xxt model_pad]. rewrite !nth_map_seq by auto.
    rewrite (sum_n_ext _ _ (fun j => delta i j * nth j (ref_coords k m) 0)) by (intros; unfold delta; destruct (Nat.eqb_spec i i0); auto; lia).
    rewrite sum_n_delta by auto. ring. }
  assert (L : List.length (ksi_at (model_args k) p) = kind_ndim k) by (unfold ksi_at; now rewrite map_length, seq_length).
  pose proof (affine_jacobian _ _ _ _ (model_wf k H) Af L) as J0.
  assert (E : forall i j, (i < kind_ndim k)%nat -> (j < kind_ndim k)%nat -> J i j = if (i =? j)%nat then 1 else 0).
  { intros i j Hi Hj. exact (jacobian_unique _ _ _ _ i j HJ J0 Hi Hj). }
  pose proof (solid_dim k H) as D.
  destruct D as [D|D]; rewrite D in *; cbn [det]; rewrite !E by lia; cbn [Nat.eqb]; ring.
Qed.
Lemma model_ok k p : (2 <= kind_ndim k)%nat -> grad_ok (1 / 1000) (model_args k) p.
Proof.
  intros H. split; [reflexivity|]. split; [reflexivity|]. intros J HJ. cbn [model_args a_pad model_pad p_space]. rewrite (model_det k p J H HJ), Rabs_R1. lra.
Qed.
Lemma model_run k : (2 <= kind_ndim k)%nat -> exists kk' q, mat_01_nsn (1 / 1000) (model_args k) (zeros (kind_nnode k) (kind_nnode k)) (fun _ _ _ => Ok 1) = Ok (kk', q).
Proof.
  intros H. destruct (proj2 (proj1 (C67_mat_01 (1 / 1000) (model_args k) (kind_nnode k) (kind_nnode k) (zeros (kind_nnode k) (kind_nnode k)) (fun _ _ _ => Ok 1)
    ltac:(lra) (model_wf k H) (zeros_matrix _ _)) ltac:(eauto))) as ([kk' q] & E); [|eauto].
  split; [apply le_n|]. split; [apply le_n|]. intros p _. now apply model_ok.
Qed.
Example C106_ex : forall k, (2 <= kind_ndim k)%nat -> pad_wf (model_pad k) /\ sound_volumes (model_args k) /\ positive_definite (kind_ndim k) (tensor2 [1; 1; 1; 0; 0; 0]) /\
  (exists kk' q, mat_01_nsn (1 / 1000) (model_args k) (zeros (kind_nnode k) (kind_nnode k)) (fun _ _ _ => Ok 1) = Ok (kk', q)) /\
  let n := (kind_nnode k * kind_ndim k)%nat in exists kk' q, mat_08_ntn (1 / 1000) (model_args k) (zeros n n) (fun _ _ _ => Ok [1; 1; 1; 0; 0; 0]) = Ok (kk', q).
Proof.
  intros k H. split; [now apply model_wf|]. split; [|split; [|split; [now apply model_run|]]].
  - split; [cbn; lra|]. split; [intros p; apply default_positive|]. split; [discriminate|]. intros p J _ HJ. cbn [model_args a_pad model_pad p_space]. rewrite (model_det k p J H HJ). lra.
  - intros u (i & Hi & Nu). pose proof (solid_dim k H) as D.
    assert (Sq : forall x, 0 <= x * x) by (intros; nra).
    destruct D as [D|D]; rewrite D in *; unfold quad_form, sum_n, sum, tensor2; cbn.
    + pose proof (Sq (u 0%nat)). pose proof (Sq (u 1%nat)). destruct i as [|[|i]]; [| |lia]; pose proof (Rsqr_pos_lt _ Nu) as S; unfold Rsqr in S; lra.
    + pose proof (Sq (u 0%nat)). pose proof (Sq (u 1%nat)). pose proof (Sq (u 2%nat)). destruct i as [|[|[|i]]]; [| | |lia]; pose proof (Rsqr_pos_lt _ Nu) as S; unfold Rsqr in S; lra.
  - cbv zeta. set (n := (kind_nnode k * kind_ndim k)%nat).
    destruct (proj2 (proj1 (C67_mat_08 (1 / 1000) (model_args k) n n (zeros n n) (fun _ _ _ => Ok [1; 1; 1; 0; 0; 0]) ltac:(lra) (model_wf k H) (zeros_matrix _ _)) ltac:(eauto))) as ([kk' q] & E); [|eauto].
    repeat split; try apply le_n; try discriminate; try (intros p _; now apply model_ok); try (now apply model_ok).
Qed.

(** the default rule of the quadrilateral with 17 nodes has 16 points: its mass matrix is singular *)
Theorem C106_qua17_refuted : exists A kk kk' q, pad_wf (a_pad A) /\ p_kind (a_pad A) = Qua17 /\ is_matrix 17 17 kk /\ a_gauss A = gauss_new Qua17 /\ sound_volumes A /\
  mat_01_nsn (1 / 1000) A kk (fun _ _ _ => Ok 1) = Ok (kk', q) /\ singular (a_nnode A) (mat_added A kk kk') /\ ~ positive_definite (a_nnode A) (mat_added A kk kk').
Proof.
  assert (H : (2 <= kind_ndim Qua17)%nat) by (apply le_n). destruct (C106_ex Qua17 H) as (W & Sv & _ & (kk' & q & R) & _).
  exists (model_args Qua17), (zeros 17 17), kk', q. split; [exact W|]. split; [reflexivity|]. split; [apply zeros_matrix|]. split; [reflexivity|]. split; [exact Sv|]. split; [exact R|].
  assert (S : singular (a_nnode (model_args Qua17)) (mat_added (model_args Qua17) (zeros 17 17) kk')).
  { apply (C106_singular (1 / 1000) _ 17 17 _ (fun _ _ _ => Ok 1) _ q); [lra|exact W|apply zeros_matrix| |exact R]. apply Nat.ltb_lt. vm_compute. reflexivity. }
  split; [exact S|]. intros P. destruct S as (u & Nu & Z). specialize (P u Nu). unfold quad_form in P. rewrite sum_n_zero in P; [lra|].
  intros k Hk. rewrite (sum_n_ext _ _ (fun l => u k * (mat_added (model_args Qua17) (zeros 17 17) kk' k l * u l))) by (intros; ring). rewrite sum_n_scal, Z by auto. ring.
Qed.
Print Assumptions C106_qua17_refuted.

(** an implicit time step: (a M + b K) u = f, with prescribed values at any points (also none), has exactly one solution on all meshes of all kinds of cells,
    where M is assembled from mass matrices and K from conductivity matrices *)
Theorem C106_step : forall m zdet A B mm mm' kk kk' a b fixed g f, consistent m -> 0 <= zdet -> 0 < a -> 0 <= b -> let nd := MeshModel.ndim m in
  (forall c, In c (of_dim nd m) -> let k := c_id c in storing zdet c (A k) (mm k) (mm' k) /\ spreading zdet c (B k) (kk k) (kk' k)) ->
  (forall P, (P < List.length (points m))%nat -> exists c, In c (of_dim nd m) /\ In P (c_points c)) ->
  let solves u := forall P, (P < List.length (points m))%nat -> if fixed P : bool then u P = g P else a * nodal_heat m A mm mm' u P + b * nodal_heat m B kk kk' u P = f P in
  (exists u, solves u) /\ forall u v, solves u -> solves v -> forall P, (P < List.length (points m))%nat -> u P = v P.
Proof.
  intros m zdet A B mm mm' kk kk' a b fixed g f C Hz Ha Hb nd St All solves. split.
  - exact (step_exists m zdet A B mm mm' kk kk' a b C Hz Ha Hb St All fixed g f).
  - intros u v Hu Hv. apply (step_injective m zdet A B mm mm' kk kk' a b C Hz Ha Hb St All u v fixed).
    intros P HP. specialize (Hu P HP). specialize (Hv P HP). unfold stepped. destruct (fixed P); congruence.
Qed.
Print Assumptions C106_step.
Lemma fan_det k c p J : nth_error (cells fan) k = Some c -> jacobian_of (fan_pad k) (ksi_at (fan_args k) p) J -> det 2 J = 1 / 2.
Proof.
  intros Hn HJ. destruct fan_ok as (C & K). assert (Kc : c_kind c = Tri3) by (do 4 (destruct k as [|k]; [injection Hn as <-; reflexivity|]); destruct k; discriminate Hn).
  destruct (get_pad_ok fan k c C K (or_introl eq_refl) Hn) as (pd & E & El & Okp); [rewrite Kc; apply le_n|]. unfold fan_args, fan_pad in HJ. rewrite E in HJ.
  pose proof El as (W & Ek & Es & _). rewrite Kc in Ek. change (MeshModel.ndim fan) with 2%nat in Es.
  assert (L : List.length (ksi_at (fan_args k) p) = 2%nat) by (unfold ksi_at, fan_args, fan_pad; cbn [a_pad]; rewrite E, map_length, seq_length, Ek; reflexivity).
  pose proof (tri3_det pd (ksi_at (fan_args k) p) (det 2 J) W Ek Es L) as T. rewrite T.
  - destruct C as (_ & C2). destruct (C2 k c Hn) as (_ & _ & B). pose proof (fun i j Hj Hi => element_x fan c pd j i El Hj B Hi) as X.
    do 4 (destruct k as [|k]; [injection Hn as <-; rewrite !X by (apply Nat.ltb_lt; reflexivity); cbn; lra|]); destruct k; discriminate Hn.
  - unfold fan_args, fan_pad. rewrite E. exists J. rewrite Ek, Es. split; [exact HJ|]. split; [reflexivity|]. split; [discriminate|]. cbn. lia.
Qed.
Example C106_step_ex : consistent fan /\ (forall P, (P < List.length (points fan))%nat -> exists c, In c (of_dim 2 fan) /\ In P (c_points c)) /\
  forall c, In c (of_dim 2 fan) -> (exists mm', storing (1 / 1000) c (fan_args (c_id c)) (zeros 3 3) mm') /\ exists kk', spreading (1 / 1000) c (fan_args (c_id c)) (zeros 3 3) kk'.
Proof.
  destruct C105_ex as (C & K & Sm & _ & Ds & _ & Al & X). split; auto. split; auto. intros c Hc. destruct (X c Hc) as (_ & kk' & q & Cd).
  assert (Kc : c_kind c = Tri3) by (repeat (destruct Hc as [<-|Hc]; [reflexivity|]); destruct Hc).
  pose proof Hc as Hc'. apply filter_In in Hc' as (Ic & _). destruct (fan_grad (c_id c) c (cell_by_id fan c C Ic)) as (E1 & W & Ek & Es & G).
  assert (Sv : sound_volumes (fan_args (c_id c))).
  { split; [cbn; lra|]. split; [intros p; apply (default_positive Tri3)|]. split; [discriminate|]. intros p J _ HJ. change (a_pad (fan_args (c_id c))) with (fan_pad (c_id c)). rewrite Es.
    rewrite (fan_det (c_id c) c p J (cell_by_id fan c C Ic) HJ). lra. }
  split.
  - destruct (proj2 (proj1 (C67_mat_01 (1 / 1000) (fan_args (c_id c)) 3 3 (zeros 3 3) (fun _ _ _ => Ok 1) ltac:(lra) W (zeros_matrix 3 3)) ltac:(eauto))) as ([mm' q'] & H).
    { unfold a_nnode. cbn [fan_args a_pad a_ii0 a_jj0]. rewrite Ek. split; [apply le_n|]. split; [apply le_n|]. intros p _; apply G. }
    exists mm', 3%nat, 3%nat, 3%nat, (fun _ _ _ => Ok 1), q'. rewrite Kc. split; [exact W|]. split; [exact Ek|]. split; [apply zeros_matrix|]. split; [reflexivity|]. split; [apply le_n|].
    split; [exact Sv|]. split; [intros p nn bb s [= <-]; lra|exact H].
  - destruct Cd as (_ & _ & _ & _ & _ & H). destruct Sv as (Ha & Hw & Hr & Pj).
    exists kk', 3%nat, 3%nat, (fun _ _ _ => Ok [1; 1; 0; 0]), q. rewrite Kc. split; [exact W|]. split; [exact Ek|]. split; [apply zeros_matrix|].
    split; [split; [lra|]; split; [intros p Hp; left; now apply Hw|intros Ax p Hp; left; now apply Hr]|]. split; [exact Pj|]. split; [|exact H].
    intros p nn bb T [= <-]. change (a_pad (fan_args (c_id c))) with (fan_pad (c_id c)). rewrite Es. intros u. unfold quad_form, sum_n, sum, tensor2. cbn. pose proof (Rle_0_sqr (u 0%nat)). pose proof (Rle_0_sqr (u 1%nat)). unfold Rsqr in *. lra.
Qed.
