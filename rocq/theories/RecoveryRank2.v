(* The interpolation matrices have full rank, except for five rules. *)
From Coq Require Import Reals List Arith Lia Lra Bool ZArith QArith Qreals.
From Verif Require Import Base BaseFacts Kind Expr ExprProof ShapesModel ShapesSpec ShapesProof PadModel PadSpec PadProof GaussModel GaussSpec GaussProof GaussProof2 GaussProof3 IntegProof
  RecoverySpec RecoveryProof RecoveryCert RecoveryRank.
Import ListNotations.
Local Open Scope list_scope.
Local Open Scope R_scope.

Definition row0 : Z * Z * Z * Z := (0, 0, 0, 0)%Z.
Definition zmax (l : list Z) : Z := fold_right Z.max 0%Z l.
Lemma zmax_in l x : In x l -> (x <= zmax l)%Z.
Proof. unfold zmax. induction l as [|y l IH]; cbn [fold_right]; intros []; [subst; lia|]. specialize (IH H). lia. Qed.
(* columns of the selected matrix: points x nodes, or nodes x points *)
Definition right_cols (ps : list zpoly) (data : list (Z * Z * Z * Z)) (sel : list nat) : list (list Z) :=
  let ws := map (fun i => pows 4 (nth i data row0)) sel in map (fun p => map (zeval p) ws) ps.
Definition left_cols (ps : list zpoly) (data : list (Z * Z * Z * Z)) (sel : list nat) : list (list Z) :=
  let qs := map (fun i => nth i ps []) sel in map (fun r => let w := pows 4 r in map (fun q => zeval q w) qs) data.
Definition rank_scale (k : geokind) : Z := (4096 * (Zpos (common k) * sfx))%Z.
Definition rank_check (k : geokind) (ps : list zpoly) (n : nat) : bool :=
  match gauss_new_sized (kind_class k) n with
  | Ok g =>
      let '(sel, ls) := cert k n in
      let e := zmax (map zerr ps) in
      let nv := kind_nnode k in
      (forallb row_small (g_data g) && (npoint g =? n) &&
       if nv <=? n then forallb (fun i => i <? n) sel && (List.length sel =? nv) && mat_check (rank_scale k) e nv (right_cols ps (g_data g) sel) ls
       else forallb (fun i => i <? nv) sel && (List.length sel =? n) && mat_check (rank_scale k) e n (left_cols ps (g_data g) sel) ls)%nat
  | _ => false
  end.
Definition kind_rank_check (k : geokind) : bool :=
  let ps := zpolys k in
  forallb (fun n => (n =? 1)%nat || dependent_rule k n || rank_check k ps n) (rule_sizes (kind_class k)).
Definition all_kinds := [Lin2; Lin3; Lin4; Lin5; Tri3; Tri6; Tri10; Tri15; Qua4; Qua8; Qua9; Qua12; Qua16; Qua17; Tet4; Tet10; Tet20; Hex8; Hex20; Hex32].
Lemma ranks_checked : forallb kind_rank_check all_kinds = true.
Proof. vm_compute. reflexivity. Qed.
Lemma rank_checked k n : In n (rule_sizes (kind_class k)) -> n <> 1%nat -> dependent_rule k n = false -> rank_check k (zpolys k) n = true.
Proof.
  intros I N D. pose proof ranks_checked as H. rewrite forallb_forall in H. specialize (H k ltac:(destruct k; simpl; tauto)).
  unfold kind_rank_check in H. cbv zeta in H. rewrite forallb_forall in H. specialize (H n I). rewrite D, orb_false_r in H.
  apply orb_true_iff in H as [H|H]; auto. apply Nat.eqb_eq in H. contradiction.
Qed.

Lemma pt_row g p : (p < npoint g)%nat -> let '(x, y, z, _) := nth p (g_data g) row0 in pt g p 0 = f64 x /\ pt g p 1 = f64 y /\ pt g p 2 = f64 z.
Proof.
  intros H. unfold npoint in H. unfold pt, g_coords. rewrite (get_ok (g_data g) p row0) by auto. cbn [bind]. destruct (nth p (g_data g) row0) as [[[x y] z] w]. auto.
Qed.
Lemma interp_N k g p m : (p < npoint g)%nat -> nth m (calc_interp k (ksi_of k g p)) 0 = N_at k m (pt g p 0) (pt g p 1) (pt g p 2).
Proof.
  intros H. rewrite <- interp_of'. unfold N_at. f_equal. rewrite !interp_of'. unfold ksi_of. change [pt g p 0; pt g p 1; pt g p 2] with (map (pt g p) (seq 0 3)).
  destruct k; reflexivity.
Qed.
Lemma entry_near k g p m : forallb row_small (g_data g) = true -> (p < npoint g)%nat -> (m < kind_nnode k)%nat ->
  Rabs (IZR (zeval (nth m (zpolys k) []) (pows 4 (nth p (g_data g) row0))) - nth m (calc_interp k (ksi_of k g p)) 0 * (IZR (Zpos (common k)) * IZR sfx))
    <= IZR (zmax (map zerr (zpolys k))).
Proof.
  intros F Hp Hm. rewrite interp_N by auto. rewrite forallb_forall in F. pose proof (pt_row g p Hp) as P.
  specialize (F (nth p (g_data g) row0) ltac:(apply nth_In; exact Hp)). destruct (nth p (g_data g) row0) as [[[x y] z] w].
  destruct P as (-> & -> & ->). destruct (zpolys_eval k m (f64 x) (f64 y) (f64 z) Hm) as [E D].
  pose proof (zeval_near 4 _ x y z w F D) as N. rewrite E in N.
  replace (N_at k m (f64 x) (f64 y) (f64 z) * (IZR (Z.pos (common k)) * IZR sfx)) with (IZR (Z.pos (common k)) * N_at k m (f64 x) (f64 y) (f64 z) * IZR sfx) by ring.
  eapply Rle_trans; [exact N|]. apply IZR_le, zmax_in, in_map, nth_In.
  unfold zpolys, npolys. rewrite !map_length. replace (List.length (kind_interp k)) with (kind_nnode k) by (destruct k; reflexivity). exact Hm.
Qed.
Lemma zpolys_length k : List.length (zpolys k) = kind_nnode k.
Proof. unfold zpolys, npolys. rewrite !map_length. destruct k; reflexivity. Qed.

Theorem right_rank k n g u : gauss_new_sized (kind_class k) n = Ok g -> dependent_rule k n = false -> (kind_nnode k <= n)%nat ->
  (forall p, (p < n)%nat -> sum_n (kind_nnode k) (fun m => nth m (calc_interp k (ksi_of k g p)) 0 * u m) = 0) ->
  forall m, (m < kind_nnode k)%nat -> u m = 0.
Proof.
  intros G D L Z0. destruct (sized_in _ _ _ G) as [I _].
  assert (N1 : n <> 1%nat) by (intros ->; destruct k; vm_compute in L; lia).
  pose proof (rank_checked k n I N1 D) as R. unfold rank_check in R. rewrite G in R. destruct (cert k n) as [sel ls] eqn:EC.
  rewrite (proj2 (Nat.leb_le _ _) L) in R. rewrite !andb_true_iff, !Nat.eqb_eq in R. destruct R as ((F & Np) & (Fs & Ls) & MC).
  rewrite forallb_forall in Fs.
  assert (S : forall l, (l < kind_nnode k)%nat -> (nth l sel 0 < n)%nat) by (intros l Hl; apply Nat.ltb_lt, Fs, nth_In; lia).
  apply (cert_trivial _ (IZR (Zpos (common k)) * IZR sfx) _ _ _ _ (fun l j => nth j (calc_interp k (ksi_of k g (nth l sel 0%nat))) 0) u MC).
  - intros l j Hl Hj. unfold right_cols. cbv zeta. rewrite (nth_map_in _ (zpolys k) j []) by (rewrite zpolys_length; auto).
    rewrite map_map. rewrite (nth_map_in _ sel l 0%nat) by lia. apply entry_near; auto. rewrite Np. auto.
  - intros l Hl. apply Z0. auto.
Qed.
Theorem left_rank k n g u : gauss_new_sized (kind_class k) n = Ok g -> dependent_rule k n = false -> n <> 1%nat -> (n < kind_nnode k)%nat ->
  (forall m, (m < kind_nnode k)%nat -> sum_n n (fun p => nth m (calc_interp k (ksi_of k g p)) 0 * u p) = 0) ->
  forall p, (p < n)%nat -> u p = 0.
Proof.
  intros G D N1 L Z0. destruct (sized_in _ _ _ G) as [I _].
  pose proof (rank_checked k n I N1 D) as R. unfold rank_check in R. rewrite G in R. destruct (cert k n) as [sel ls] eqn:EC.
  rewrite (proj2 (Nat.leb_gt _ _) L) in R. rewrite !andb_true_iff, !Nat.eqb_eq in R. destruct R as ((F & Np) & (Fs & Ls) & MC).
  rewrite forallb_forall in Fs.
  assert (S : forall l, (l < n)%nat -> (nth l sel 0 < kind_nnode k)%nat) by (intros l Hl; apply Nat.ltb_lt, Fs, nth_In; lia).
  apply (cert_trivial _ (IZR (Zpos (common k)) * IZR sfx) _ _ _ _ (fun l j => nth (nth l sel 0%nat) (calc_interp k (ksi_of k g j)) 0) u MC).
  - intros l j Hl Hj. unfold left_cols. cbv zeta. rewrite (nth_map_in _ (g_data g) j row0) by (unfold npoint in Np; lia).
    rewrite map_map. rewrite (nth_map_in _ sel l 0%nat) by lia. apply entry_near; auto. rewrite Np. auto.
  - intros l Hl. apply Z0. auto.
Qed.
