(* The entries computed by each function (mat_10_bdb apart). *)
From Coq Require Import String Reals List Lia Lra Bool Arith.
From Verif Require Import Base BaseFacts Expr ShapesData Kind ShapesModel ShapesSpec ShapesProof GeomModel GeomProof PadModel PadSpec
  PadProof PadProof2 PadProof3 GaussModel GaussSpec IntegModel IntegSpec IntegProof IntegProof2.
Import ListNotations.
Local Open Scope R_scope.

Lemma flat_map_seq {E} (f g : nat -> list E) n : (forall m, (m < n)%nat -> f m = g m) -> flat_map f (seq 0 n) = flat_map g (seq 0 n).
Proof. intros H. rewrite !flat_map_concat_map. f_equal. apply map_ext_in. intros m Hm. apply in_seq in Hm. apply H. lia. Qed.
Lemma map_flat {E} (f : nat -> E) l : map f l = flat_map (fun m => [f m]) l.
Proof. induction l; cbn [map flat_map app]; congruence. Qed.
Lemma cons_v (i j : nat) (x y : R) l l' : i = j -> x = y -> l = l' -> (i, x) :: l = (j, y) :: l'.
Proof. congruence. Qed.
Lemma cons_m (i j i' j' : nat) (x y : R) l l' : i = i' -> j = j' -> x = y -> l = l' -> ((i, j), x) :: l = ((i', j'), y) :: l'.
Proof. congruence. Qed.
Lemma s2_pos : sqrt 2 <> 0.
Proof. assert (0 < sqrt 2) by (apply sqrt_lt_R0; lra). lra. Qed.
Lemma kk_check_ok A kk a b t nr nc : kk_check A kk a b = Ok t -> is_matrix nr nc kk -> (0 < a)%nat ->
  (a_ii0 A + a <= nr)%nat /\ (a_jj0 A + b <= nc)%nat /\ (0 < nr)%nat.
Proof.
  unfold kk_check. intros H M Ha. destruct (Nat.ltb_spec (nrow kk) (a_ii0 A + a)) as [|Lr]; [discriminate|].
  destruct (Nat.ltb_spec (ncol kk) (a_jj0 A + b)) as [|Lc]; [discriminate|].
  assert (nrow kk = nr) by (destruct M; auto). destruct (is_matrix_dims _ _ _ M); [lia|]. lia.
Qed.
Lemma kk_check_cases A kk a b nr nc : is_matrix nr nc kk -> (0 < a)%nat ->
  (((a_ii0 A + a <= nr)%nat /\ (a_jj0 A + b <= nc)%nat) /\ (0 < nr)%nat /\ kk_check A kk a b = Ok tt) \/
  (~ ((a_ii0 A + a <= nr)%nat /\ (a_jj0 A + b <= nc)%nat) /\ exists msg, kk_check A kk a b = Err msg).
Proof.
  unfold kk_check. intros M Ha. assert (En : nrow kk = nr) by (destruct M; auto).
  destruct (Nat.ltb_spec (nrow kk) (a_ii0 A + a)) as [|Lr]; [right; split; [lia|eauto]|].
  destruct (is_matrix_dims _ _ _ M) as (_ & Ec); [lia|].
  destruct (Nat.ltb_spec (ncol kk) (a_jj0 A + b)) as [|Lc]; [right; split; [lia|eauto]|]. left. repeat split; auto; lia.
Qed.
Lemma space23 p : pad_wf p -> p_space p = 2%nat \/ p_space p = 3%nat.
Proof. intros (H & _). exact H. Qed.
Lemma nnode_pos k : (0 < kind_nnode k)%nat.
Proof. destruct k; vm_compute; lia. Qed.

Ltac two_vals := unfold tensor2, mandel_index, mandel_factor, vat, ent; cbn [Nat.eqb]; rewrite ?sum2, ?sum3; cbv beta; cbn [Nat.eqb];
  try (field; exact s2_pos).
Ltac v_items := cbn [seq map flat_map app]; repeat (apply cons_v; [lia| |]); try reflexivity.
Ltac m_items := cbn [seq map flat_map app]; repeat (apply cons_m; [lia|lia| |]); try reflexivity.

Lemma bry_cases A : pad_wf (a_pad A) ->
  (p_space (a_pad A) = kind_ndim (p_kind (a_pad A)) + 1 /\ bry_check A = Ok tt)%nat \/
  (p_space (a_pad A) <> kind_ndim (p_kind (a_pad A)) + 1 /\ exists msg, bry_check A = Err msg)%nat.
Proof.
  intros W. unfold bry_check, a_space, p_geo. destruct (space23 _ W) as [E|E]; rewrite E; cbn [Nat.eqb andb].
  - destruct (Nat.eqb_spec (kind_ndim (p_kind (a_pad A))) 1); cbn [negb]; [left|right]; split; eauto; lia.
  - destruct (Nat.eqb_spec (kind_ndim (p_kind (a_pad A))) 2); cbn [negb]; [left|right]; split; eauto; lia.
Qed.

Section Forms.
Variables (zdet : R) (A : args).
Hypothesis Hz : 0 <= zdet.
Hypothesis W : pad_wf (a_pad A).
Notation np := (npoint (a_gauss A)).
Notation nd := (p_space (a_pad A)).
Notation nnode := (a_nnode A).
Notation grad_at d B p := (gradient_at (a_pad A) (ksi_at A p) (d p) (B p)).
Notation meas_at d p := (measure_at (a_pad A) (ksi_at A p) (d p)).
Notation norm_at d u p := (normal_at (a_pad A) (ksi_at A p) (d p) (u p)).

(* results of the functions *)
Lemma vec_01_run a fn : run_spec ((a_ii0 A + nnode <= List.length a)%nat) (loop_spec (fun p _ nn _ => fn p nn) A (fun p x => measure_at (a_pad A) (ksi_at A p) x) (jac_ok zdet A)
    (fun x y a' => vec_result A a a' nnode 1 (fun m i => integral A (fun p => (fun p x s m _ => dvol A (fun _ => x) p * s * N_of A p m) p (x p) (y p) m i)))) (vec_01_ns zdet A a fn).
Proof.
  unfold vec_01_ns.
  destruct (Nat.ltb_spec (List.length a) (a_ii0 A + nnode)) as [Lt|L]; [right; split; [lia|eauto]|].
  left. split; [repeat split; auto; lia|].
  apply (vec_loop 0 0 _ (fun p _ nn _ => fn p nn) A _ _ (jac_eval_spec zdet A Hz W) _
    (fun p x s m _ => dvol A (fun _ => x) p * s * N_of A p m)); [|lia].
  intros p x pd st Hp SE. cbn [fst snd].
  destruct (fn p _) as [s| | |]; try reflexivity. cbn [bind].
  f_equal. rewrite map_flat. apply flat_map_seq. intros m Hm. v_items.
  rewrite coef_at by auto. unfold dvol, N_of, vat. ring.
Qed.
Lemma vec_01_bry_run a fn : run_spec (p_space (a_pad A) = (kind_ndim (p_kind (a_pad A)) + 1)%nat /\ (a_ii0 A + nnode <= List.length a)%nat) (loop_spec (fun p _ nn x => fn p (snd x) nn) A (fun p x => normal_at (a_pad A) (ksi_at A p) (fst x) (snd x)) (fun _ => True)
    (fun x y a' => vec_result A a a' nnode 1 (fun m i => integral A (fun p => (fun p x s m _ => dvol A (fun _ => fst x) p * s * N_of A p m) p (x p) (y p) m i)))) (vec_01_ns_bry A a fn).
Proof.
  unfold vec_01_ns_bry.
  destruct (bry_cases A W) as [(Sp & Eb)|(Sp & msg & Eb)]; rewrite Eb; cbn [bind]; [|right; split; [tauto|eauto]].
  destruct (Nat.ltb_spec (List.length a) (a_ii0 A + nnode)) as [Lt|L]; [right; split; [lia|eauto]|].
  left. split; [repeat split; auto; lia|].
  apply (vec_loop (0, []) 0 _ (fun p _ nn x => fn p (snd x) nn) A _ _ (normal_eval_spec A W Sp) _
    (fun p x s m _ => dvol A (fun _ => fst x) p * s * N_of A p m)); [|lia].
  intros p [mg un] pd st Hp SE. cbn [fst snd].
  destruct (fn p _ _) as [s| | |]; try reflexivity. cbn [bind].
  f_equal. rewrite map_flat. apply flat_map_seq. intros m Hm. v_items.
  rewrite coef_at by auto. unfold dvol, N_of, vat. ring.
Qed.
Lemma nv_block ii0 N c nn v V : (nd = 2 \/ nd = 3)%nat -> (forall m i, (m < N)%nat -> (i < nd)%nat -> c * vat nn m * vat v i = V m i) ->
  nv_contrib nd ii0 N c nn v = vblock ii0 N nd V.
Proof.
  intros S H. unfold nv_contrib, vblock. destruct S as [S|S]; rewrite S in *; cbn [Nat.eqb]; apply flat_map_seq; intros m Hm; v_items; apply H; lia.
Qed.
Lemma vec_02_run b fn : run_spec ((a_ii0 A + nnode * nd <= List.length b)%nat) (loop_spec (fun p _ nn _ => fn p nn) A (fun p x => measure_at (a_pad A) (ksi_at A p) x) (jac_ok zdet A)
    (fun x y a' => vec_result A b a' nnode nd (fun m i => integral A (fun p => (fun p x v m i => dvol A (fun _ => x) p * nth i v 0 * N_of A p m) p (x p) (y p) m i)))) (vec_02_nv zdet A b fn).
Proof.
  unfold vec_02_nv.
  unfold a_space in *.
  destruct (Nat.ltb_spec (List.length b) (a_ii0 A + nnode * nd)) as [Lt|L]; [right; split; [lia|eauto]|].
  left. split; [repeat split; auto; lia|].
  apply (vec_loop 0 [] _ (fun p _ nn _ => fn p nn) A _ _ (jac_eval_spec zdet A Hz W) _
    (fun p x v m i => dvol A (fun _ => x) p * nth i v 0 * N_of A p m)); [|lia].
  intros p x pd st Hp SE. cbn [fst snd].
  destruct (fn p _) as [s| | |]; try reflexivity. cbn [bind].
  f_equal. apply nv_block; [now apply space23|]. intros m i _ _. rewrite coef_at by auto. unfold dvol, N_of, vat. ring.
Qed.
Lemma vec_02_bry_run b fn : run_spec (p_space (a_pad A) = (kind_ndim (p_kind (a_pad A)) + 1)%nat /\ (a_ii0 A + nnode * nd <= List.length b)%nat) (loop_spec (fun p _ nn x => fn p (snd x) nn) A (fun p x => normal_at (a_pad A) (ksi_at A p) (fst x) (snd x)) (fun _ => True)
    (fun x y a' => vec_result A b a' nnode nd (fun m i => integral A (fun p => (fun p x v m i => dvol A (fun _ => fst x) p * nth i v 0 * N_of A p m) p (x p) (y p) m i)))) (vec_02_nv_bry A b fn).
Proof.
  unfold vec_02_nv_bry.
  destruct (bry_cases A W) as [(Sp & Eb)|(Sp & msg & Eb)]; rewrite Eb; cbn [bind]; [|right; split; [tauto|eauto]].
  unfold a_space in *.
  destruct (Nat.ltb_spec (List.length b) (a_ii0 A + nnode * nd)) as [Lt|L]; [right; split; [lia|eauto]|].
  left. split; [repeat split; auto; lia|].
  apply (vec_loop (0, []) [] _ (fun p _ nn x => fn p (snd x) nn) A _ _ (normal_eval_spec A W Sp) _
    (fun p x v m i => dvol A (fun _ => fst x) p * nth i v 0 * N_of A p m)); [|lia].
  intros p [mg un] pd st Hp SE. cbn [fst snd].
  destruct (fn p _ _) as [s| | |]; try reflexivity. cbn [bind].
  f_equal. apply nv_block; [now apply space23|]. intros m i _ _. rewrite coef_at by auto. unfold dvol, N_of, vat. ring.
Qed.
Lemma vec_03_run c fn : run_spec ((a_ii0 A + nnode <= List.length c)%nat) (loop_spec (fun p _ nn x => fn p nn (snd x)) A (grad_facts zdet A) (grad_ok zdet A)
    (fun x y a' => vec_result A c a' nnode 1 (fun m i => integral A (fun p => (fun p x w m _ => dvol A (fun _ => fst x) p * sum_n nd (fun i => nth i w 0 * ent (snd x) m i)) p (x p) (y p) m i)))) (vec_03_bv zdet A c fn).
Proof.
  unfold vec_03_bv.
  destruct (Nat.ltb_spec (List.length c) (a_ii0 A + nnode)) as [Lt|L]; [right; split; [lia|eauto]|].
  left. split; [repeat split; auto; lia|].
  apply (vec_loop (0, []) [] _ (fun p _ nn x => fn p nn (snd x)) A _ _ (grad_eval_spec zdet A Hz W) _
    (fun p x w m _ => dvol A (fun _ => fst x) p * sum_n nd (fun i => nth i w 0 * ent (snd x) m i))); [|lia].
  intros p [dj bb] pd st Hp SE. cbn [fst snd].
  destruct (fn p _ _) as [s| | |]; try reflexivity. cbn [bind].
  unfold a_space. f_equal. rewrite map_flat. apply flat_map_seq. intros m Hm. v_items.
  rewrite coef_at by auto. unfold dvol.
  destruct (space23 _ W) as [E|E]; rewrite E; cbn [Nat.eqb]; rewrite ?sum2, ?sum3; unfold vat; ring.
Qed.
Lemma vec_04_run t fn : run_spec ((a_ii0 A + nnode * nd <= List.length t)%nat /\ (a_axi A = true -> nd = 2%nat)) (loop_spec (fun p _ nn x => fn p nn (snd x)) A (grad_facts zdet A) (grad_ok zdet A)
    (fun x y a' => vec_result A t a' nnode nd (fun m i => integral A (fun p => (fun p x sg m i => dvol A (fun _ => fst x) p * sum_n nd (fun j => tensor2 sg i j * ent (snd x) m j) +
      (if a_axi A && (i =? 0)%nat then fst x * wt (a_gauss A) p * a_alpha A * N_of A p m * tensor2 sg 2 2 else 0)) p (x p) (y p) m i)))) (vec_04_bt zdet A t fn).
Proof.
  unfold vec_04_bt.
  unfold a_space in *.
  destruct (Nat.ltb_spec (List.length t) (a_ii0 A + nnode * nd)) as [Lt|L]; [right; split; [lia|eauto]|].
  assert (Ax : (a_axi A = true -> nd = 2%nat) /\ a_axi A && negb (nd =? 2)%nat = false \/ ~ (a_axi A = true -> nd = 2%nat) /\ a_axi A && negb (nd =? 2)%nat = true).
  { destruct (a_axi A), (Nat.eqb_spec nd 2); cbn [andb negb]; tauto. }
  destruct Ax as [(Ax & Eb)|(Ax & Eb)]; rewrite Eb; [|right; split; [tauto|eauto]].
  left. split; [split; auto; lia|].
  apply (vec_loop (0, []) [] _ (fun p _ nn x => fn p nn (snd x)) A _ _ (grad_eval_spec zdet A Hz W) _
    (fun p x sg m i => dvol A (fun _ => fst x) p * sum_n nd (fun j => tensor2 sg i j * ent (snd x) m j) +
      (if a_axi A && (i =? 0)%nat then fst x * wt (a_gauss A) p * a_alpha A * N_of A p m * tensor2 sg 2 2 else 0))); [|lia].
  intros p [dj bb] pd st Hp SE. cbn [fst snd].
  destruct (fn p _ _) as [s| | |]; try reflexivity. cbn [bind].
  f_equal. unfold dvol, N_of in *. unfold vblock. destruct (a_axi A).
  - rewrite (Ax eq_refl). rewrite radius_at by auto. apply flat_map_seq; intros m Hm; v_items; cbn [andb Nat.eqb]; two_vals.
  - clear Ax. unfold bt_contrib. destruct (space23 _ W) as [E|E]; rewrite E; cbn [Nat.eqb];
      apply flat_map_seq; intros m Hm; v_items; cbn [andb Nat.eqb]; two_vals.
Qed.
Lemma mat_01_run nr nc kk fn : is_matrix nr nc kk ->
  run_spec ((a_ii0 A + nnode <= nr)%nat /\ (a_jj0 A + nnode <= nc)%nat) (loop_spec (fun p _ nn x => fn p nn (snd x)) A (grad_facts zdet A) (grad_ok zdet A)
    (fun x y a' => mat_result A kk a' nnode 1 nnode 1 (fun m i n j => integral A (fun p => (fun p x s m _ n _ => dvol A (fun _ => fst x) p * s * N_of A p m * N_of A p n) p (x p) (y p) m i n j)))) (mat_01_nsn zdet A kk fn).
Proof.
  intros Mk. unfold mat_01_nsn. unfold a_space in *.
  destruct (kk_check_cases A kk (nnode) (nnode) nr nc Mk) as [(Rm & Hr & Ec)|(Rm & msg & Ec)]; [|rewrite Ec; cbn [bind]..].
  { pose proof (nnode_pos (p_kind (a_pad A))) as P0; fold (a_nnode A) in P0; pose proof (nnode_pos (p_kind (a_pad A))); destruct (space23 _ W); nia. }
  2:{ right. split; [tauto|eauto]. }
  left. split; [tauto|].
  apply (mat_loop (0, []) 0 _ (fun p _ nn x => fn p nn (snd x)) A _ _ (grad_eval_spec zdet A Hz W) _
    (fun p x s m _ n _ => dvol A (fun _ => fst x) p * s * N_of A p m * N_of A p n) _ _ _ _ nr nc); try lia; auto.
  intros p [dj bb] pd st Hp SE. cbn [fst snd].
  destruct (fn p _ _) as [s| | |]; try reflexivity. cbn [bind].
  f_equal. unfold for_mn, mblock. apply flat_map_seq. intros m Hm. apply flat_map_seq. intros n Hn. m_items.
  rewrite coef_at by auto. unfold dvol, N_of, vat. ring.
Qed.

Lemma unwrap_eval_spec : p_space (a_pad A) = (kind_ndim (p_kind (a_pad A)) + 1)%nat ->
  eval_spec (fun p iota => match eval_normal p iota with Ok x => Ok x | _ => Panic end) A
    (fun p x => normal_at (a_pad A) (ksi_at A p) (fst x) (snd x)) (fun _ => True).
Proof.
  intros Sp pd p Hp SE. destruct (normal_eval_spec A W Sp pd p Hp SE) as (H1 & H2 & H3).
  destruct (proj2 H2 I) as (x & q & E). rewrite E in *. auto.
Qed.
Lemma mat_01_bry_run nr nc kk fn : is_matrix nr nc kk ->
  run_spec (p_space (a_pad A) = (kind_ndim (p_kind (a_pad A)) + 1)%nat /\ (a_ii0 A + nnode <= nr)%nat /\ (a_jj0 A + nnode <= nc)%nat) (loop_spec (fun p _ nn x => fn p (snd x) nn) A (fun p x => normal_at (a_pad A) (ksi_at A p) (fst x) (snd x)) (fun _ => True)
    (fun x y a' => mat_result A kk a' nnode 1 nnode 1 (fun m i n j => integral A (fun p => (fun p x s m _ n _ => dvol A (fun _ => fst x) p * s * N_of A p m * N_of A p n) p (x p) (y p) m i n j)))) (mat_01_nsn_bry A kk fn).
Proof.
  intros Mk. unfold mat_01_nsn_bry. unfold a_space in *.
  destruct (bry_cases A W) as [(Sp & Eb)|(Sp & msg & Eb)]; rewrite Eb; cbn [bind]; [|right; split; [tauto|eauto]].
  destruct (kk_check_cases A kk (nnode) (nnode) nr nc Mk) as [(Rm & Hr & Ec)|(Rm & msg & Ec)]; [|rewrite Ec; cbn [bind]..].
  { pose proof (nnode_pos (p_kind (a_pad A))) as P0; fold (a_nnode A) in P0; pose proof (nnode_pos (p_kind (a_pad A))); destruct (space23 _ W); nia. }
  2:{ right. split; [tauto|eauto]. }
  left. split; [tauto|].
  apply (mat_loop (0, []) 0 _ (fun p _ nn x => fn p (snd x) nn) A _ _ (unwrap_eval_spec Sp) _
    (fun p x s m _ n _ => dvol A (fun _ => fst x) p * s * N_of A p m * N_of A p n) _ _ _ _ nr nc); try lia; auto.
  intros p [mg un] pd st Hp SE. cbn [fst snd].
  destruct (fn p _ _) as [s| | |]; try reflexivity. cbn [bind].
  f_equal. unfold for_mn, mblock. apply flat_map_seq. intros m Hm. apply flat_map_seq. intros n Hn. m_items.
  rewrite coef_at by auto. unfold dvol, N_of, vat. ring.
Qed.
Lemma mat_02_run nr nc kk fn : is_matrix nr nc kk ->
  run_spec ((a_ii0 A + nnode <= nr)%nat /\ (a_jj0 A + nnode <= nc)%nat) (loop_spec (fun p _ nn x => fn p nn (snd x)) A (grad_facts zdet A) (grad_ok zdet A)
    (fun x y a' => mat_result A kk a' nnode 1 nnode 1 (fun m i n j => integral A (fun p => (fun p x v m _ n _ => dvol A (fun _ => fst x) p * sum_n nd (fun i => ent (snd x) m i * nth i v 0) * N_of A p n) p (x p) (y p) m i n j)))) (mat_02_bvn zdet A kk fn).
Proof.
  intros Mk. unfold mat_02_bvn. unfold a_space in *.
  destruct (kk_check_cases A kk (nnode) (nnode) nr nc Mk) as [(Rm & Hr & Ec)|(Rm & msg & Ec)]; [|rewrite Ec; cbn [bind]..].
  { pose proof (nnode_pos (p_kind (a_pad A))) as P0; fold (a_nnode A) in P0; pose proof (nnode_pos (p_kind (a_pad A))); destruct (space23 _ W); nia. }
  2:{ right. split; [tauto|eauto]. }
  left. split; [tauto|].
  apply (mat_loop (0, []) [] _ (fun p _ nn x => fn p nn (snd x)) A _ _ (grad_eval_spec zdet A Hz W) _
    (fun p x v m _ n _ => dvol A (fun _ => fst x) p * sum_n nd (fun i => ent (snd x) m i * nth i v 0) * N_of A p n) _ _ _ _ nr nc); try lia; auto.
  intros p [dj bb] pd st Hp SE. cbn [fst snd].
  destruct (fn p _ _) as [s| | |]; try reflexivity. cbn [bind].
  f_equal. unfold for_mn, mblock. rewrite coef_at by auto. unfold dvol, N_of.
  destruct (space23 _ W) as [E|E]; rewrite E; cbn [Nat.eqb]; apply flat_map_seq; intros m Hm; apply flat_map_seq; intros n Hn; m_items; unfold vat; rewrite ?sum2, ?sum3; ring.
Qed.
Lemma mat_03_run nr nc kk fn : is_matrix nr nc kk ->
  run_spec ((a_ii0 A + nnode <= nr)%nat /\ (a_jj0 A + nnode <= nc)%nat) (loop_spec (fun p _ nn x => fn p nn (snd x)) A (grad_facts zdet A) (grad_ok zdet A)
    (fun x y a' => mat_result A kk a' nnode 1 nnode 1 (fun m i n j => integral A (fun p => (fun p x T m _ n _ => dvol A (fun _ => fst x) p *
      sum_n nd (fun i => sum_n nd (fun j => ent (snd x) m i * tensor2 T i j * ent (snd x) n j))) p (x p) (y p) m i n j)))) (mat_03_btb zdet A kk fn).
Proof.
  intros Mk. unfold mat_03_btb. unfold a_space in *.
  destruct (kk_check_cases A kk (nnode) (nnode) nr nc Mk) as [(Rm & Hr & Ec)|(Rm & msg & Ec)]; [|rewrite Ec; cbn [bind]..].
  { pose proof (nnode_pos (p_kind (a_pad A))) as P0; fold (a_nnode A) in P0; pose proof (nnode_pos (p_kind (a_pad A))); destruct (space23 _ W); nia. }
  2:{ right. split; [tauto|eauto]. }
  left. split; [tauto|].
  apply (mat_loop (0, []) [] _ (fun p _ nn x => fn p nn (snd x)) A _ _ (grad_eval_spec zdet A Hz W) _
    (fun p x T m _ n _ => dvol A (fun _ => fst x) p *
      sum_n nd (fun i => sum_n nd (fun j => ent (snd x) m i * tensor2 T i j * ent (snd x) n j))) _ _ _ _ nr nc); try lia; auto.
  intros p [dj bb] pd st Hp SE. cbn [fst snd].
  destruct (fn p _ _) as [s| | |]; try reflexivity. cbn [bind].
  f_equal. unfold for_mn, mblock. rewrite coef_at by auto. unfold dvol, N_of.
  destruct (space23 _ W) as [E|E]; rewrite E; cbn [Nat.eqb]; apply flat_map_seq; intros m Hm; apply flat_map_seq; intros n Hn; m_items; two_vals.
Qed.
Lemma mat_04_run nr nc kk pb fn : is_matrix nr nc kk ->
  run_spec ((a_ii0 A + (kind_nnode (p_kind pb)) <= nr)%nat /\ (a_jj0 A + nnode * nd <= nc)%nat) (loop_spec (fun p _ nn x => fn p (N_b A pb p) nn (snd x)) A (grad_facts zdet A) (grad_ok zdet A)
    (fun x y a' => mat_result A kk a' (kind_nnode (p_kind pb)) 1 nnode nd (fun m i n j => integral A (fun p => (fun p x s m _ n j => dvol A (fun _ => fst x) p * s * nth m (N_b A pb p) 0 * ent (snd x) n j) p (x p) (y p) m i n j)))) (mat_04_nsb zdet A kk pb fn).
Proof.
  intros Mk. unfold mat_04_nsb. unfold a_space in *.
  destruct (kk_check_cases A kk ((kind_nnode (p_kind pb))) (nnode * nd) nr nc Mk) as [(Rm & Hr & Ec)|(Rm & msg & Ec)]; [|rewrite Ec; cbn [bind]..].
  { pose proof (nnode_pos (p_kind (a_pad A))) as P0; fold (a_nnode A) in P0; pose proof (nnode_pos (p_kind pb)); destruct (space23 _ W); nia. }
  2:{ right. split; [tauto|eauto]. }
  left. split; [tauto|].
  apply (mat_loop (0, []) 0 _ (fun p _ nn x => fn p (N_b A pb p) nn (snd x)) A _ _ (grad_eval_spec zdet A Hz W) _
    (fun p x s m _ n j => dvol A (fun _ => fst x) p * s * nth m (N_b A pb p) 0 * ent (snd x) n j) _ _ _ _ nr nc); try lia; auto.
  intros p [dj bb] pd st Hp SE. cbn [fst snd].
  replace (calc_interp (p_kind pb) (iota4 (a_gauss A) p)) with (N_b A pb p)
    by (symmetry; apply (interp_ksi (mkArgs pb (a_gauss A) true false 1 0 0))).
  destruct (fn p _ _ _) as [s| | |]; try reflexivity. cbn [bind].
  f_equal. unfold for_mn, mblock. rewrite coef_at by auto. unfold dvol, N_of.
  destruct (space23 _ W) as [E|E]; rewrite E; cbn [Nat.eqb]; apply flat_map_seq; intros m Hm; apply flat_map_seq; intros n Hn; m_items; unfold vat; ring.
Qed.

Lemma gradb_eval_spec pb : pad_wf pb -> eval_spec (fun pd iota =>
    let! rb := eval_grad zdet pb iota in
    let! r := eval_grad zdet pd iota in Ok (fst r, snd (fst rb), snd r)) A
  (fun p x => grad_facts zdet A p (fst x) /\ exists db, gradient_at pb (ksi_b A pb p) db (snd x))
  (fun p => grad_ok zdet (mkArgs pb (a_gauss A) true false 1 0 0) p /\ grad_ok zdet A p).
Proof.
  intros Wb pd p Hp SE. set (Ab := mkArgs pb (a_gauss A) true false 1 0 0).
  destruct (grad_eval_spec zdet Ab Hz Wb pb p Hp (same_refl pb)) as (B1 & B2 & B3).
  destruct (grad_eval_spec zdet A Hz W pd p Hp SE) as (C1 & C2 & C3). change (a_gauss Ab) with (a_gauss A) in *.
  destruct (eval_grad zdet pb (iota4 (a_gauss A) p)) as [[[db gb] qb]| | |]; cbn [bind].
  - destruct (eval_grad zdet pd (iota4 (a_gauss A) p)) as [[xx q']| | |]; cbn [bind fst snd].
    + split; [|split; [|left; eauto]].
      * intros x q H. injection H as <- <-. destruct (C1 _ _ eq_refl) as (S & G). cbn [fst snd]. split; auto. split; auto.
        destruct (B1 _ _ eq_refl) as (_ & _ & G' & _). exists db. exact G'.
      * split; [intros _; split; [apply B2|apply C2]; eauto|]. intros _. exists (xx, gb), q'. reflexivity.
    + split; [discriminate|]. split; [|right; eauto]. split; [intros (? & ? & ?); discriminate|]. intros (_ & H). destruct (proj2 C2 H) as (? & ? & ?). discriminate.
    + destruct C3 as [(? & ?)|(? & ?)]; discriminate.
    + destruct C3 as [(? & ?)|(? & ?)]; discriminate.
  - split; [discriminate|]. split; [|right; eauto]. split; [intros (? & ? & ?); discriminate|]. intros (H & _). destruct (proj2 B2 H) as (? & ? & ?). discriminate.
  - destruct B3 as [(? & ?)|(? & ?)]; discriminate.
  - destruct B3 as [(? & ?)|(? & ?)]; discriminate.
Qed.
Lemma mat_05_run nr nc kk pb fn : pad_wf pb -> is_matrix nr nc kk ->
  run_spec ((a_ii0 A + (kind_nnode (p_kind pb)) <= nr)%nat /\ (a_jj0 A + nnode * nd <= nc)%nat) (loop_spec (fun p _ nn x => fn p (snd x) nn (snd (fst x))) A (fun p x => grad_facts zdet A p (fst x) /\ exists db, gradient_at pb (ksi_b A pb p) db (snd x)) (fun p => grad_ok zdet (mkArgs pb (a_gauss A) true false 1 0 0) p /\ grad_ok zdet A p)
    (fun x y a' => mat_result A kk a' (kind_nnode (p_kind pb)) 1 nnode nd (fun m i n j => integral A (fun p => (fun p x T m _ n j => dvol A (fun _ => fst (fst x)) p * sum_n nd (fun i => ent (snd x) m i * tensor2 T i j) * N_of A p n) p (x p) (y p) m i n j)))) (mat_05_btn zdet A kk pb fn).
Proof.
  intros Wb Mk. unfold mat_05_btn. unfold a_space in *.
  destruct (kk_check_cases A kk ((kind_nnode (p_kind pb))) (nnode * nd) nr nc Mk) as [(Rm & Hr & Ec)|(Rm & msg & Ec)]; [|rewrite Ec; cbn [bind]..].
  { pose proof (nnode_pos (p_kind (a_pad A))) as P0; fold (a_nnode A) in P0; pose proof (nnode_pos (p_kind pb)); destruct (space23 _ W); nia. }
  2:{ right. split; [tauto|eauto]. }
  left. split; [tauto|].
  apply (mat_loop (0, [], []) [] _ (fun p _ nn x => fn p (snd x) nn (snd (fst x))) A _ _ (gradb_eval_spec pb Wb) _
    (fun p x T m _ n j => dvol A (fun _ => fst (fst x)) p * sum_n nd (fun i => ent (snd x) m i * tensor2 T i j) * N_of A p n) _ _ _ _ nr nc); try lia; auto.
  intros p [[dj bb] gb] pd st Hp SE. cbn [fst snd].
  destruct (fn p _ _ _) as [s| | |]; try reflexivity. cbn [bind].
  f_equal. unfold for_mn, mblock. rewrite coef_at by auto. unfold dvol, N_of.
  destruct (space23 _ W) as [E|E]; rewrite E; cbn [Nat.eqb]; apply flat_map_seq; intros m Hm; apply flat_map_seq; intros n Hn; m_items; two_vals.
Qed.
Lemma mat_06_run nr nc kk pb fn : is_matrix nr nc kk ->
  run_spec ((a_ii0 A + nnode * nd <= nr)%nat /\ (a_jj0 A + (kind_nnode (p_kind pb)) <= nc)%nat) (loop_spec (fun p _ nn x => fn p nn (snd x) (N_b A pb p)) A (grad_facts zdet A) (grad_ok zdet A)
    (fun x y a' => mat_result A kk a' nnode nd (kind_nnode (p_kind pb)) 1 (fun m i n j => integral A (fun p => (fun p x v m i n _ => dvol A (fun _ => fst x) p * N_of A p m * nth i v 0 * nth n (N_b A pb p) 0) p (x p) (y p) m i n j)))) (mat_06_nvn zdet A kk pb fn).
Proof.
  intros Mk. unfold mat_06_nvn. unfold a_space in *.
  destruct (kk_check_cases A kk (nnode * nd) ((kind_nnode (p_kind pb))) nr nc Mk) as [(Rm & Hr & Ec)|(Rm & msg & Ec)]; [|rewrite Ec; cbn [bind]..].
  { pose proof (nnode_pos (p_kind (a_pad A))) as P0; fold (a_nnode A) in P0; pose proof (nnode_pos (p_kind pb)); destruct (space23 _ W); nia. }
  2:{ right. split; [tauto|eauto]. }
  left. split; [tauto|].
  apply (mat_loop (0, []) [] _ (fun p _ nn x => fn p nn (snd x) (N_b A pb p)) A _ _ (grad_eval_spec zdet A Hz W) _
    (fun p x v m i n _ => dvol A (fun _ => fst x) p * N_of A p m * nth i v 0 * nth n (N_b A pb p) 0) _ _ _ _ nr nc); try lia; auto.
  intros p [dj bb] pd st Hp SE. cbn [fst snd].
  replace (calc_interp (p_kind pb) (iota4 (a_gauss A) p)) with (N_b A pb p)
    by (symmetry; apply (interp_ksi (mkArgs pb (a_gauss A) true false 1 0 0))).
  destruct (fn p _ _ _) as [s| | |]; try reflexivity. cbn [bind].
  f_equal. unfold for_mn, mblock. rewrite coef_at by auto. unfold dvol, N_of.
  destruct (space23 _ W) as [E|E]; rewrite E; cbn [Nat.eqb]; apply flat_map_seq; intros m Hm; apply flat_map_seq; intros n Hn; m_items; unfold vat; ring.
Qed.
Lemma mat_07_run nr nc kk pb fn : is_matrix nr nc kk ->
  run_spec ((a_ii0 A + nnode * nd <= nr)%nat /\ (a_jj0 A + (kind_nnode (p_kind pb)) <= nc)%nat) (loop_spec (fun p _ nn x => fn p nn (snd x) (N_b A pb p)) A (grad_facts zdet A) (grad_ok zdet A)
    (fun x y a' => mat_result A kk a' nnode nd (kind_nnode (p_kind pb)) 1 (fun m i n j => integral A (fun p => (fun p x s m i n _ => dvol A (fun _ => fst x) p * s * ent (snd x) m i * nth n (N_b A pb p) 0) p (x p) (y p) m i n j)))) (mat_07_bsn zdet A kk pb fn).
Proof.
  intros Mk. unfold mat_07_bsn. unfold a_space in *.
  destruct (kk_check_cases A kk (nnode * nd) ((kind_nnode (p_kind pb))) nr nc Mk) as [(Rm & Hr & Ec)|(Rm & msg & Ec)]; [|rewrite Ec; cbn [bind]..].
  { pose proof (nnode_pos (p_kind (a_pad A))) as P0; fold (a_nnode A) in P0; pose proof (nnode_pos (p_kind pb)); destruct (space23 _ W); nia. }
  2:{ right. split; [tauto|eauto]. }
  left. split; [tauto|].
  apply (mat_loop (0, []) 0 _ (fun p _ nn x => fn p nn (snd x) (N_b A pb p)) A _ _ (grad_eval_spec zdet A Hz W) _
    (fun p x s m i n _ => dvol A (fun _ => fst x) p * s * ent (snd x) m i * nth n (N_b A pb p) 0) _ _ _ _ nr nc); try lia; auto.
  intros p [dj bb] pd st Hp SE. cbn [fst snd].
  replace (calc_interp (p_kind pb) (iota4 (a_gauss A) p)) with (N_b A pb p)
    by (symmetry; apply (interp_ksi (mkArgs pb (a_gauss A) true false 1 0 0))).
  destruct (fn p _ _ _) as [s| | |]; try reflexivity. cbn [bind].
  f_equal. unfold for_mn, mblock. rewrite coef_at by auto. unfold dvol, N_of.
  destruct (space23 _ W) as [E|E]; rewrite E; cbn [Nat.eqb]; apply flat_map_seq; intros m Hm; apply flat_map_seq; intros n Hn; m_items; unfold vat; ring.
Qed.
Lemma mat_08_run nr nc kk fn : is_matrix nr nc kk ->
  run_spec ((a_ii0 A + nnode * nd <= nr)%nat /\ (a_jj0 A + nnode * nd <= nc)%nat) (loop_spec (fun p _ nn x => fn p nn (snd x)) A (grad_facts zdet A) (grad_ok zdet A)
    (fun x y a' => mat_result A kk a' nnode nd nnode nd (fun m i n j => integral A (fun p => (fun p x T m i n j => dvol A (fun _ => fst x) p * N_of A p m * tensor2 T i j * N_of A p n) p (x p) (y p) m i n j)))) (mat_08_ntn zdet A kk fn).
Proof.
  intros Mk. unfold mat_08_ntn. unfold a_space in *.
  destruct (kk_check_cases A kk (nnode * nd) (nnode * nd) nr nc Mk) as [(Rm & Hr & Ec)|(Rm & msg & Ec)]; [|rewrite Ec; cbn [bind]..].
  { pose proof (nnode_pos (p_kind (a_pad A))) as P0; fold (a_nnode A) in P0; pose proof (nnode_pos (p_kind (a_pad A))); destruct (space23 _ W); nia. }
  2:{ right. split; [tauto|eauto]. }
  left. split; [tauto|].
  apply (mat_loop (0, []) [] _ (fun p _ nn x => fn p nn (snd x)) A _ _ (grad_eval_spec zdet A Hz W) _
    (fun p x T m i n j => dvol A (fun _ => fst x) p * N_of A p m * tensor2 T i j * N_of A p n) _ _ _ _ nr nc); try lia; auto.
  intros p [dj bb] pd st Hp SE. cbn [fst snd].
  destruct (fn p _ _) as [s| | |]; try reflexivity. cbn [bind].
  f_equal. unfold for_mn, mblock. rewrite coef_at by auto. unfold dvol, N_of.
  destruct (space23 _ W) as [E|E]; rewrite E; cbn [Nat.eqb]; apply flat_map_seq; intros m Hm; apply flat_map_seq; intros n Hn; m_items; two_vals.
Qed.
Lemma mat_09_run nr nc kk fn : is_matrix nr nc kk ->
  run_spec ((a_ii0 A + nnode * nd <= nr)%nat /\ (a_jj0 A + nnode * nd <= nc)%nat) (loop_spec (fun p _ nn x => fn p nn (snd x)) A (grad_facts zdet A) (grad_ok zdet A)
    (fun x y a' => mat_result A kk a' nnode nd nnode nd (fun m i n j => integral A (fun p => (fun p x v m i n j => dvol A (fun _ => fst x) p * N_of A p m * nth i v 0 * ent (snd x) n j) p (x p) (y p) m i n j)))) (mat_09_nvb zdet A kk fn).
Proof.
  intros Mk. unfold mat_09_nvb. unfold a_space in *.
  destruct (kk_check_cases A kk (nnode * nd) (nnode * nd) nr nc Mk) as [(Rm & Hr & Ec)|(Rm & msg & Ec)]; [|rewrite Ec; cbn [bind]..].
  { pose proof (nnode_pos (p_kind (a_pad A))) as P0; fold (a_nnode A) in P0; pose proof (nnode_pos (p_kind (a_pad A))); destruct (space23 _ W); nia. }
  2:{ right. split; [tauto|eauto]. }
  left. split; [tauto|].
  apply (mat_loop (0, []) [] _ (fun p _ nn x => fn p nn (snd x)) A _ _ (grad_eval_spec zdet A Hz W) _
    (fun p x v m i n j => dvol A (fun _ => fst x) p * N_of A p m * nth i v 0 * ent (snd x) n j) _ _ _ _ nr nc); try lia; auto.
  intros p [dj bb] pd st Hp SE. cbn [fst snd].
  destruct (fn p _ _) as [s| | |]; try reflexivity. cbn [bind].
  f_equal. unfold for_mn, mblock. rewrite coef_at by auto. unfold dvol, N_of.
  destruct (space23 _ W) as [E|E]; rewrite E; cbn [Nat.eqb]; apply flat_map_seq; intros m Hm; apply flat_map_seq; intros n Hn; m_items; unfold vat; ring.
Qed.

(** the results alone *)
Lemma run_ok {T} room LS (r : res T) v : run_spec room LS r -> r = Ok v -> room /\ LS r.
Proof. intros [H|(_ & msg & H)] E; [auto|congruence]. Qed.
Lemma vec_01_form a fn a' q : vec_01_ns zdet A a fn = Ok (a', q) ->
  same_element (a_pad A) q /\ exists d s,
    (forall p, (p < np)%nat -> meas_at d p /\ fn p (N_p A p) = Ok (s p)) /\
    vec_result A a a' nnode 1 (fun m _ => integral A (fun p => dvol A d p * s p * N_of A p m)).
Proof. intros H. apply (run_ok _ _ _ _ (vec_01_run _ _)) in H as H'. exact (proj1 (proj2 H') _ _ H). Qed.
Lemma vec_02_form b fn b' q : vec_02_nv zdet A b fn = Ok (b', q) ->
  same_element (a_pad A) q /\ exists d v,
    (forall p, (p < np)%nat -> meas_at d p /\ fn p (N_p A p) = Ok (v p)) /\
    vec_result A b b' nnode nd (fun m i => integral A (fun p => dvol A d p * nth i (v p) 0 * N_of A p m)).
Proof. intros H. apply (run_ok _ _ _ _ (vec_02_run _ _)) in H as H'. exact (proj1 (proj2 H') _ _ H). Qed.
Lemma vec_03_form c fn c' q : vec_03_bv zdet A c fn = Ok (c', q) ->
  same_element (a_pad A) q /\ exists x w,
    (forall p, (p < np)%nat -> grad_facts zdet A p (x p) /\ fn p (N_p A p) (snd (x p)) = Ok (w p)) /\
    vec_result A c c' nnode 1 (fun m _ => integral A (fun p =>
      dvol A (fun p => fst (x p)) p * sum_n nd (fun i => nth i (w p) 0 * ent (snd (x p)) m i))).
Proof. intros H. apply (run_ok _ _ _ _ (vec_03_run _ _)) in H as H'. exact (proj1 (proj2 H') _ _ H). Qed.
Lemma vec_01_bry_form a fn a' q : vec_01_ns_bry A a fn = Ok (a', q) ->
  same_element (a_pad A) q /\ exists d u s,
    (forall p, (p < np)%nat -> norm_at d u p /\ fn p (u p) (N_p A p) = Ok (s p)) /\
    vec_result A a a' nnode 1 (fun m _ => integral A (fun p => dvol A d p * s p * N_of A p m)).
Proof.
  intros H. apply (run_ok _ _ _ _ (vec_01_bry_run _ _)) in H as H0. destruct H0 as (_ & H' & _).
  destruct (H' _ _ H) as (SE & x & s & F & V). split; auto. exists (fun p => fst (x p)), (fun p => snd (x p)), s. auto.
Qed.
Lemma vec_02_bry_form b fn b' q : vec_02_nv_bry A b fn = Ok (b', q) ->
  same_element (a_pad A) q /\ exists d u v,
    (forall p, (p < np)%nat -> norm_at d u p /\ fn p (u p) (N_p A p) = Ok (v p)) /\
    vec_result A b b' nnode nd (fun m i => integral A (fun p => dvol A d p * nth i (v p) 0 * N_of A p m)).
Proof.
  intros H. apply (run_ok _ _ _ _ (vec_02_bry_run _ _)) in H as H0. destruct H0 as (_ & H' & _).
  destruct (H' _ _ H) as (SE & x & s & F & V). split; auto. exists (fun p => fst (x p)), (fun p => snd (x p)), s. auto.
Qed.
Lemma vec_04_form t fn t' q : vec_04_bt zdet A t fn = Ok (t', q) ->
  (a_axi A = true -> nd = 2%nat) /\ same_element (a_pad A) q /\ exists x sg,
    (forall p, (p < np)%nat -> grad_facts zdet A p (x p) /\ fn p (N_p A p) (snd (x p)) = Ok (sg p)) /\
    vec_result A t t' nnode nd (fun m i => integral A (fun p =>
      dvol A (fun p => fst (x p)) p * sum_n nd (fun j => tensor2 (sg p) i j * ent (snd (x p)) m j) +
      (if a_axi A && (i =? 0)%nat then fst (x p) * wt (a_gauss A) p * a_alpha A * N_of A p m * tensor2 (sg p) 2 2 else 0))).
Proof. intros H. apply (run_ok _ _ _ _ (vec_04_run _ _)) in H as H'. destruct H' as ((_ & Ax) & H' & _). split; [exact Ax|exact (H' _ _ H)]. Qed.
Lemma mat_01_form nr nc kk fn kk' q : is_matrix nr nc kk -> mat_01_nsn zdet A kk fn = Ok (kk', q) ->
  same_element (a_pad A) q /\ exists x s,
    (forall p, (p < np)%nat -> grad_facts zdet A p (x p) /\ fn p (N_p A p) (snd (x p)) = Ok (s p)) /\
    mat_result A kk kk' nnode 1 nnode 1 (fun m _ n _ => integral A (fun p =>
      dvol A (fun p => fst (x p)) p * s p * N_of A p m * N_of A p n)).
Proof. intros M H. apply (run_ok _ _ _ _ (mat_01_run nr nc _ _ M)) in H as H'. exact (proj1 (proj2 H') _ _ H). Qed.
Lemma mat_02_form nr nc kk fn kk' q : is_matrix nr nc kk -> mat_02_bvn zdet A kk fn = Ok (kk', q) ->
  same_element (a_pad A) q /\ exists x v,
    (forall p, (p < np)%nat -> grad_facts zdet A p (x p) /\ fn p (N_p A p) (snd (x p)) = Ok (v p)) /\
    mat_result A kk kk' nnode 1 nnode 1 (fun m _ n _ => integral A (fun p =>
      dvol A (fun p => fst (x p)) p * sum_n nd (fun i => ent (snd (x p)) m i * nth i (v p) 0) * N_of A p n)).
Proof. intros M H. apply (run_ok _ _ _ _ (mat_02_run nr nc _ _ M)) in H as H'. exact (proj1 (proj2 H') _ _ H). Qed.
Lemma mat_03_form nr nc kk fn kk' q : is_matrix nr nc kk -> mat_03_btb zdet A kk fn = Ok (kk', q) ->
  same_element (a_pad A) q /\ exists x T,
    (forall p, (p < np)%nat -> grad_facts zdet A p (x p) /\ fn p (N_p A p) (snd (x p)) = Ok (T p)) /\
    mat_result A kk kk' nnode 1 nnode 1 (fun m _ n _ => integral A (fun p =>
      dvol A (fun p => fst (x p)) p *
      sum_n nd (fun i => sum_n nd (fun j => ent (snd (x p)) m i * tensor2 (T p) i j * ent (snd (x p)) n j)))).
Proof. intros M H. apply (run_ok _ _ _ _ (mat_03_run nr nc _ _ M)) in H as H'. exact (proj1 (proj2 H') _ _ H). Qed.
Lemma mat_04_form nr nc kk pb fn kk' q : is_matrix nr nc kk -> mat_04_nsb zdet A kk pb fn = Ok (kk', q) ->
  same_element (a_pad A) q /\ exists x s,
    (forall p, (p < np)%nat -> grad_facts zdet A p (x p) /\ fn p (N_b A pb p) (N_p A p) (snd (x p)) = Ok (s p)) /\
    mat_result A kk kk' (kind_nnode (p_kind pb)) 1 nnode nd (fun m _ n j => integral A (fun p =>
      dvol A (fun p => fst (x p)) p * s p * nth m (N_b A pb p) 0 * ent (snd (x p)) n j)).
Proof. intros M H. apply (run_ok _ _ _ _ (mat_04_run nr nc _ _ _ M)) in H as H'. exact (proj1 (proj2 H') _ _ H). Qed.
Lemma mat_06_form nr nc kk pb fn kk' q : is_matrix nr nc kk -> mat_06_nvn zdet A kk pb fn = Ok (kk', q) ->
  same_element (a_pad A) q /\ exists x v,
    (forall p, (p < np)%nat -> grad_facts zdet A p (x p) /\ fn p (N_p A p) (snd (x p)) (N_b A pb p) = Ok (v p)) /\
    mat_result A kk kk' nnode nd (kind_nnode (p_kind pb)) 1 (fun m i n _ => integral A (fun p =>
      dvol A (fun p => fst (x p)) p * N_of A p m * nth i (v p) 0 * nth n (N_b A pb p) 0)).
Proof. intros M H. apply (run_ok _ _ _ _ (mat_06_run nr nc _ _ _ M)) in H as H'. exact (proj1 (proj2 H') _ _ H). Qed.
Lemma mat_07_form nr nc kk pb fn kk' q : is_matrix nr nc kk -> mat_07_bsn zdet A kk pb fn = Ok (kk', q) ->
  same_element (a_pad A) q /\ exists x s,
    (forall p, (p < np)%nat -> grad_facts zdet A p (x p) /\ fn p (N_p A p) (snd (x p)) (N_b A pb p) = Ok (s p)) /\
    mat_result A kk kk' nnode nd (kind_nnode (p_kind pb)) 1 (fun m i n _ => integral A (fun p =>
      dvol A (fun p => fst (x p)) p * s p * ent (snd (x p)) m i * nth n (N_b A pb p) 0)).
Proof. intros M H. apply (run_ok _ _ _ _ (mat_07_run nr nc _ _ _ M)) in H as H'. exact (proj1 (proj2 H') _ _ H). Qed.
Lemma mat_08_form nr nc kk fn kk' q : is_matrix nr nc kk -> mat_08_ntn zdet A kk fn = Ok (kk', q) ->
  same_element (a_pad A) q /\ exists x T,
    (forall p, (p < np)%nat -> grad_facts zdet A p (x p) /\ fn p (N_p A p) (snd (x p)) = Ok (T p)) /\
    mat_result A kk kk' nnode nd nnode nd (fun m i n j => integral A (fun p =>
      dvol A (fun p => fst (x p)) p * N_of A p m * tensor2 (T p) i j * N_of A p n)).
Proof. intros M H. apply (run_ok _ _ _ _ (mat_08_run nr nc _ _ M)) in H as H'. exact (proj1 (proj2 H') _ _ H). Qed.
Lemma mat_09_form nr nc kk fn kk' q : is_matrix nr nc kk -> mat_09_nvb zdet A kk fn = Ok (kk', q) ->
  same_element (a_pad A) q /\ exists x v,
    (forall p, (p < np)%nat -> grad_facts zdet A p (x p) /\ fn p (N_p A p) (snd (x p)) = Ok (v p)) /\
    mat_result A kk kk' nnode nd nnode nd (fun m i n j => integral A (fun p =>
      dvol A (fun p => fst (x p)) p * N_of A p m * nth i (v p) 0 * ent (snd (x p)) n j)).
Proof. intros M H. apply (run_ok _ _ _ _ (mat_09_run nr nc _ _ M)) in H as H'. exact (proj1 (proj2 H') _ _ H). Qed.
Lemma mat_01_bry_form nr nc kk fn kk' q : is_matrix nr nc kk -> mat_01_nsn_bry A kk fn = Ok (kk', q) ->
  same_element (a_pad A) q /\ exists d u s,
    (forall p, (p < np)%nat -> norm_at d u p /\ fn p (u p) (N_p A p) = Ok (s p)) /\
    mat_result A kk kk' nnode 1 nnode 1 (fun m _ n _ => integral A (fun p => dvol A d p * s p * N_of A p m * N_of A p n)).
Proof.
  intros M H. apply (run_ok _ _ _ _ (mat_01_bry_run nr nc _ _ M)) in H as H0. destruct H0 as (_ & H' & _).
  destruct (H' _ _ H) as (SE & x & s & F & V). split; auto. exists (fun p => fst (x p)), (fun p => snd (x p)), s. auto.
Qed.
Lemma mat_05_form nr nc kk pb fn kk' q : pad_wf pb -> is_matrix nr nc kk -> mat_05_btn zdet A kk pb fn = Ok (kk', q) ->
  same_element (a_pad A) q /\ exists x gb T,
    (forall p, (p < np)%nat -> grad_facts zdet A p (x p) /\ (exists db, gradient_at pb (ksi_b A pb p) db (gb p)) /\
       fn p (gb p) (N_p A p) (snd (x p)) = Ok (T p)) /\
    mat_result A kk kk' (kind_nnode (p_kind pb)) 1 nnode nd (fun m _ n j => integral A (fun p =>
      dvol A (fun p => fst (x p)) p * sum_n nd (fun i => ent (gb p) m i * tensor2 (T p) i j) * N_of A p n)).
Proof.
  intros Wb M H. apply (run_ok _ _ _ _ (mat_05_run nr nc _ _ _ Wb M)) in H as H0. destruct H0 as (_ & H' & _).
  destruct (H' _ _ H) as (SE & x & T & F & V). split; auto. exists (fun p => fst (x p)), (fun p => snd (x p)), T. split; auto.
  intros p Hp. destruct (F p Hp) as ((? & ?) & ?). auto.
Qed.
End Forms.
