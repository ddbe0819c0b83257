(* The edges drawn for a single element (draw_shape). *)
From Coq Require Import String Reals QArith Qreals List Arith Bool ZArith Lia Lra.
From Verif Require Import Base BaseFacts Expr ShapesData Kind MeshModel MeshQuerySpec ShapesModel ShapesSpec ShapesProof ShapesShared PadModel PadSpec PadProof PadProof2 PadProof4 TopoProof NormalSpec NormalProof2 NormalProof4 DrawModel DrawSpec DrawProof DrawProof2 DrawProof3 DrawProof4.
Import ListNotations.
Local Open Scope list_scope.
Local Open Scope R_scope.

Lemma fill_ok (val : nat -> nat -> res R) (V : nat -> nat -> R) p :
  pad_wf p -> (forall i j, (i < kind_nnode (p_kind p))%nat -> (j < p_space p)%nat -> val i j = Ok (V i j)) ->
  exists q, foldM (fun (r : pad) i => foldM (fun (r : pad) j => let! v := val i j in set_xx r i j v) (seq 0 (p_space p)) r)
      (seq 0 (kind_nnode (p_kind p))) p = Ok q /\
    pad_wf q /\ p_kind q = p_kind p /\ p_space q = p_space p /\ p_ok q = true /\
    forall i j, (i < kind_nnode (p_kind p))%nat -> (j < p_space p)%nat -> node_x q j i = V i j.
Proof.
  intros W H. set (nn := kind_nnode (p_kind p)) in *. set (sp := p_space p) in *.
  pose (pt a := mkPoint a 0%Z (map (V a) (seq 0 sp))).
  pose (m := mkMesh sp (map pt (seq 0 nn)) [] [] []).
  assert (Gp : forall a, (a < nn)%nat -> nth_error (points m) a = Some (pt a)).
  { intros a Ha. cbn [points m]. rewrite (nth_error_nth' _ (pt 0%nat)) by (rewrite map_length, seq_length; auto). rewrite (map_nth pt), seq_nth by auto. reflexivity. }
  destruct (mesh_set_pad_points m (mkCell 0 0%Z (p_kind p) (seq 0 nn)) p) as (q & Eq & (Wq & Kq & Sq & Xq) & Oq); auto.
  - intros a Ha. cbn [points m] in Ha. apply in_map_iff in Ha as (i & <- & _). cbn [pt pt_coords]. now rewrite map_length, seq_length.
  - cbn [c_points c_kind]. now rewrite seq_length.
  - intros a Ha. cbn [c_points] in Ha. apply in_seq in Ha. cbn [points m]. rewrite map_length, seq_length. lia.
  - exists q. cbn [c_kind c_points ndim m] in *. split.
    + rewrite <- Eq. unfold mesh_set_pad. cbv zeta. fold nn. rewrite seq_length, Nat.eqb_refl. cbn [ndim m]. cbn [negb].
      apply foldM_ext. intros i p1 Hi. apply in_seq in Hi. apply foldM_ext. intros j p2 Hj. apply in_seq in Hj.
      rewrite H by lia. rewrite (get_ok (seq 0 nn) _ 0%nat) by (rewrite seq_length; lia). cbn [bind]. rewrite seq_nth by lia. cbn [Nat.add].
      unfold get at 1. rewrite Gp by lia. cbn [bind pt pt_coords]. rewrite (get_ok _ _ 0) by (rewrite map_length, seq_length; lia). cbn [bind].
      rewrite (PadProof.nth_map_in _ _ _ 0%nat) by (rewrite seq_length; lia). now rewrite seq_nth by lia.
    + do 4 (split; [assumption|]). intros i j Hi Hj. rewrite (Xq i i (pt i) j); auto.
      * cbn [pt pt_coords]. rewrite (PadProof.nth_map_in _ _ _ 0%nat) by (rewrite seq_length; lia). now rewrite seq_nth by lia.
      * rewrite (nth_error_nth' _ 0%nat) by (rewrite seq_length; auto). now rewrite seq_nth by lia.
Qed.

Lemma pad_coords_get q z j : pad_wf q -> p_ok q = true -> (j < p_space q)%nat ->
  exists x q', pad_coords q (p_space q) [z] = Ok (x, q') /\ get x j = Ok (pos q [z] j).
Proof.
  intros W Oq Hj. unfold pad_coords. rewrite Oq, Nat.eqb_refl. cbn [negb]. eexists _, _. split; [reflexivity|].
  pose proof W as (_ & _ & Lx & _). rewrite (get_ok _ _ 0) by (unfold mat_vec; rewrite map_length; lia). f_equal.
  unfold mat_vec. rewrite (PadProof.nth_map_in _ _ _ []) by lia. rewrite pos_dot by auto. reflexivity.
Qed.

Definition kv (i : nat) : R := -1 + 2 * INR i / INR 10.
Definition chain_of (f : nat -> list R) (n : nat) : list piece := map (fun i => [f i; f (S i)]) (seq 0 n).

Lemma chain_of_polygon p n xi f : (0 < n)%nat -> (forall i j, (i <= n)%nat -> (j < p_space p)%nat -> nth j (f i) 0 = pos p (xi (INR i / INR n)) j) ->
  polygon (chain_of f n) p n xi.
Proof.
  intros Hn H. unfold chain_of. split; [now rewrite map_length, seq_length|]. intros i Hi.
  rewrite (PadProof.nth_map_in _ _ _ 0%nat) by (rewrite seq_length; auto). rewrite seq_nth by auto. cbn [Nat.add].
  split; [reflexivity|]. intros j Hj. unfold piece_at. cbn [map bernstein]. rewrite !H by (auto; lia). split; ring.
Qed.

Lemma chain_of_3d f : forall n a, pieces_3d (f a) (map (fun i => PlAdd (nth 0 (f i) 0) (nth 1 (f i) 0) (nth 2 (f i) 0)) (seq (S a) n))
  (map (fun i => [f i; f (S i)]) (seq a n)) \/ exists i, List.length (f i) <> 3%nat.
Proof.
  induction n as [|n IH]; intros a; [left; constructor|].
  destruct (Nat.eq_dec (List.length (f (S a))) 3) as [E|E]; [|right; eauto].
  destruct (IH (S a)) as [H|H]; [left|right; auto]. cbn [seq map].
  destruct (f (S a)) as [|x [|y [|z [|w l]]]] eqn:Ef; try discriminate E. cbn [nth]. constructor. exact H.
Qed.
Lemma chain_of_2d f : forall n a, pieces_2d (f a) (map (fun i => PcAdd (nth 0 (f i) 0) (nth 1 (f i) 0) LineTo) (seq (S a) n))
  (map (fun i => [f i; f (S i)]) (seq a n)) \/ exists i, List.length (f i) <> 2%nat.
Proof.
  induction n as [|n IH]; intros a; [left; constructor|].
  destruct (Nat.eq_dec (List.length (f (S a))) 2) as [E|E]; [|right; eauto].
  destruct (IH (S a)) as [H|H]; [left|right; auto]. cbn [seq map].
  destruct (f (S a)) as [|x [|y [|w l]]] eqn:Ef; try discriminate E. cbn [nth]. constructor. exact H.
Qed.

Lemma foldM_snoc {A} (f : nat -> res A) (g : nat -> A) l : (forall i, In i l -> f i = Ok (g i)) ->
  forall acc, foldM (fun (acc : list A) i => let! x := f i in Ok (acc ++ [x])) l acc = Ok (acc ++ map g l).
Proof.
  induction l as [|i l IH]; intros H acc; cbn [foldM map]; [now rewrite app_nil_r|].
  rewrite H by now left. cbn [bind]. rewrite IH by (intros; apply H; now right). now rewrite <- app_assoc.
Qed.

Lemma draw_edge_ok q : pad_wf q -> p_ok q = true ->
  exists cmds path, (forall cv, draw_edge cv q = Ok (cv ++ cmds)) /\ draws cmds [path] /\
    polygon path q 10 (fun t => [2 * t - 1]).
Proof.
  intros W Oq. pose proof W as (S23 & _ & _ & _).
  pose (f i := map (pos q [kv i]) (seq 0 (p_space q))).
  assert (Lf : forall i, List.length (f i) = p_space q) by (intros; unfold f; now rewrite map_length, seq_length).
  assert (Nf : forall i j, (j < p_space q)%nat -> nth j (f i) 0 = pos q [kv i] j).
  { intros i j Hj. unfold f. rewrite (PadProof.nth_map_in _ _ _ 0%nat) by (rewrite seq_length; auto). now rewrite seq_nth by auto. }
  assert (Pg : polygon (chain_of f 10) q 10 (fun t => [2 * t - 1])).
  { apply chain_of_polygon; [lia|]. intros i j Hi Hj. rewrite Nf by auto. f_equal. f_equal. unfold kv. lra. }
  assert (Pt : forall i j, (j < p_space q)%nat -> (let! r := pad_coords q (p_space q) [kv i] in Ok (fst r)) = Ok (mat_vec (p_xxt q) (calc_interp (p_kind q) [kv i])) /\
     get (mat_vec (p_xxt q) (calc_interp (p_kind q) [kv i])) j = Ok (nth j (f i) 0)).
  { intros i j Hj. destruct (pad_coords_get q (kv i) j W Oq Hj) as (x & q' & E & G). rewrite E. cbn [bind fst].
    unfold pad_coords in E. rewrite Oq, Nat.eqb_refl in E. cbn [negb] in E. injection E as <- _. split; auto. rewrite Nf; auto. }
  unfold draw_edge. destruct S23 as [S2|S3].
  - exists (PcBegin :: PcAdd (nth 0 (f 0%nat) 0) (nth 1 (f 0%nat) 0) MoveTo :: map (fun i => PcAdd (nth 0 (f i) 0) (nth 1 (f i) 0) LineTo) (seq 1 10) ++ PcEnd false :: []), (chain_of f 10).
    split; [|split; [|exact Pg]].
    + intros cv. rewrite S2 at 1. cbn [Nat.eqb].
      rewrite (foldM_ext _ (fun (l : list dcmd) i => let! d := Ok (PcAdd (nth 0 (f i) 0) (nth 1 (f i) 0) (if (i =? 0)%nat then MoveTo else LineTo)) in Ok (l ++ [d]))).
      * rewrite (foldM_snoc _ (fun i => PcAdd (nth 0 (f i) 0) (nth 1 (f i) 0) (if (i =? 0)%nat then MoveTo else LineTo))) by reflexivity. cbn [bind app]. reflexivity.
      * intros i l _. fold (kv i). destruct (Pt i 0%nat ltac:(lia)) as (E & G0). destruct (Pt i 1%nat ltac:(lia)) as (_ & G1). rewrite E. cbn [bind]. rewrite G0. cbn [bind]. rewrite G1. reflexivity.
    + apply d_2d; [|constructor]. destruct (chain_of_2d f 10 0) as [H|(i & H)]; [|exfalso; apply H; rewrite Lf; auto].
      replace [nth 0 (f 0%nat) 0; nth 1 (f 0%nat) 0] with (f 0%nat); [exact H|]. specialize (Lf 0%nat). rewrite S2 in Lf.
      destruct (f 0%nat) as [|x [|y [|w l]]]; try discriminate Lf. reflexivity.
  - exists (PlBegin :: PlAdd (nth 0 (f 0%nat) 0) (nth 1 (f 0%nat) 0) (nth 2 (f 0%nat) 0) :: map (fun i => PlAdd (nth 0 (f i) 0) (nth 1 (f i) 0) (nth 2 (f i) 0)) (seq 1 10) ++ PlEnd :: []), (chain_of f 10).
    split; [|split; [|exact Pg]].
    + intros cv. rewrite S3 at 1. cbn [Nat.eqb].
      rewrite (foldM_ext _ (fun (l : list dcmd) i => let! d := Ok (PlAdd (nth 0 (f i) 0) (nth 1 (f i) 0) (nth 2 (f i) 0)) in Ok (l ++ [d]))).
      * rewrite (foldM_snoc _ (fun i => PlAdd (nth 0 (f i) 0) (nth 1 (f i) 0) (nth 2 (f i) 0))) by reflexivity. cbn [bind app]. reflexivity.
      * intros i l _. fold (kv i). destruct (Pt i 0%nat ltac:(lia)) as (E & G0). destruct (Pt i 1%nat ltac:(lia)) as (_ & G1). destruct (Pt i 2%nat ltac:(lia)) as (_ & G2). rewrite E. cbn [bind]. rewrite G0. cbn [bind]. rewrite G1. cbn [bind]. rewrite G2. reflexivity.
    + apply d_3d; [|constructor]. destruct (chain_of_3d f 10 0) as [H|(i & H)]; [|exfalso; apply H; rewrite Lf; auto].
      replace [nth 0 (f 0%nat) 0; nth 1 (f 0%nat) 0; nth 2 (f 0%nat) 0] with (f 0%nat); [exact H|]. specialize (Lf 0%nat). rewrite S3 in Lf.
      destruct (f 0%nat) as [|x [|y [|z [|w l]]]]; try discriminate Lf. reflexivity.
Qed.

Lemma polygon_ext path p q n xi eta : p_space p = p_space q -> (forall t j, (j < p_space p)%nat -> pos p (xi t) j = pos q (eta t) j) ->
  polygon path p n xi -> polygon path q n eta.
Proof.
  intros Es E (L & H). split; auto. intros i Hi. destruct (H i Hi) as (Ls & Hs). split; auto. intros j Hj. rewrite <- !E by (rewrite Es; auto). apply Hs. now rewrite Es.
Qed.

Lemma draw_shape_line p : pad_wf p -> kind_ndim (p_kind p) = 1%nat -> p_ok p = true ->
  exists cv path, draw_shape_edges p = Ok cv /\ draws cv [path] /\ polygon path p 10 (fun t => [2 * t - 1]).
Proof.
  intros W D Op. destruct (draw_edge_ok p W Op) as (cmds & path & A & B & P). exists cmds, path. split; auto.
  unfold draw_shape_edges, p_geo. rewrite Op, D. cbn [negb Nat.eqb]. exact (A []).
Qed.

Lemma draw_shape_ok p : pad_wf p -> kind_ndim (p_kind p) <> 1%nat -> p_ok p = true ->
  exists cv paths, draw_shape_edges p = Ok cv /\ draws cv paths /\ List.length paths = kind_nedge (p_kind p) /\
    forall e, (e < kind_nedge (p_kind p))%nat -> polygon (nth e paths []) p 10 (fun t => edge_point (p_kind p) e (2 * t - 1)).
Proof.
  intros W D Op. pose proof W as (S23 & Dk & _).
  destruct (kind_edge_kind (p_kind p)) as [ek|] eqn:Ek; [|destruct (p_kind p); try discriminate Ek; exfalso; apply D; reflexivity].
  unfold draw_shape_edges, p_geo. rewrite Op, Ek. rewrite (proj2 (Nat.eqb_neq _ _) D). cbn [negb bind].
  assert (Dek : kind_ndim ek = 1%nat) by now apply (edge_kind_dim _ _ Ek).
  destruct (pad_new_ok (p_space p) ek S23 ltac:(lia)) as (p0 & E0 & W0 & K0 & S0 & _). rewrite E0. cbn [bind].
  pose (P := fun (n : nat) (st : canvas * pad) => pad_wf (snd st) /\ p_kind (snd st) = ek /\ p_space (snd st) = p_space p /\
    exists paths, draws (fst st) paths /\ List.length paths = n /\
      forall e, (e < n)%nat -> polygon (nth e paths []) p 10 (fun t => edge_point (p_kind p) e (2 * t - 1))).
  match goal with |- context [foldM ?f (seq 0 ?n) ?s] => destruct (foldM_seq f P n s) as (st & Es & Ws & Ks & Ss & paths & Dr & Lp & Hp) end.
  - cbn [fst snd]. do 3 (split; [assumption|]). exists []. split; [constructor|]. split; [reflexivity|]. intros; lia.
  - intros e [cv ep] He (We & Ke & Se & paths & Dr & Lp & Hp). cbn [fst snd] in *.
    destruct (fill_ok (fun i j => let! row := get (p_xxt p) j in get row (edge_node_id (p_kind p) e i)) (fun i j => node_x p j (edge_node_id (p_kind p) e i)) ep We) as (q & Eq & Wq & Kq & Sq & Oq & Xq).
    { intros i j Hi Hj. rewrite Se in Hj. pose proof W as (_ & _ & Lx & _). rewrite (get_ok _ _ []) by lia. cbn [bind].
      rewrite (get_ok _ _ 0); [reflexivity|]. rewrite wf_row by auto. rewrite Ke in Hi. apply edge_node_lt; auto. now rewrite (edge_nnode_kind _ _ Ek). }
    rewrite Se, Ke in Eq. rewrite <- (edge_nnode_kind _ _ Ek) in Eq. 
    destruct (draw_edge_ok q Wq Oq) as (cmds & path & A & B & Pq).
    exists (cv ++ cmds, q). split.
    + rewrite (foldM_ext _ (fun (p1 : pad) i => foldM (fun (p1 : pad) j => let! v := let! row := get (p_xxt p) j in get row (edge_node_id (p_kind p) e i) in set_xx p1 i j v) (seq 0 (p_space p)) p1)).
      * rewrite Eq. cbn [bind]. rewrite A. reflexivity.
      * intros i p1 _. apply foldM_ext. intros j p2 _. destruct (get (p_xxt p) j); reflexivity.
    + unfold P. cbn [fst snd]. do 3 (split; [first [assumption|congruence]|]). exists (paths ++ [path]). split; [now apply draws_app|]. split; [rewrite app_length; cbn; lia|].
      intros e' He'. destruct (Nat.eq_dec e' e) as [->|N].
      * rewrite app_nth2, Lp, Nat.sub_diag by lia. cbn [nth]. eapply polygon_ext; [| |exact Pq]; [congruence|].
        intros t j Hj. apply (edge_pos p q e (2 * t - 1) j); auto; [congruence| |congruence].
        split; auto. split; [congruence|]. intros i n Hi Hn. rewrite Xq; auto; congruence.
      * rewrite app_nth1 by lia. apply Hp. lia.
  - exists (fst st), paths. split; [|auto]. now rewrite Es.
Qed.
