(* The outline of a cell (draw_cell). *)
From Coq Require Import String Reals QArith Qreals List Arith Bool ZArith Lia Lra.
From Verif Require Import Base BaseFacts Expr ShapesData Kind MeshModel MeshQuerySpec ShapesModel ShapesSpec ShapesProof ShapesShared PadModel PadSpec PadProof PadProof2 PadProof4 TopoProof NormalSpec NormalProof2 NormalProof4 DrawModel DrawSpec DrawProof.
Import ListNotations.
Local Open Scope list_scope.
Local Open Scope R_scope.

(* the nodal coordinates of a row of local nodes *)
Definition rowx (p : pad) (ns : list nat) (i j : nat) : R := node_x p j (nth i ns 0%nat).

Lemma pick_ok (ii : list nat) ns : (forall n, In n ns -> (n < List.length ii)%nat) ->
  pick ii ns = Ok (map (fun n => nth n ii 0%nat) ns).
Proof.
  intros H. unfold pick.
  assert (G : forall l acc, (forall n, In n l -> (n < List.length ii)%nat) ->
    foldM (fun (l : list nat) n => let! i := get ii n in Ok (l ++ [i])) l acc = Ok (acc ++ map (fun n => nth n ii 0%nat) l)).
  { induction l as [|n l IH]; intros acc Hl; cbn [foldM map]; [now rewrite app_nil_r|].
    rewrite (get_ok _ _ 0%nat) by (apply Hl; now left). cbn [bind]. rewrite IH by (intros; apply Hl; now right). now rewrite <- app_assoc. }
  apply (G ns []); auto.
Qed.

Section Cell.
Variables (m : mesh R) (c : nat) (cl : cell) (p : pad).
Hypothesis (C : consistent m) (K : coords_complete m) (Hc : nth_error (cells m) c = Some cl) (El : element_of m cl p).

Lemma cell_length : List.length (c_points cl) = kind_nnode (c_kind cl).
Proof. pose proof C as (_ & C2). now destruct (C2 _ _ Hc) as (_ & L & _). Qed.
Lemma cell_range q : In q (c_points cl) -> (q < List.length (points m))%nat.
Proof. pose proof C as (_ & C2). destruct (C2 _ _ Hc) as (_ & _ & Rg). apply Rg. Qed.

Lemma row_points ns : (forall n, In n ns -> (n < kind_nnode (c_kind cl))%nat) ->
  let ps := map (fun n => nth n (c_points cl) 0%nat) ns in
  pick (c_points cl) ns = Ok ps /\ (forall q, In q ps -> (q < List.length (points m))%nat) /\
  (forall i j, (i < List.length ns)%nat -> (j < ndim m)%nat -> pcoord m ps i j = Ok (rowx p ns i j)).
Proof.
  intros H ps. split; [|split].
  - apply pick_ok. intros n Hn. rewrite cell_length. auto.
  - intros q Hq. apply in_map_iff in Hq as (n & <- & Hn). apply cell_range, nth_In. rewrite cell_length. auto.
  - intros i j Hi Hj. unfold pcoord, ps.
    assert (Hn : (nth i ns 0 < kind_nnode (c_kind cl))%nat) by (apply H, nth_In; auto).
    rewrite (get_ok _ _ (nth 0 (c_points cl) 0)%nat) by (rewrite map_length; auto). cbn [bind].
    rewrite (map_nth (fun n => nth n (c_points cl) 0%nat)).
    set (id := nth (nth i ns 0%nat) (c_points cl) 0%nat).
    assert (Eid : nth_error (c_points cl) (nth i ns 0%nat) = Some id) by (apply nth_error_nth'; rewrite cell_length; auto).
    destruct (nth_error (points m) id) as [pt|] eqn:Ept.
    2:{ exfalso. apply nth_error_None in Ept. pose proof (cell_range id (nth_error_In _ _ Eid)). lia. }
    unfold get at 1. rewrite Ept. cbn [bind]. pose proof (K pt (nth_error_In _ _ Ept)) as Lp.
    rewrite (get_ok _ _ 0) by lia. f_equal. unfold rowx. destruct El as (_ & _ & _ & X). now rewrite (X _ _ _ _ Eid Ept) by auto.
Qed.

Lemma lin_points : forall i j, (i < kind_nnode (c_kind cl))%nat -> (j < ndim m)%nat -> pcoord m (c_points cl) i j = Ok (node_x p j i).
Proof.
  intros i j Hi Hj. destruct (row_points (seq 0 (kind_nnode (c_kind cl)))) as (_ & _ & P).
  { intros n Hn. apply in_seq in Hn. lia. }
  specialize (P i j ltac:(rewrite seq_length; auto) Hj). unfold rowx in P. rewrite seq_nth in P by auto. cbn [Nat.add] in P. rewrite <- P. f_equal.
  apply (nth_ext _ _ 0%nat 0%nat); [now rewrite map_length, seq_length, cell_length|].
  intros n Hn. rewrite cell_length in Hn. rewrite (nth_map_in _ _ _ 0%nat) by (rewrite seq_length; auto). now rewrite seq_nth by auto.
Qed.

Definition body (k : geokind) (cv : canvas) (r : list nat * (bool * bool)) : res canvas :=
  let! ps := pick (c_points cl) (fst r) in add_curve m cv k ps (fst (snd r)) (snd (snd r)).

(* one row in the plane *)
Lemma row_2d ek ns : ndim m = 2%nat -> is_lin ek = true -> List.length ns = kind_nnode ek ->
  (forall n, In n ns -> (n < kind_nnode (c_kind cl))%nat) ->
  exists cs pc,
    (forall cv b f, body ek cv (ns, (b, f)) = Ok (cv ++ pc_first b (rowx p ns 0 0, rowx p ns 0 1) ++ cs ++ pc_last f)) /\
    (forall rest l, pieces_2d [rowx p ns 1 0; rowx p ns 1 1] rest l -> pieces_2d [rowx p ns 0 0; rowx p ns 0 1] (cs ++ rest) (pc :: l)) /\
    fits ek (rowx p ns) pc.
Proof.
  intros D Il L H. destruct (row_points ns H) as (E & Rg & P).
  destruct (acurve_2d m ek (map (fun n => nth n (c_points cl) 0%nat) ns) (rowx p ns) D K Il) as (cs & pc & A & B & F); auto.
  - now rewrite map_length.
  - intros i j Hi Hj. apply P; lia.
  - exists cs, pc. split; [|auto]. intros cv b f. unfold body. cbn [fst snd]. rewrite E. cbn [bind]. apply A.
Qed.

Definition fitting (ek : geokind) (rows : list (list nat)) (path : list piece) : Prop :=
  Forall2 (fun ns pc => fits ek (rowx p ns) pc) rows path.

(* three or four rows that follow one another *)
Lemma loop_3 ek n0 n1 n2 : ndim m = 2%nat -> is_lin ek = true ->
  (forall ns, In ns [n0; n1; n2] -> List.length ns = kind_nnode ek /\ forall n, In n ns -> (n < kind_nnode (c_kind cl))%nat) ->
  nth 1 n0 0%nat = nth 0 n1 0%nat -> nth 1 n1 0%nat = nth 0 n2 0%nat ->
  exists cmds path, (forall cv, foldM (body ek) [(n0, (true, false)); (n1, (false, false)); (n2, (false, true))] cv = Ok (cv ++ cmds)) /\
    draws cmds [path] /\ fitting ek [n0; n1; n2] path.
Proof.
  intros D Il H E01 E12.
  destruct (row_2d ek n0 D Il (proj1 (H n0 ltac:(cbn; auto))) (proj2 (H n0 ltac:(cbn; auto)))) as (c0 & p0 & A0 & B0 & F0).
  destruct (row_2d ek n1 D Il (proj1 (H n1 ltac:(cbn; auto))) (proj2 (H n1 ltac:(cbn; auto)))) as (c1 & p1 & A1 & B1 & F1).
  destruct (row_2d ek n2 D Il (proj1 (H n2 ltac:(cbn; auto))) (proj2 (H n2 ltac:(cbn; auto)))) as (c2 & p2 & A2 & B2 & F2).
  exists (PcBegin :: PcAdd (rowx p n0 0 0) (rowx p n0 0 1) MoveTo :: (c0 ++ c1 ++ c2) ++ PcEnd false :: []), [p0; p1; p2].
  split; [|split].
  - intros cv. cbn [foldM]. rewrite A0. cbn [bind]. rewrite A1. cbn [bind]. rewrite A2. cbn [bind]. f_equal.
    unfold pc_first, pc_last, pc_add. cbn [fst snd app]. rewrite <- ?app_assoc. cbn [app]. rewrite <- ?app_assoc. cbn [app]. rewrite <- ?app_assoc. reflexivity.
  - apply d_2d; [|constructor]. apply B0. unfold rowx at 1 2. rewrite E01. fold (rowx p n1 0 0) (rowx p n1 0 1).
    apply B1. unfold rowx at 1 2. rewrite E12. fold (rowx p n2 0 0) (rowx p n2 0 1). rewrite <- (app_nil_r c2). apply B2. constructor.
  - repeat constructor; auto.
Qed.

Lemma loop_4 ek n0 n1 n2 n3 : ndim m = 2%nat -> is_lin ek = true ->
  (forall ns, In ns [n0; n1; n2; n3] -> List.length ns = kind_nnode ek /\ forall n, In n ns -> (n < kind_nnode (c_kind cl))%nat) ->
  nth 1 n0 0%nat = nth 0 n1 0%nat -> nth 1 n1 0%nat = nth 0 n2 0%nat -> nth 1 n2 0%nat = nth 0 n3 0%nat ->
  exists cmds path, (forall cv, foldM (body ek) [(n0, (true, false)); (n1, (false, false)); (n2, (false, false)); (n3, (false, true))] cv = Ok (cv ++ cmds)) /\
    draws cmds [path] /\ fitting ek [n0; n1; n2; n3] path.
Proof.
  intros D Il H E01 E12 E23.
  destruct (row_2d ek n0 D Il (proj1 (H n0 ltac:(cbn; auto))) (proj2 (H n0 ltac:(cbn; auto)))) as (c0 & p0 & A0 & B0 & F0).
  destruct (row_2d ek n1 D Il (proj1 (H n1 ltac:(cbn; auto))) (proj2 (H n1 ltac:(cbn; auto)))) as (c1 & p1 & A1 & B1 & F1).
  destruct (row_2d ek n2 D Il (proj1 (H n2 ltac:(cbn; auto))) (proj2 (H n2 ltac:(cbn; auto)))) as (c2 & p2 & A2 & B2 & F2).
  destruct (row_2d ek n3 D Il (proj1 (H n3 ltac:(cbn; auto))) (proj2 (H n3 ltac:(cbn; auto)))) as (c3 & p3 & A3 & B3 & F3).
  exists (PcBegin :: PcAdd (rowx p n0 0 0) (rowx p n0 0 1) MoveTo :: (c0 ++ c1 ++ c2 ++ c3) ++ PcEnd false :: []), [p0; p1; p2; p3].
  split; [|split].
  - intros cv. cbn [foldM]. rewrite A0. cbn [bind]. rewrite A1. cbn [bind]. rewrite A2. cbn [bind]. rewrite A3. cbn [bind]. f_equal.
    unfold pc_first, pc_last, pc_add. cbn [fst snd app]. rewrite <- ?app_assoc. cbn [app]. rewrite <- ?app_assoc. cbn [app]. rewrite <- ?app_assoc. cbn [app]. rewrite <- ?app_assoc. reflexivity.
  - apply d_2d; [|constructor]. apply B0. unfold rowx at 1 2. rewrite E01. fold (rowx p n1 0 0) (rowx p n1 0 1).
    apply B1. unfold rowx at 1 2. rewrite E12. fold (rowx p n2 0 0) (rowx p n2 0 1).
    apply B2. unfold rowx at 1 2. rewrite E23. fold (rowx p n3 0 0) (rowx p n3 0 1). rewrite <- (app_nil_r c3). apply B3. constructor.
  - repeat constructor; auto.
Qed.

Definition inward_row (k : geokind) (e : nat) : list nat := map (edge_node_id_inward k e) (seq 0 (kind_edge_nnode k)).

Ltac decide_rows :=
  intros ns Hns; cbn [In] in Hns; repeat (destruct Hns as [<-|Hns]; [split; [reflexivity|intros n Hn; apply Nat.ltb_lt; cbn [In] in Hn; repeat (destruct Hn as [<-|Hn]; [vm_compute; reflexivity|]); destruct Hn]|]); destruct Hns.

Lemma outline_2d ek : ndim m = 2%nat -> kind_ndim (c_kind cl) = 2%nat -> kind_edge_kind (c_kind cl) = Some ek ->
  exists cmds path, (forall cv, draw_cell m cv c = Ok (cv ++ cmds)) /\ draws cmds [path] /\
    fitting ek (map (inward_row (c_kind cl)) (seq 0 (kind_nedge (c_kind cl)))) path.
Proof.
  intros D Dk Ek.
  assert (Lc : (List.length (cells m) <=? c)%nat = false) by (apply Nat.leb_gt; apply nth_error_Some; congruence).
  assert (G : get (cells m) c = Ok cl) by (unfold get; now rewrite Hc).
  assert (Sx : forall X : Prop, (exists cmds path, (forall cv, foldM (body (fst (draw_rows (c_kind cl)))) (snd (draw_rows (c_kind cl))) cv = Ok (cv ++ cmds)) /\ draws cmds [path] /\
    fitting ek (map (inward_row (c_kind cl)) (seq 0 (kind_nedge (c_kind cl)))) path) -> exists cmds path, (forall cv, draw_cell m cv c = Ok (cv ++ cmds)) /\ draws cmds [path] /\
    fitting ek (map (inward_row (c_kind cl)) (seq 0 (kind_nedge (c_kind cl)))) path).
  { intros _ (cmds & path & A & B & F). exists cmds, path. split; auto. intros cv. unfold draw_cell. rewrite Lc, G. cbn [bind].
    specialize (A cv). unfold body in A. destruct (c_kind cl); try discriminate Dk; exact A. }
  apply (Sx True). clear Sx Lc G.
  assert (Kl : exists k, k = c_kind cl) by eauto. destruct Kl as (k & Kk). rewrite <- Kk in *.
  pose proof (loop_3 ek) as L3. pose proof (loop_4 ek) as L4. rewrite <- Kk in L3, L4. 
  destruct k; try discriminate Dk; injection Ek as <-; cbn [draw_rows fst snd];
  match goal with
  | |- exists _ _, (forall cv, foldM _ [(?a, _); (?b, _); (?d, _)] cv = _) /\ _ => apply (L3 a b d D eq_refl); [decide_rows|reflexivity|reflexivity]
  | |- exists _ _, (forall cv, foldM _ [(?a, _); (?b, _); (?d, _); (?e, _)] cv = _) /\ _ => apply (L4 a b d e D eq_refl); [decide_rows|reflexivity|reflexivity|reflexivity]
  end.
Qed.
End Cell.
