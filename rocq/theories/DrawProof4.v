(* Shells in space; the meaning of a list of commands is unique; the shape of a single element. *)
From Coq Require Import String Reals QArith Qreals List Arith Bool ZArith Lia Lra.
From Verif Require Import Base BaseFacts Expr ShapesData Kind MeshModel MeshQuerySpec ShapesModel ShapesSpec ShapesProof ShapesShared PadModel PadSpec PadProof PadProof2 PadProof4 TopoProof NormalSpec NormalProof2 NormalProof4 DrawModel DrawSpec DrawProof DrawProof2 DrawProof3.
Import ListNotations.
Local Open Scope list_scope.
Local Open Scope R_scope.

Lemma block_nth {A} n (bs : list (list A)) : (forall b, In b bs -> List.length b = n) ->
  forall e, (e < List.length bs)%nat -> firstn n (skipn (e * n) (List.concat bs)) = nth e bs [].
Proof.
  induction bs as [|b bs IH]; intros L e He; cbn [List.length] in He; [lia|]. pose proof (L b (or_introl eq_refl)) as Lb.
  destruct e as [|e]; cbn [Nat.mul nth List.concat].
  - cbn [skipn]. rewrite <- Lb. rewrite firstn_app, firstn_all, Nat.sub_diag. cbn [firstn]. apply app_nil_r.
  - rewrite skipn_app, (skipn_all2 b) by lia. cbn [app]. rewrite Lb. replace (n + e * n - n)%nat with (e * n)%nat by lia. apply IH; [|lia]. intros; apply L; now right.
Qed.

Lemma concat_length {A} n (bs : list (list A)) : (forall b, In b bs -> List.length b = n) -> List.length (List.concat bs) = (List.length bs * n)%nat.
Proof.
  induction bs as [|b bs IH]; intros L; [reflexivity|]. cbn [List.concat List.length Nat.mul]. rewrite app_length, IH, (L b (or_introl eq_refl)); auto. intros; apply L; now right.
Qed.

Section Cell.
Variables (m : mesh R) (c : nat) (cl : cell).
Hypothesis (C : consistent m) (K : coords_complete m) (Hc : nth_error (cells m) c = Some cl).

(* rows that follow one another *)
Fixpoint linked (rows : list (list nat)) : Prop :=
  match rows with a :: ((b :: _) as t) => nth 1 a 0%nat = nth 0 b 0%nat /\ linked t | _ => True end.

Lemma tail_last ek : last (tail_nodes ek) 0%nat = 1%nat.
Proof. destruct ek; reflexivity. Qed.

Lemma rows_pieces p ek rows : linked rows -> match rows with [] => True | ns :: _ =>
  pieces_3d (at3 (rowx p ns) 0) (flat_map (fun ns => map (add3 (rowx p ns)) (tail_nodes ek)) rows)
    (List.concat (map (fun ns => chain3 (rowx p ns) 0 (tail_nodes ek)) rows)) end.
Proof.
  induction rows as [|ns rows IH]; intros H; auto. cbn [flat_map map List.concat].
  apply chain3_pieces. rewrite tail_last. destruct rows as [|n2 rows]; [constructor|]. destruct H as (E & H). specialize (IH H).
  replace (at3 (rowx p ns) 1) with (at3 (rowx p n2) 0); auto. unfold at3, rowx. now rewrite E.
Qed.

Lemma mid_rows p ek rows : element_of m cl p -> ndim m = 3%nat -> is_lin ek = true ->
  (forall ns, In ns rows -> List.length ns = kind_nnode ek /\ forall n, In n ns -> (n < kind_nnode (c_kind cl))%nat) ->
  forall cv, foldM (body m cl ek) (map (fun ns => (ns, (false, false))) rows) cv =
    Ok (cv ++ flat_map (fun ns => map (add3 (rowx p ns)) (tail_nodes ek)) rows).
Proof.
  intros El D Il. induction rows as [|ns rows IH]; intros H cv; cbn [map foldM flat_map]; [now rewrite app_nil_r|].
  destruct (H ns (or_introl eq_refl)) as (L & Rg). rewrite (row_3d m c cl C K Hc p ek ns El D Il L Rg). cbn [bind pl_last app].
  rewrite IH by (intros; apply H; now right). now rewrite app_nil_r, <- app_assoc.
Qed.

Lemma loop_shell p ek n0 mid nl : element_of m cl p -> ndim m = 3%nat -> is_lin ek = true ->
  (forall ns, In ns (n0 :: mid ++ [nl]) -> List.length ns = kind_nnode ek /\ forall n, In n ns -> (n < kind_nnode (c_kind cl))%nat) ->
  linked (n0 :: mid ++ [nl]) ->
  exists cmds, (forall cv, foldM (body m cl ek) ((n0, (true, false)) :: map (fun ns => (ns, (false, false))) mid ++ [(nl, (false, true))]) cv = Ok (cv ++ cmds)) /\
    draws cmds [List.concat (map (fun ns => chain3 (rowx p ns) 0 (tail_nodes ek)) (n0 :: mid ++ [nl]))].
Proof.
  intros El D Il H Lk.
  exists (PlBegin :: add3 (rowx p n0) 0 :: flat_map (fun ns => map (add3 (rowx p ns)) (tail_nodes ek)) (n0 :: mid ++ [nl]) ++ PlEnd :: []). split.
  - intros cv. cbn [foldM]. destruct (H n0 (or_introl eq_refl)) as (L0 & R0).
    rewrite (row_3d m c cl C K Hc p ek n0 El D Il L0 R0). cbn [bind]. rewrite foldM_app, (mid_rows p ek mid El D Il).
    2:{ intros ns Hn. apply H. right. apply in_or_app. now left. }
    cbn [bind foldM]. destruct (H nl) as (Ln & Rn). { right. apply in_or_app. right. now left. }
    rewrite (row_3d m c cl C K Hc p ek nl El D Il Ln Rn). cbn [bind pl_last]. f_equal. cbn [flat_map]. rewrite flat_map_app. cbn [flat_map].
    rewrite <- ?app_assoc. cbn [app]. rewrite <- ?app_assoc. cbn [app]. rewrite ?app_nil_r. reflexivity.
  - apply d_3d; [|constructor]. apply (rows_pieces p ek (n0 :: mid ++ [nl]) Lk).
Qed.

Ltac decide_rows :=
  intros ns Hns; cbn [In app] in Hns; repeat (destruct Hns as [<-|Hns]; [split; [reflexivity|intros n Hn; apply Nat.ltb_lt; cbn [In] in Hn; repeat (destruct Hn as [<-|Hn]; [vm_compute; reflexivity|]); destruct Hn]|]); destruct Hns.

Lemma shell_space : ndim m = 3%nat -> kind_ndim (c_kind cl) = 2%nat ->
  exists p cmds path, get_pad m c = Ok p /\ element_of m cl p /\ (forall cv, draw_cell m cv c = Ok (cv ++ cmds)) /\ draws cmds [path] /\
    let n := (kind_edge_nnode (c_kind cl) - 1)%nat in
    List.length path = (kind_nedge (c_kind cl) * n)%nat /\
    forall e, (e < kind_nedge (c_kind cl))%nat -> polygon (firstn n (skipn (e * n) path)) p n (edge_back (c_kind cl) e).
Proof.
  intros D Dk. destruct (get_pad_ok m c cl C K (or_intror D) Hc ltac:(lia)) as (p & Ep & El & _). pose proof El as (W & Kp & Sp & _).
  destruct (kind_edge_kind (c_kind cl)) as [ek|] eqn:Ek; [|destruct (c_kind cl); discriminate].
  assert (Il : is_lin ek = true) by (destruct (c_kind cl); try discriminate Ek; injection Ek as <-; reflexivity).
  assert (G : exists cmds, (forall cv, draw_cell m cv c = Ok (cv ++ cmds)) /\
    draws cmds [List.concat (map (fun ns => chain3 (rowx p ns) 0 (tail_nodes ek)) (map (inward_row (c_kind cl)) (seq 0 (kind_nedge (c_kind cl)))))]).
  { pose proof (loop_shell p ek) as LS. destruct (in_range_get m c cl Hc) as (G1 & G2).
    assert (Sx : (exists cmds, (forall cv, foldM (body m cl (fst (draw_rows (c_kind cl)))) (snd (draw_rows (c_kind cl))) cv = Ok (cv ++ cmds)) /\
      draws cmds [List.concat (map (fun ns => chain3 (rowx p ns) 0 (tail_nodes ek)) (map (inward_row (c_kind cl)) (seq 0 (kind_nedge (c_kind cl)))))]) ->
      exists cmds, (forall cv, draw_cell m cv c = Ok (cv ++ cmds)) /\
      draws cmds [List.concat (map (fun ns => chain3 (rowx p ns) 0 (tail_nodes ek)) (map (inward_row (c_kind cl)) (seq 0 (kind_nedge (c_kind cl)))))]).
    { intros (cmds & A & B). exists cmds. split; auto. intros cv. unfold draw_cell. rewrite G1, G2. cbn [bind].
      specialize (A cv). unfold body in A. destruct (c_kind cl); try discriminate Dk; exact A. }
    apply Sx. clear Sx G1 G2 Kp.
    assert (Kl : exists k, k = c_kind cl) by eauto. destruct Kl as (k & Kk). rewrite <- Kk in *. 
    destruct k; try discriminate Dk; injection Ek as <-; cbn [draw_rows fst snd];
    match goal with
    | |- exists _, (forall cv, foldM _ [(?a, _); (?b, _); (?d, _)] cv = _) /\ _ => apply (LS a [b] d El D eq_refl); [decide_rows|vm_compute; auto]
    | |- exists _, (forall cv, foldM _ [(?a, _); (?b, _); (?d, _); (?e, _)] cv = _) /\ _ => apply (LS a [b; d] e El D eq_refl); [decide_rows|vm_compute; auto]
    end. }
  destruct G as (cmds & A & B). rewrite map_map in B. eexists p, cmds, _. do 3 (split; [assumption|]). split; [exact B|].
  cbn zeta. rewrite (edge_nnode_kind _ _ Ek).
  assert (Lb : forall b, In b (map (fun e => chain3 (rowx p (inward_row (c_kind cl) e)) 0 (tail_nodes ek)) (seq 0 (kind_nedge (c_kind cl)))) -> List.length b = (kind_nnode ek - 1)%nat).
  { intros b Hb. apply in_map_iff in Hb as (e & <- & _). destruct ek; try discriminate Il; reflexivity. }
  split; [rewrite (concat_length _ _ Lb), map_length, seq_length; reflexivity|].
  intros e He. rewrite (block_nth _ _ Lb) by (now rewrite map_length, seq_length).
  rewrite (PadProof.nth_map_in _ _ _ 0%nat) by (rewrite seq_length; auto). rewrite seq_nth by auto. cbn [Nat.add].
  apply chain_polygon; auto; [lia|]. intros t j Hj. rewrite <- Kp in *. apply inward_pos; auto. lia.
Qed.
End Cell.

(* straight edges are drawn exactly *)
Lemma polygon_straight path p xi : polygon path p 1 xi ->
  (forall t j, (j < p_space p)%nat -> pos p (xi t) j = (1 - t) * pos p (xi 0) j + t * pos p (xi 1) j) ->
  forall t j, (j < p_space p)%nat -> piece_at (nth 0 path []) t j = pos p (xi t) j.
Proof.
  intros (L & H) A t j Hj. destruct (H 0%nat ltac:(lia)) as (Ls & Hs). destruct (Hs j Hj) as (H0 & H1).
  change (INR 0) with 0 in H0. change (INR 1) with 1 in *. replace (0 / 1) with 0 in H0 by field. replace (1 / 1) with 1 in H1 by field.
  rewrite A, <- H0, <- H1 by auto. destruct (nth 0 path []) as [|a [|b [|d l]]]; try discriminate Ls. unfold piece_at. cbn [map bernstein]. ring.
Qed.

(* the paths are determined by the commands *)
Lemma pieces_2d_det cur r l : pieces_2d cur r l -> forall r' l' t t', pieces_2d cur r' l' -> r ++ PcEnd false :: t = r' ++ PcEnd false :: t' -> l = l' /\ t = t'.
Proof.
  induction 1; intros r' l' t t' H' E; destruct H'; cbn [app] in E; try discriminate E; injection E; intros; subst; auto;
  match goal with IH : forall _ _ _ _, pieces_2d _ _ _ -> _ |- _ => edestruct IH as (-> & ->); eauto end.
Qed.
Lemma pieces_3d_det cur r l : pieces_3d cur r l -> forall r' l' t t', pieces_3d cur r' l' -> r ++ PlEnd :: t = r' ++ PlEnd :: t' -> l = l' /\ t = t'.
Proof.
  induction 1; intros r' l' t t' H' E; destruct H'; cbn [app] in E; try discriminate E; injection E; intros; subst; auto.
  edestruct IHpieces_3d as (-> & ->); eauto.
Qed.
Lemma draws_det cv ps : draws cv ps -> forall ps', draws cv ps' -> ps = ps'.
Proof.
  induction 1 as [|x y r l rest ps Hp Hd IH|x y z r l rest ps Hp Hd IH]; intros ps' H'.
  - now inversion H'.
  - remember (PcBegin :: _) as cv eqn:E. destruct H' as [|x' y' r' l' rest' ps'' Hp' Hd'|]; try discriminate E.
    injection E; intros E' -> ->. symmetry in E'. edestruct (pieces_2d_det _ _ _ Hp _ _ _ _ Hp' E') as (-> & ->). f_equal. now apply IH.
  - remember (PlBegin :: _) as cv eqn:E. destruct H' as [| |x' y' z' r' l' rest' ps'' Hp' Hd']; try discriminate E.
    injection E; intros E' -> -> ->. symmetry in E'. edestruct (pieces_3d_det _ _ _ Hp _ _ _ _ Hp' E') as (-> & ->). f_equal. now apply IH.
Qed.
Lemma draws_app a p : draws a p -> forall b q, draws b q -> draws (a ++ b) (p ++ q).
Proof.
  induction 1 as [|x y r l rest ps Hp Hd IH|x y z r l rest ps Hp Hd IH]; intros b q H; auto; cbn [app]; rewrite <- app_assoc; cbn [app]; [apply d_2d|apply d_3d]; auto.
Qed.
