(* Continuity of interpolated fields across shared edges and faces. *)
From Coq Require Import Reals QArith Qreals List Lia Lra Bool Arith.
From Verif Require Import Expr ExprProof ShapesData Kind ShapesModel ShapesSpec ShapesProof.
Import ListNotations.
Local Open Scope R_scope.

Lemma nth_map_seq (f : nat -> R) n j : (j < n)%nat -> nth j (map f (seq 0 n)) 0 = f j.
Proof.
  intros H. rewrite (nth_indep _ 0 (f 0%nat)) by (rewrite map_length, seq_length; exact H).
  rewrite map_nth, seq_nth by exact H. reflexivity.
Qed.

(** edges, opposite orientation *)
Definition inward_check (k : geokind) : bool :=
  match kind_class k, kind_edge_kind k with
  | (CTri | CQua), Some ek =>
    forallb (fun e => expr_eqb
      (edot (map (subst (fun _ => Neg (X 0))) (kind_interp ek))
            (uvars (map (edge_node_id_inward k e) (seq 0 (kind_edge_nnode k)))))
      (edot (kind_interp ek) (uvars (map (edge_node_id k e) (seq 0 (kind_edge_nnode k))))))
    (seq 0 (kind_nedge k))
  | _, _ => true
  end.
Lemma inward_check_ok k : inward_check k = true.
Proof. destruct k; vm_compute; reflexivity. Qed.

Lemma edge_inward_conform k ek e z u :
  (kind_class k = CTri \/ kind_class k = CQua) ->
  kind_edge_kind k = Some ek -> (e < kind_nedge k)%nat -> length u = kind_nnode k ->
  dot (calc_interp k (seg_point (ref_coords k (edge_node_id k e 0))
                                (ref_coords k (edge_node_id k e 1)) z)) u
  = dot (calc_interp ek [- z]) (map (fun i => nth (edge_node_id_inward k e i) u 0) (seq 0 (kind_edge_nnode k))).
Proof.
  intros Hc Hek He Lu. rewrite (edge_conform k ek) by assumption.
  pose proof (inward_check_ok k) as H. unfold inward_check in H. rewrite Hek in H.
  assert (H' : forallb (fun e => expr_eqb
      (edot (map (subst (fun _ => Neg (X 0))) (kind_interp ek))
            (uvars (map (edge_node_id_inward k e) (seq 0 (kind_edge_nnode k)))))
      (edot (kind_interp ek) (uvars (map (edge_node_id k e) (seq 0 (kind_edge_nnode k))))))
    (seq 0 (kind_nedge k)) = true) by (destruct Hc as [E|E]; rewrite E in H; exact H).
  clear H. rewrite forallb_forall in H'. specialize (H' e ltac:(apply in_seq; lia)).
  apply (expr_eqb_sound (cenv [z] u)) in H'. rewrite !eval_edot, !eval_uvars in H'.
  rewrite !map_map in H'.
  assert (Hd : kind_ndim ek = 1%nat).
  { destruct k; inversion Hek; reflexivity. }
  replace (calc_interp ek [- z]) with (map (fun x => eval (cenv [z] u) (subst (fun _ => Neg (X 0)) x)) (kind_interp ek)).
  - rewrite H'. f_equal. unfold calc_interp. apply map_eval_below. intros i Hi. rewrite Hd in Hi.
    assert (i = 0)%nat by lia. subst. reflexivity.
  - transitivity (map (eval (fun i => eval (cenv [z] u) (Neg (X 0)))) (kind_interp ek)).
    + apply map_ext. intros x. apply eval_subst.
    + unfold calc_interp. apply map_eval_below. intros i Hi. rewrite Hd in Hi.
      assert (i = 0)%nat by lia. subst. reflexivity.
Qed.

Lemma shared_edge k1 k2 ek e1 e2 u1 u2 z :
  (kind_class k2 = CTri \/ kind_class k2 = CQua) ->
  kind_edge_kind k1 = Some ek -> kind_edge_kind k2 = Some ek ->
  (e1 < kind_nedge k1)%nat -> (e2 < kind_nedge k2)%nat ->
  length u1 = kind_nnode k1 -> length u2 = kind_nnode k2 ->
  (forall i, (i < kind_nnode ek)%nat ->
     nth (edge_node_id k1 e1 i) u1 0 = nth (edge_node_id_inward k2 e2 i) u2 0) ->
  dot (calc_interp k1 (seg_point (ref_coords k1 (edge_node_id k1 e1 0)) (ref_coords k1 (edge_node_id k1 e1 1)) z)) u1
  = dot (calc_interp k2 (seg_point (ref_coords k2 (edge_node_id k2 e2 0)) (ref_coords k2 (edge_node_id k2 e2 1)) (- z))) u2.
Proof.
  intros Hc H1 H2 He1 He2 L1 L2 H.
  assert (N1 : kind_edge_nnode k1 = kind_nnode ek) by (clear -H1; destruct k1; inversion H1; reflexivity).
  assert (N2 : kind_edge_nnode k2 = kind_nnode ek) by (clear -H2; destruct k2; inversion H2; reflexivity).
  rewrite (edge_conform k1 ek) by assumption. rewrite (edge_inward_conform k2 ek) by assumption.
  rewrite Ropp_involutive, N1, N2. f_equal. apply map_ext_in. intros i Hi. apply in_seq in Hi.
  apply H. lia.
Qed.

(** faces *)
Definition symmetries (k : geokind) : list (list nat) :=
  match kind_class k with CTri => tri_symmetries | CQua => qua_symmetries | _ => [] end.

Definition corner (k : geokind) (c : list nat) (i : nat) : list R := ref_coords k (nth i c 0%nat).
Definition qcorner (k : geokind) (c : list nat) (i : nat) : list Q := reference_coords k (nth i c 0%nat).

(* image of a reference point under the symmetry [c] *)
Definition sym_point (k : geokind) (c : list nat) (r s : R) : list R :=
  match kind_class k with
  | CTri => tri_point (corner k c 0) (corner k c 1) (corner k c 2) r s
  | _ => qua_point (corner k c 0) (corner k c 1) (corner k c 2) (corner k c 3) r s
  end.

Definition sym_expr (k : geokind) (c : list nat) : nat -> expr :=
  match kind_class k with
  | CTri => tri_expr (qcorner k c 0) (qcorner k c 1) (qcorner k c 2)
  | _ => qua_expr (qcorner k c 0) (qcorner k c 1) (qcorner k c 2) (qcorner k c 3)
  end.

Definition const_env (l : list Q) (i : nat) : expr := C (nth i l 0%Q).

(* node whose reference coordinates are the image of those of node i *)
Definition sym_node (k : geokind) (c : list nat) (i : nat) : nat :=
  match find (fun m => forallb (fun j =>
      expr_eqb (subst (const_env (reference_coords k i)) (sym_expr k c j))
               (C (nth j (reference_coords k m) 0%Q))) (seq 0 (kind_ndim k)))
    (seq 0 (kind_nnode k)) with Some m => m | None => kind_nnode k end.

Definition sym_check (k : geokind) : bool :=
  forallb (fun c =>
     expr_eqb (edot (map (subst (sym_expr k c)) (kind_interp k)) (uvars (seq 0 (kind_nnode k))))
              (edot (kind_interp k) (uvars (map (sym_node k c) (seq 0 (kind_nnode k)))))) (symmetries k).
Lemma sym_check_ok k : sym_check k = true.
Proof. destruct k; vm_compute; reflexivity. Qed.

Definition sym_found_check (k : geokind) : bool :=
  forallb (fun c => forallb (fun i => Nat.ltb (nth i c 0%nat) (kind_nnode k)) (seq 0 4) &&
    forallb (fun i => Nat.ltb (sym_node k c i) (kind_nnode k)) (seq 0 (kind_nnode k))) (symmetries k).
Lemma sym_found_check_ok k : sym_found_check k = true.
Proof. destruct k; vm_compute; reflexivity. Qed.

Lemma sym_node_lt k c i : In c (symmetries k) -> (i < kind_nnode k)%nat -> (sym_node k c i < kind_nnode k)%nat.
Proof.
  intros Hc Hi. pose proof (sym_found_check_ok k) as H. unfold sym_found_check in H.
  rewrite forallb_forall in H. specialize (H c Hc). apply andb_prop in H. destruct H as [_ H].
  rewrite forallb_forall in H. apply Nat.ltb_lt. apply H. apply in_seq. lia.
Qed.

Lemma sym_corner_lt k c i : In c (symmetries k) -> (i < 4)%nat -> (nth i c 0 < kind_nnode k)%nat.
Proof.
  intros Hc Hi. pose proof (sym_found_check_ok k) as H. unfold sym_found_check in H.
  rewrite forallb_forall in H. specialize (H c Hc). apply andb_prop in H. destruct H as [H _].
  rewrite forallb_forall in H. apply Nat.ltb_lt. apply H. apply in_seq. lia.
Qed.

Lemma sym_eval k c z u i :
  In c (symmetries k) -> (i < kind_ndim k)%nat ->
  eval (cenv z u) (sym_expr k c i) = nth i (sym_point k c (nth 0 z 0) (nth 1 z 0)) 0.
Proof.
  intros Hc Hi. unfold sym_expr, sym_point, corner, qcorner, symmetries in *.
  destruct (kind_class k) eqn:E; try contradiction.
  - rewrite nth_tri_point; try (rewrite !ref_coords_length; auto; apply sym_corner_lt; unfold symmetries; rewrite ?E; auto; lia).
    cbn [tri_expr eval]. rewrite RMicromega.Q2R_1.
    unfold cenv. simpl. unfold ref_coords. rewrite <- RMicromega.Q2R_0, !map_nth. reflexivity.
  - rewrite nth_qua_point; try (rewrite !ref_coords_length; auto; apply sym_corner_lt; unfold symmetries; rewrite ?E; auto; lia).
    cbn [qua_expr eval]. rewrite RMicromega.Q2R_1, Q2R_4.
    unfold cenv. simpl. unfold ref_coords. rewrite <- RMicromega.Q2R_0, !map_nth. reflexivity.
Qed.

Lemma sym_interp k c r s u :
  In c (symmetries k) -> length u = kind_nnode k ->
  dot (calc_interp k (sym_point k c r s)) u =
  dot (calc_interp k [r; s]) (map (fun i => nth (sym_node k c i) u 0) (seq 0 (kind_nnode k))).
Proof.
  intros Hc Lu. pose proof (sym_check_ok k) as H. unfold sym_check in H.
  rewrite forallb_forall in H. specialize (H c Hc).
  rewrite <- (map_map (sym_node k c) (fun m => nth m u 0)).
  eapply conform_generic; [exact Lu| |exact H].
  intros i Hi. apply (sym_eval k c [r; s]); assumption.
Qed.

(* the node permutation really is the action of the symmetry on the nodes *)
Lemma sym_node_position k c i :
  In c (symmetries k) -> (i < kind_nnode k)%nat ->
  ref_coords k (sym_node k c i) = sym_point k c (nth 0 (ref_coords k i) 0) (nth 1 (ref_coords k i) 0).
Proof.
  intros Hc Hi. pose proof (sym_node_lt k c i Hc Hi) as Hlt.
  assert (Hd : kind_ndim k = 2%nat).
  { clear -Hc. unfold symmetries in Hc. destruct k; simpl in Hc; try contradiction; reflexivity. }
  assert (Hlen : length (sym_point k c (nth 0 (ref_coords k i) 0) (nth 1 (ref_coords k i) 0)) = 2%nat).
  { pose proof (sym_corner_lt k c 0 Hc ltac:(lia)). pose proof (sym_corner_lt k c 1 Hc ltac:(lia)).
    pose proof (sym_corner_lt k c 2 Hc ltac:(lia)). pose proof (sym_corner_lt k c 3 Hc ltac:(lia)).
    assert (L : forall n, (n < 4)%nat -> exists a b, corner k c n = [a; b]).
    { intros n Hn. pose proof (ref_coords_length k (nth n c 0%nat) (sym_corner_lt k c n Hc Hn)) as L.
      rewrite Hd in L. unfold corner. destruct (ref_coords k (nth n c 0%nat)) as [|a [|b [|]]]; simpl in L; try lia. eauto. }
    destruct (L 0%nat ltac:(lia)) as (a0 & b0 & E0). destruct (L 1%nat ltac:(lia)) as (a1 & b1 & E1).
    destruct (L 2%nat ltac:(lia)) as (a2 & b2 & E2). destruct (L 3%nat ltac:(lia)) as (a3 & b3 & E3).
    unfold sym_point. rewrite E0, E1, E2, E3. destruct (kind_class k); reflexivity. }
  apply nth_ext with (d := 0) (d' := 0).
  - rewrite ref_coords_length, Hlen by assumption. exact Hd.
  - intros j Hj. rewrite ref_coords_length in Hj by assumption.
    rewrite <- (sym_eval k c (ref_coords k i) []) by assumption.
    unfold sym_node in *. destruct (find _ _) as [m|] eqn:F; [|lia].
    apply find_some in F. destruct F as [_ F]. rewrite forallb_forall in F.
    specialize (F j ltac:(apply in_seq; lia)). apply (expr_eqb_sound (fun _ => 0)) in F.
    rewrite eval_subst in F. unfold ref_coords at 1. rewrite <- RMicromega.Q2R_0, map_nth.
    simpl in F. rewrite <- F. 
    assert (B : vars_below 2 (sym_expr k c j) = true).
    { unfold sym_expr. destruct (kind_class k); reflexivity. }
    apply (eval_below 2); [|exact B]. intros v Hv. unfold const_env, cenv. cbn [eval].
    replace (Nat.ltb v 3) with true by (symmetry; apply Nat.ltb_lt; lia).
    unfold ref_coords. rewrite <- RMicromega.Q2R_0, map_nth. reflexivity.
Qed.

(* point of face f with face coordinates r, s, in the reference coordinates of the cell *)
Definition face_point (k : geokind) (f : nat) (r s : R) : list R :=
  let p i := ref_coords k (face_node_id k f i) in
  match kind_class k with
  | CTet => tri_point (p 0%nat) (p 1%nat) (p 2%nat) r s
  | _ => qua_point (p 0%nat) (p 1%nat) (p 2%nat) (p 3%nat) r s
  end.

Lemma face_conform k fk f r s u :
  kind_face_kind k = Some fk -> (f < kind_nface k)%nat -> length u = kind_nnode k ->
  dot (calc_interp k (face_point k f r s)) u
  = dot (calc_interp fk [r; s]) (map (fun i => nth (face_node_id k f i) u 0) (seq 0 (kind_nnode fk))).
Proof.
  intros H Hf Lu.
  assert (N : kind_face_nnode k = kind_nnode fk) by (clear -H; destruct k; inversion H; reflexivity).
  rewrite <- N. unfold face_point.
  assert (Hc : kind_class k = CTet \/ kind_class k = CHex).
  { clear -H. destruct k; inversion H; auto. }
  destruct Hc as [E|E]; rewrite E; [apply face_conform_tet|apply face_conform_hex]; assumption.
Qed.

Lemma shared_face k1 k2 fk f1 f2 c u1 u2 r s :
  kind_face_kind k1 = Some fk -> kind_face_kind k2 = Some fk ->
  (f1 < kind_nface k1)%nat -> (f2 < kind_nface k2)%nat ->
  In c (symmetries fk) ->
  length u1 = kind_nnode k1 -> length u2 = kind_nnode k2 ->
  (forall i, (i < kind_nnode fk)%nat ->
     nth (face_node_id k1 f1 i) u1 0 = nth (face_node_id k2 f2 (sym_node fk c i)) u2 0) ->
  dot (calc_interp k1 (face_point k1 f1 r s)) u1 =
  dot (calc_interp k2 (face_point k2 f2 (nth 0 (sym_point fk c r s) 0) (nth 1 (sym_point fk c r s) 0))) u2.
Proof.
  intros H1 H2 Hf1 Hf2 Hc L1 L2 H.
  rewrite (face_conform k1 fk), (face_conform k2 fk) by assumption.
  set (v := map (fun i => nth (face_node_id k2 f2 i) u2 0) (seq 0 (kind_nnode fk))).
  assert (Lv : length v = kind_nnode fk) by (unfold v; rewrite map_length, seq_length; reflexivity).
  assert (Hd : kind_ndim fk = 2%nat) by (clear -H1; destruct k1; inversion H1; reflexivity).
  transitivity (dot (calc_interp fk (sym_point fk c r s)) v).
  - rewrite sym_interp by assumption. f_equal. apply map_ext_in. intros i Hi. apply in_seq in Hi.
    rewrite H by lia. unfold v.
    rewrite (nth_map_seq (fun i => nth (face_node_id k2 f2 i) u2 0)); [reflexivity|].
    apply sym_node_lt; [assumption|lia].
  - f_equal. unfold calc_interp. apply map_eval_below. intros i Hi. rewrite Hd in Hi.
    unfold env. destruct i as [|[|i]]; [reflexivity|reflexivity|lia].
Qed.
