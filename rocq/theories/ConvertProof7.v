(* Proofs about the conversion of meshes: shapes of the cells *)
From Coq Require Import String Reals QArith Qreals List Arith Bool ZArith Lia Lra Permutation.
From Verif Require Import Base BaseFacts Kind Expr ExprProof ShapesModel ShapesSpec ShapesProof ShapesTables ShapesShared MeshModel MeshQuerySpec TopoModel TopoSpec TopoMaps TopoProof TopoFeat TopoFeat4 TopoFeat5 PadModel PadSpec PadProof PadProof2 PadProof4 ConvertModel ConvertSpec ConvertProof ConvertProof2 ConvertProof3 ConvertProof4 ConvertProof5 ConvertProof6.
Import ListNotations.
Local Open Scope list_scope.
Local Open Scope nat_scope.

Definition keep_check (s t : geokind) : bool :=
  kind_eqb s t ||
  forallb (fun b => expr_eqb
      (edot (kind_interp t) (map (fun a => at_node t a (nth b (kind_interp s) (Expr.C 0))) (seq 0 (kind_nnode t))))
      (nth b (kind_interp s) (Expr.C 0)))
    (seq 0 (kind_nnode s)).
Lemma keep_checked : forallb (fun s => forallb (fun t => implb (keeps_shape s t) (keep_check s t)) plane_kinds) plane_kinds = true.
Proof. vm_compute. reflexivity. Qed.
Lemma keep_ok s t : keeps_shape s t = true -> keep_check s t = true.
Proof.
  intros H. assert (Is : In s plane_kinds) by (destruct s; try discriminate H; simpl; tauto).
  assert (It : In t plane_kinds) by (destruct s; try discriminate H; destruct t; try discriminate H; simpl; tauto).
  pose proof keep_checked as X. rewrite forallb_forall in X. specialize (X s Is). rewrite forallb_forall in X. specialize (X t It).
  rewrite H in X. exact X.
Qed.

Lemma eval_at_node t a e : eval (fun _ => 0%R) (at_node t a e) = eval (env (ref_coords t a)) e.
Proof. unfold at_node. rewrite eval_subst. apply eval_ext. intros i. rewrite env_ref. reflexivity. Qed.
Lemma eval_at_node_any f t a e : eval f (at_node t a e) = eval (env (ref_coords t a)) e.
Proof. unfold at_node. rewrite eval_subst. apply eval_ext. intros i. rewrite env_ref. reflexivity. Qed.

Lemma dot_lin (w : list R) {A} (x g : A -> R) c : forall l, dot w (map (fun a => (x a * c + g a)%R) l) = (dot w (map x l) * c + dot w (map g l))%R.
Proof. induction w as [|y w IH]; intros [|a l]; simpl; try lra. rewrite IH. lra. Qed.
Lemma dot_swap {A} (w : list R) (l : list A) : forall n (F : A -> list R) u, (forall a, List.length (F a) = n) -> List.length u = n ->
  dot w (map (fun a => dot (F a) u) l) = dot (map (fun b => dot w (map (fun a => nth b (F a) 0%R) l)) (seq 0 n)) u.
Proof.
  induction n as [|n IH]; intros F u HF Hu.
  - destruct u; [|discriminate]. simpl.
    assert (Z : forall l', dot w (map (fun a => dot (F a) []) l') = 0%R).
    { induction w as [|y w IHw]; intros [|a l']; simpl; auto. rewrite IHw. destruct (F a); simpl; lra. }
    apply Z.
  - destruct u as [|c u]; [discriminate|]. simpl in Hu.
    rewrite (map_ext _ (fun a => (nth 0 (F a) 0 * c + dot (tl (F a)) u)%R)).
    2:{ intros a. specialize (HF a). destruct (F a); [discriminate|]. reflexivity. }
    rewrite dot_lin. rewrite (IH (fun a => tl (F a)) u) by (auto; intros a; specialize (HF a); destruct (F a); simpl in *; lia).
    cbn [seq map dot]. f_equal. f_equal. rewrite <- seq_shift, map_map. apply map_ext. intros b. f_equal. apply map_ext. intros a.
    destruct (F a); [destruct b; reflexivity|reflexivity].
Qed.

Lemma keep_interp s t ksi u : keeps_shape s t = true -> List.length u = kind_nnode s ->
  dot (calc_interp t ksi) (map (fun a => dot (calc_interp s (ref_coords t a)) u) (seq 0 (kind_nnode t))) = dot (calc_interp s ksi) u.
Proof.
  intros H Lu. apply keep_ok in H. unfold keep_check in H. apply orb_true_iff in H as [H|H].
  { apply kind_eqb_eq in H. subst t. f_equal. apply (nth_ext _ _ 0%R 0%R); [rewrite map_length, seq_length; auto|].
    intros a Ha. rewrite map_length, seq_length in Ha. rewrite nth_map_seq by auto.
    apply dot_nth; rewrite ?calc_interp_length; auto. intros b Hb. apply interp_at_node; auto. }
  rewrite (dot_swap _ _ (kind_nnode s)) by (auto; intros; apply calc_interp_length). f_equal.
  apply (nth_ext _ _ 0%R 0%R); [rewrite map_length, seq_length, calc_interp_length; auto|].
  intros b Hb. rewrite map_length, seq_length in Hb. rewrite nth_map_seq by auto.
  rewrite forallb_forall in H. specialize (H b ltac:(apply in_seq; lia)). apply (expr_eqb_sound (env ksi)) in H.
  rewrite eval_edot, map_map in H. unfold calc_interp at 3. rewrite nth_map_eval, <- H. unfold calc_interp at 1. f_equal.
  apply map_ext. intros a. rewrite eval_at_node_any. unfold calc_interp. apply nth_map_eval.
Qed.

Section Shape.
Variable leb : R -> R -> bool.
Variable shuffle : emap -> emap.
Hypothesis Sh : forall l, Permutation (shuffle l) l.
Variable m : mesh R.
Variables source target : geokind.
Hypothesis C : consistent m.
Hypothesis K : coords_complete m.
Hypothesis V : convertible m source target.
Variable d : mesh R.
Hypothesis Rd : convert_2d leb shuffle m target = Ok d.

Lemma result_shape c cl dc ksi : oriented m -> conforming m -> keeps_shape source target = true ->
  nth_error (cells m) c = Some cl -> nth_error (cells d) c = Some dc -> image d dc ksi = image m cl ksi.
Proof.
  intros O Cf Ks Hcl Hd. assert (D : ndim m = 2) by apply V.
  destruct (result_valid leb shuffle Sh m source target C K V d Rd) as (Cd & Kd & Dd & _ & _ & _ & Cs & _).
  destruct (Cs c cl Hcl) as (dc' & Hd' & _ & _ & Kc). assert (dc' = dc) by congruence. subst dc'.
  assert (Ins : In cl (cells m)) by (eapply nth_error_In; eauto).
  assert (Ek : c_kind cl = source) by (apply V; auto).
  destruct (proj2 Cd c dc Hd) as (_ & Ld & Rf). rewrite Kc in Ld.
  unfold image. rewrite Dd, D, Kc, Ek. apply map_ext_in. intros i Hi. apply in_seq in Hi.
  rewrite <- (keep_interp source target ksi (cell_x m cl i) Ks) by (unfold cell_x; rewrite map_length; rewrite <- Ek; apply (proj2 C c cl Hcl)).
  f_equal. apply (nth_ext _ _ 0%R 0%R); [unfold cell_x; rewrite !map_length, seq_length; auto|].
  intros a Ha. unfold cell_x in Ha. rewrite map_length, Ld in Ha. rewrite nth_map_seq by auto.
  destruct (nth_error (c_points dc) a) as [q|] eqn:Eq; [|apply nth_error_None in Eq; lia].
  assert (Lq : q < List.length (points d)) by (apply Rf; eapply nth_error_In; eauto).
  destruct (nth_error (points d) q) as [pt|] eqn:Ep; [|apply nth_error_None in Ep; lia].
  assert (NP : node_point d c a pt) by (exists dc, q; auto).
  pose proof (result_position leb shuffle Sh m source target C K V d Rd c cl a pt O Cf Hcl Ha NP) as X.
  transitivity (nth i (pt_coords pt) 0%R).
  - unfold cell_x. apply (nth_error_nth (map _ (c_points dc))). rewrite nth_error_map, Eq. simpl. rewrite Ep. reflexivity.
  - rewrite X. unfold image. rewrite D, nth_map_seq by lia. rewrite Ek. reflexivity.
Qed.

(* nodes that are not shared with an earlier cell *)
Lemma result_created c cl a pt : nth_error (cells m) c = Some cl -> ncorners source <= a < kind_nnode target ->
  (forall e n ne, on_edge target e a -> n < c -> ~ shares m c e n ne) -> node_point d c a pt ->
  pt_coords pt = image m cl (ref_coords target a).
Proof.
  intros Hcl Ha N (dc & q & Hd & Hq & Hp). assert (Hc : c < List.length (cells m)) by (apply nth_error_Some; congruence).
  assert (I : node_id d c a q) by (exists dc; auto).
  destruct V as (D & _ & One & Ps & Ec). destruct (class_facts source target Ps Ec) as (_ & _ & Pt).
  destruct (view leb shuffle Sh m source target C K V d Rd) as (org & _ & _ & _ & _ & _ & _ & _ & G & _ & Hn & _).
  destruct (Hn c a q Hc Ha I) as [[O _]|(e & n & ne & i & Lt & S & Hi & Ei & _)].
  - destruct (G q pt _ Hp O) as (_ & _ & cl' & Hcl' & E & _). congruence.
  - destruct (shares_in m source target C D Ps Ec One c e n ne S) as (_ & _ & He & _).
    destruct (rev_index target i Pt Hi) as (i' & Hi' & Rv). destruct (N e n ne); auto.
    split; [auto|]. exists i'. split; [auto|]. rewrite <- Ei. symmetry. apply Rv; auto.
Qed.
End Shape.
