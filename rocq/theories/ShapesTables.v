(* Proofs about the local numbering tables and the triangulation of a cell. *)
From Coq Require Import Reals QArith Qreals List Lia Lra Bool Arith.
From Verif Require Import Expr ExprProof ShapesData Kind ShapesModel ShapesSpec ShapesProof.
Import ListNotations.
Local Open Scope R_scope.

(* boundary of a Tri/Qua cell: nodes in counter-clockwise order *)
Definition boundary_loop (k : geokind) : list nat :=
  concat (map (fun e => map (edge_node_id_inward k e) (along_line (kind_edge_nnode k)))
              (seq 0 (kind_nedge k))).

(* environment: X m = a_m, X (n+m) = b_m *)
Definition tenv (n : nat) (a b : list R) (i : nat) : R :=
  if Nat.ltb i n then nth i a 0 else nth (i - n) b 0.

Definition nodal_expr (k : geokind) (off m : nat) : expr :=
  if Nat.leb (kind_nnode k) m then
    edot (map (subst (fun i => C (nth i (triangulate_extra_coords k (m - kind_nnode k)) 0%Q))) (kind_interp k))
         (map (fun n => X (off + n)) (seq 0 (kind_nnode k)))
  else X (off + m).

Definition ex (k : geokind) (m : nat) := nodal_expr k 0 m.
Definition ey (k : geokind) (m : nat) := nodal_expr k (kind_nnode k) m.

Definition earea (k : geokind) (a b c : nat) : expr :=
  DivC (Sub (Mul (Sub (ex k b) (ex k a)) (Sub (ey k c) (ey k a)))
            (Mul (Sub (ex k c) (ex k a)) (Sub (ey k b) (ey k a)))) 2.

Definition tnode (k : geokind) (t i : nat) : nat :=
  match triangulate_triangle_nodes k t i with Some m => m | None => 0%nat end.

Definition earea_sum (k : geokind) : expr :=
  esum (map (fun t => earea k (tnode k t 0) (tnode k t 1) (tnode k t 2)) (seq 0 (triangulate_ntriangle k))).

Fixpoint eshoe_open (k : geokind) (l : list nat) : expr :=
  match l with
  | p :: ((q :: _) as t) =>
      Add (DivC (Sub (Mul (ex k p) (ey k q)) (Mul (ex k q) (ey k p))) 2) (eshoe_open k t)
  | _ => C 0
  end.
Definition eshoe (k : geokind) (l : list nat) : expr :=
  match l with [] => C 0 | p :: _ => eshoe_open k (l ++ [p]) end.

Definition is_2d (k : geokind) : bool := match kind_class k with CTri | CQua => true | _ => false end.

Definition tri_check (k : geokind) : bool :=
  negb (is_2d k) || expr_eqb (earea_sum k) (eshoe k (boundary_loop k)).

Lemma tri_check_ok k : tri_check k = true.
Proof. destruct k; vm_compute; reflexivity. Qed.

Lemma tri_nodes_check k :
  negb (is_2d k) ||
  (forallb (fun t => forallb (fun i => match triangulate_triangle_nodes k t i with
       Some m => Nat.ltb m (kind_nnode k + triangulate_extra_nnode k) | None => false end) (seq 0 3))
      (seq 0 (triangulate_ntriangle k)) &&
   forallb (fun m => Nat.ltb m (kind_nnode k)) (boundary_loop k) &&
   forallb (fun e => Nat.eqb (length (triangulate_extra_coords k e)) (kind_ndim k)) (seq 0 (triangulate_extra_nnode k))) = true.
Proof. destruct k; vm_compute; reflexivity. Qed.

(* value of nodal row [row] at (possibly extra) node m *)
Definition nodal (k : geokind) (row : list R) (m : nat) : R :=
  if Nat.leb (kind_nnode k) m
  then dot (calc_interp k (map Q2R (triangulate_extra_coords k (m - kind_nnode k)))) row
  else nth m row 0.

Lemma env_const l i : env (map Q2R l) i = Q2R (nth i l 0%Q).
Proof. unfold env. rewrite <- RMicromega.Q2R_0. apply map_nth. Qed.

Lemma map_nth_seq (u : list R) : map (fun m => nth m u 0) (seq 0 (length u)) = u.
Proof.
  induction u as [|x u IH] using rev_ind; [reflexivity|].
  rewrite app_length. simpl. rewrite seq_app, map_app. simpl. f_equal.
  - rewrite <- IH at 2. apply map_ext_in. intros m Hm. apply in_seq in Hm. apply app_nth1. lia.
  - rewrite app_nth2, Nat.sub_diag; [reflexivity|lia].
Qed.

Lemma eval_nodal k off (f : nat -> R) row m :
  length row = kind_nnode k -> (forall n, (n < kind_nnode k)%nat -> f (off + n)%nat = nth n row 0) ->
  eval f (nodal_expr k off m) = nodal k row m.
Proof.
  intros L H. unfold nodal_expr, nodal. destruct (Nat.leb_spec (kind_nnode k) m) as [G|G].
  - rewrite eval_edot. f_equal.
    + rewrite map_map. unfold calc_interp. apply map_ext. intros e. rewrite eval_subst.
      apply eval_ext. intros i. rewrite env_const. reflexivity.
    + rewrite map_map. rewrite <- (map_nth_seq row), L. apply map_ext_in.
      intros n Hn. apply in_seq in Hn. simpl. apply H. lia.
  - simpl. apply H. lia.
Qed.

Lemma eval_ex k a b m : length a = kind_nnode k ->
  eval (tenv (kind_nnode k) a b) (ex k m) = nodal k a m.
Proof.
  intros L. apply eval_nodal; auto. intros n Hn. unfold tenv. simpl.
  apply Nat.ltb_lt in Hn. rewrite Hn. reflexivity.
Qed.
Lemma eval_ey k a b m : length b = kind_nnode k ->
  eval (tenv (kind_nnode k) a b) (ey k m) = nodal k b m.
Proof.
  intros L. apply eval_nodal; auto. intros n Hn. unfold tenv.
  replace (Nat.ltb (kind_nnode k + n) (kind_nnode k)) with false by (symmetry; apply Nat.ltb_ge; lia).
  f_equal. lia.
Qed.

Lemma eval_earea k a b p q r :
  length a = kind_nnode k -> length b = kind_nnode k ->
  eval (tenv (kind_nnode k) a b) (earea k p q r) =
  ((nodal k a q - nodal k a p) * (nodal k b r - nodal k b p) -
   (nodal k a r - nodal k a p) * (nodal k b q - nodal k b p)) / 2.
Proof.
  intros La Lb. unfold earea. cbn [eval]. rewrite !eval_ex, !eval_ey by assumption.
  rewrite Q2R_2. reflexivity.
Qed.

Lemma nodal_lt k row m : (m < kind_nnode k)%nat -> nodal k row m = nth m row 0.
Proof. intros H. unfold nodal. destruct (Nat.leb_spec (kind_nnode k) m); [lia|reflexivity]. Qed.

Lemma eval_eshoe_open k a b : length a = kind_nnode k -> length b = kind_nnode k ->
  forall l, Forall (fun m => (m < kind_nnode k)%nat) l ->
  eval (tenv (kind_nnode k) a b) (eshoe_open k l) =
  shoelace_open (map (fun m => (nth m a 0, nth m b 0)) l).
Proof.
  intros La Lb. induction l as [|p l IH]; intros F; [apply RMicromega.Q2R_0|].
  destruct l as [|q l]; [apply RMicromega.Q2R_0|].
  inversion F as [|? ? Hp F']; subst. inversion F' as [|? ? Hq F'']; subst.
  cbn [eshoe_open eval map shoelace_open fst snd].
  rewrite !eval_ex, !eval_ey, Q2R_2, !nodal_lt by assumption.
  f_equal. apply (IH F').
Qed.

Lemma eval_eshoe k a b l : length a = kind_nnode k -> length b = kind_nnode k ->
  Forall (fun m => (m < kind_nnode k)%nat) l ->
  eval (tenv (kind_nnode k) a b) (eshoe k l) = shoelace (map (fun m => (nth m a 0, nth m b 0)) l).
Proof.
  intros La Lb F. destruct l as [|p l]; [apply RMicromega.Q2R_0|].
  unfold eshoe, shoelace. cbn [map]. rewrite eval_eshoe_open; auto.
  - rewrite map_app. reflexivity.
  - apply Forall_app. split; auto. constructor; auto. inversion F; auto.
Qed.

(* the area of one listed triangle *)
Definition listed_area (i j : nat) (tri : list (option (nat * list R))) : R :=
  match tri with
  | [Some a; Some b; Some c] => tri_area i j (snd a) (snd b) (snd c)
  | _ => 0
  end.

Lemma nth_vertex k xxt i m :
  (i < length xxt)%nat ->
  nth i (if Nat.leb (kind_nnode k) m
         then calc_coords k xxt (map Q2R (triangulate_extra_coords k (m - kind_nnode k)))
         else map (fun row => nth m row 0) xxt) 0 = nodal k (nth i xxt []) m.
Proof.
  intros Hi. unfold nodal. destruct (Nat.leb (kind_nnode k) m).
  - unfold calc_coords. rewrite (nth_indep _ 0 (dot (calc_interp k (map Q2R (triangulate_extra_coords k (m - kind_nnode k)))) [])).
    + apply (map_nth (fun row => dot _ row)).
    + rewrite map_length. exact Hi.
  - rewrite (nth_indep _ 0 (nth m [] 0)).
    + apply (map_nth (fun row => nth m row 0)).
    + rewrite map_length. exact Hi.
Qed.

Lemma triangulate_area k xxt i j :
  (kind_class k = CTri \/ kind_class k = CQua) ->
  Forall (fun row => length row = kind_nnode k) xxt ->
  (i < length xxt)%nat -> (j < length xxt)%nat ->
  exists tris, triangulate k xxt = Some tris /\
    length tris = triangulate_ntriangle k /\
    Forall (fun tri => exists a b c, tri = [Some a; Some b; Some c]) tris /\
    sum (map (listed_area i j) tris) =
    shoelace (map (fun m => (nth m (nth i xxt []) 0, nth m (nth j xxt []) 0)) (boundary_loop k)).
Proof.
  intros Hc HF Hi Hj.
  assert (H2 : is_2d k = true) by (unfold is_2d; destruct Hc as [-> | ->]; reflexivity).
  eexists. split.
  { unfold triangulate. destruct Hc as [-> | ->]; reflexivity. }
  pose proof (tri_nodes_check k) as N. rewrite H2 in N. simpl negb in N. rewrite orb_false_l in N.
  apply andb_prop in N. destruct N as [N _]. apply andb_prop in N. destruct N as [N1 N2].
  rewrite forallb_forall in N1. rewrite forallb_forall in N2.
  assert (V : forall t, (t < triangulate_ntriangle k)%nat -> forall v, (v < 3)%nat ->
     triangulate_triangle_nodes k t v = Some (tnode k t v)).
  { intros t Ht v Hv. specialize (N1 t ltac:(apply in_seq; lia)). rewrite forallb_forall in N1.
    specialize (N1 v ltac:(apply in_seq; lia)). unfold tnode.
    destruct (triangulate_triangle_nodes k t v); [reflexivity|discriminate]. }
  split; [rewrite map_length, seq_length; reflexivity|]. split.
  { apply Forall_forall. intros tri Ht. apply in_map_iff in Ht. destruct Ht as (t & <- & Ht).
    apply in_seq in Ht. simpl. unfold tri_vertex.
    rewrite !(V t) by lia. eauto. }
  rewrite map_map.
  set (a := nth i xxt []). set (b := nth j xxt []).
  assert (La : length a = kind_nnode k).
  { rewrite Forall_forall in HF. apply HF. apply nth_In. exact Hi. }
  assert (Lb : length b = kind_nnode k).
  { rewrite Forall_forall in HF. apply HF. apply nth_In. exact Hj. }
  pose proof (tri_check_ok k) as H. unfold tri_check in H. rewrite H2 in H. simpl in H.
  apply (expr_eqb_sound (tenv (kind_nnode k) a b)) in H.
  unfold earea_sum in H. rewrite eval_esum, map_map, eval_eshoe in H; auto.
  2:{ apply Forall_forall. intros m Hm. apply Nat.ltb_lt. auto. }
  rewrite <- H, sum_Rsum. f_equal. apply map_ext_in. intros t Ht. apply in_seq in Ht.
  rewrite eval_earea by assumption. cbn [map seq]. unfold tri_vertex.
  rewrite !(V t) by lia. cbn [listed_area snd]. unfold tri_area.
  rewrite !nth_vertex by assumption. reflexivity.
Qed.

(** orientation of the triangles on the reference cell *)
Definition qnode (k : geokind) (m : nat) : list Q :=
  if Nat.leb (kind_nnode k) m then triangulate_extra_coords k (m - kind_nnode k) else reference_coords k m.

Definition directed_edges (k : geokind) : list (nat * nat) :=
  concat (map (fun t => [(tnode k t 0, tnode k t 1); (tnode k t 1, tnode k t 2); (tnode k t 2, tnode k t 0)])
              (seq 0 (triangulate_ntriangle k))).

Fixpoint loop_edges_open (l : list nat) : list (nat * nat) :=
  match l with p :: ((q :: _) as t) => (p, q) :: loop_edges_open t | _ => [] end.
Definition loop_edges (l : list nat) : list (nat * nat) :=
  match l with [] => [] | p :: _ => loop_edges_open (l ++ [p]) end.

Definition pair_eqb (a b : nat * nat) : bool := Nat.eqb (fst a) (fst b) && Nat.eqb (snd a) (snd b).
Definition pmem (a : nat * nat) (l : list (nat * nat)) : bool := existsb (pair_eqb a) l.
Fixpoint pnodup (l : list (nat * nat)) : bool :=
  match l with [] => true | a :: t => negb (pmem a t) && pnodup t end.

Lemma pair_eqb_eq a b : pair_eqb a b = true <-> a = b.
Proof.
  destruct a, b. unfold pair_eqb. simpl. rewrite andb_true_iff, !Nat.eqb_eq.
  split; [intros [-> ->]; auto|intros H; inversion H; auto].
Qed.
Lemma pmem_In a l : pmem a l = true <-> In a l.
Proof.
  unfold pmem. rewrite existsb_exists. split.
  - intros (x & H & E). apply pair_eqb_eq in E. subst. auto.
  - intros H. exists a. split; auto. apply pair_eqb_eq. auto.
Qed.
Lemma pnodup_ok l : pnodup l = true -> NoDup l.
Proof.
  induction l as [|a l IH]; simpl; intros H; constructor; apply andb_prop in H; destruct H as [H1 H2]; auto.
  intros G. apply pmem_In in G. rewrite G in H1. discriminate.
Qed.

Definition tri_manifold_check (k : geokind) : bool :=
  negb (is_2d k) ||
  (let d := directed_edges k in let bl := loop_edges (boundary_loop k) in
   pnodup d &&
   forallb (fun e => pmem e d && negb (pmem (snd e, fst e) d)) bl &&
   forallb (fun e => pmem e bl || pmem (snd e, fst e) d) d &&
   forallb (fun m => existsb (fun e => Nat.eqb (fst e) m) d) (seq 0 (kind_nnode k))).

Lemma tri_manifold_check_ok k : tri_manifold_check k = true.
Proof. destruct k; vm_compute; reflexivity. Qed.

Definition tri_orient_check (k : geokind) : bool :=
  negb (is_2d k) ||
  forallb (fun t => negb (Qle_bool (qarea2 (qnode k (tnode k t 0)) (qnode k (tnode k t 1)) (qnode k (tnode k t 2))) 0%Q))
          (seq 0 (triangulate_ntriangle k)).
Lemma tri_orient_check_ok k : tri_orient_check k = true.
Proof. destruct k; vm_compute; reflexivity. Qed.

Lemma forallb_seq (f : nat -> bool) n i : forallb f (seq 0 n) = true -> (i < n)%nat -> f i = true.
Proof. intros H Hi. rewrite forallb_forall in H. apply H. apply in_seq. lia. Qed.

Lemma is_2d_class k : is_2d k = true <-> kind_class k = CTri \/ kind_class k = CQua.
Proof. unfold is_2d. destruct (kind_class k); intuition discriminate. Qed.

Lemma tri_positive k t :
  (kind_class k = CTri \/ kind_class k = CQua) -> (t < triangulate_ntriangle k)%nat ->
  (0 < qarea2 (qnode k (tnode k t 0)) (qnode k (tnode k t 1)) (qnode k (tnode k t 2)))%Q.
Proof.
  intros Hc Ht. apply is_2d_class in Hc. pose proof (tri_orient_check_ok k) as H.
  unfold tri_orient_check in H. rewrite Hc in H. cbn [negb orb] in H.
  apply forallb_seq with (i := t) in H; [|exact Ht]. apply negb_true_iff in H.
  apply Qnot_le_lt. intros G. apply Qle_bool_iff in G. congruence.
Qed.

Lemma tri_manifold k :
  (kind_class k = CTri \/ kind_class k = CQua) ->
  NoDup (directed_edges k) /\
  (forall a b, In (a, b) (loop_edges (boundary_loop k)) -> In (a, b) (directed_edges k) /\ ~ In (b, a) (directed_edges k)) /\
  (forall a b, In (a, b) (directed_edges k) -> In (a, b) (loop_edges (boundary_loop k)) \/ In (b, a) (directed_edges k)) /\
  (forall m, (m < kind_nnode k)%nat -> exists b, In (m, b) (directed_edges k)).
Proof.
  intros Hc. apply is_2d_class in Hc. pose proof (tri_manifold_check_ok k) as H.
  unfold tri_manifold_check in H. rewrite Hc in H. cbn [negb orb] in H. cbv zeta in H.
  repeat (apply andb_prop in H; let G := fresh "G" in destruct H as [H G]).
  rewrite forallb_forall in G0, G1. split; [apply pnodup_ok; exact H|]. split; [|split].
  - intros a b I. specialize (G1 _ I). apply andb_prop in G1. destruct G1 as [A B].
    apply pmem_In in A. split; [exact A|]. intros J. apply negb_true_iff in B. simpl in B.
    apply pmem_In in J. congruence.
  - intros a b I. specialize (G0 _ I). apply orb_prop in G0. destruct G0 as [A|A]; apply pmem_In in A; auto.
  - intros m Hm. apply forallb_seq with (i := m) in G; [|exact Hm]. apply existsb_exists in G.
    destruct G as ([a b] & I & E). apply Nat.eqb_eq in E. simpl in E. subst. eauto.
Qed.

(** * Consistency of the numbering tables *)
Definition edge_pos_check (k : geokind) : bool :=
  match kind_edge_kind k with None => true | Some ek =>
  forallb (fun e => forallb (fun i => forallb (fun j =>
     Qeq_bool (qc j (reference_coords k (edge_node_id k e i)))
       ((1 - qc 0 (reference_coords ek i)) / 2 * qc j (reference_coords k (edge_node_id k e 0)) +
        (1 + qc 0 (reference_coords ek i)) / 2 * qc j (reference_coords k (edge_node_id k e 1)))%Q)
   (seq 0 (kind_ndim k))) (seq 0 (kind_edge_nnode k))) (seq 0 (kind_nedge k)) end.
Lemma edge_pos_check_ok k : edge_pos_check k = true.
Proof. destruct k; vm_compute; reflexivity. Qed.

Lemma edge_position k ek e i j :
  kind_edge_kind k = Some ek -> (e < kind_nedge k)%nat -> (i < kind_edge_nnode k)%nat -> (j < kind_ndim k)%nat ->
  (qc j (reference_coords k (edge_node_id k e i)) ==
       (1 - qc 0 (reference_coords ek i)) / 2 * qc j (reference_coords k (edge_node_id k e 0)) +
       (1 + qc 0 (reference_coords ek i)) / 2 * qc j (reference_coords k (edge_node_id k e 1)))%Q.
Proof.
  intros Hk He Hi Hj. pose proof (edge_pos_check_ok k) as H. unfold edge_pos_check in H. rewrite Hk in H.
  apply forallb_seq with (i := e) in H; [|exact He].
  apply forallb_seq with (i := i) in H; [|exact Hi].
  apply forallb_seq with (i := j) in H; [|exact Hj]. apply Qeq_bool_iff. exact H.
Qed.

Definition inw_check (k : geokind) : bool :=
  match kind_edge_kind k with None => true | Some ek => negb (is_2d k) ||
  forallb (fun e => forallb (fun i =>
   existsb (fun i' => Nat.eqb (edge_node_id_inward k e i) (edge_node_id k e i') &&
      Qeq_bool (qc 0 (reference_coords ek i')) (- qc 0 (reference_coords ek i)))
     (seq 0 (kind_edge_nnode k))) (seq 0 (kind_edge_nnode k))) (seq 0 (kind_nedge k)) end.
Lemma inw_check_ok k : inw_check k = true.
Proof. destruct k; vm_compute; reflexivity. Qed.

Lemma inward_reverse k ek e i :
  (kind_class k = CTri \/ kind_class k = CQua) -> kind_edge_kind k = Some ek ->
  (e < kind_nedge k)%nat -> (i < kind_edge_nnode k)%nat ->
  exists i', (i' < kind_edge_nnode k)%nat /\ edge_node_id_inward k e i = edge_node_id k e i' /\
    (qc 0 (reference_coords ek i') == - qc 0 (reference_coords ek i))%Q.
Proof.
  intros Hc Hk He Hi. apply is_2d_class in Hc. pose proof (inw_check_ok k) as H.
  unfold inw_check in H. rewrite Hk, Hc in H. cbn [negb orb] in H.
  apply forallb_seq with (i := e) in H; [|exact He].
  apply forallb_seq with (i := i) in H; [|exact Hi]. apply existsb_exists in H.
  destruct H as (i' & I & E). apply in_seq in I. apply andb_prop in E. destruct E as [E1 E2].
  exists i'. split; [lia|]. split; [apply Nat.eqb_eq; exact E1|apply Qeq_bool_iff; exact E2].
Qed.

Definition fe_check (k : geokind) : bool :=
  match kind_face_kind k with None => true | Some fk =>
  forallb (fun f => forallb (fun e => forallb (fun i =>
    Nat.eqb (face_edge_node_id k f e i) (face_node_id k f (edge_node_id_inward fk e i)))
    (seq 0 (kind_edge_nnode k))) (seq 0 (kind_face_nedge k))) (seq 0 (kind_nface k)) &&
  Nat.eqb (kind_nedge fk) (kind_face_nedge k) && Nat.eqb (kind_edge_nnode fk) (kind_edge_nnode k)
  && Nat.eqb (kind_nnode fk) (kind_face_nnode k) end.
Lemma fe_check_ok k : fe_check k = true.
Proof. destruct k; vm_compute; reflexivity. Qed.

Lemma face_edges k fk :
  kind_face_kind k = Some fk ->
  kind_nedge fk = kind_face_nedge k /\ kind_edge_nnode fk = kind_edge_nnode k /\ kind_nnode fk = kind_face_nnode k /\
  kind_edge_kind fk = kind_edge_kind k /\
  forall f e i, (f < kind_nface k)%nat -> (e < kind_face_nedge k)%nat -> (i < kind_edge_nnode k)%nat ->
    face_edge_node_id k f e i = face_node_id k f (edge_node_id_inward fk e i).
Proof.
  intros Hk. pose proof (fe_check_ok k) as H. unfold fe_check in H. rewrite Hk in H.
  repeat (apply andb_prop in H; let G := fresh "G" in destruct H as [H G]).
  apply Nat.eqb_eq in G, G0, G1. repeat split; auto.
  - clear -Hk. destruct k; inversion Hk; reflexivity.
  - intros f e i Hf He Hi.
    apply forallb_seq with (i := f) in H; [|exact Hf].
    apply forallb_seq with (i := e) in H; [|exact He].
    apply forallb_seq with (i := i) in H; [|exact Hi]. apply Nat.eqb_eq. exact H.
Qed.

Definition on_edge (k : geokind) (m : nat) : bool :=
  existsb (fun e => existsb (fun i => Nat.eqb (edge_node_id k e i) m) (seq 0 (kind_edge_nnode k))) (seq 0 (kind_nedge k)).
Definition on_face (k : geokind) (m : nat) : bool :=
  existsb (fun f => existsb (fun i => Nat.eqb (face_node_id k f i) m) (seq 0 (kind_face_nnode k))) (seq 0 (kind_nface k)).
Definition is_interior (k : geokind) (m : nat) : bool :=
  existsb (fun i => Nat.eqb (interior_node k i) m) (seq 0 (kind_n_interior_nodes k)).
Definition on_boundary (k : geokind) (m : nat) : bool :=
  match kind_ndim k with 1%nat => Nat.ltb m 2 | 2%nat => on_edge k m | _ => on_face k m end.
Lemma interior_check k :
  forallb (fun m => Bool.eqb (is_interior k m) (negb (on_boundary k m))) (seq 0 (kind_nnode k)) = true.
Proof. destruct k; vm_compute; reflexivity. Qed.

Lemma existsb_seq2 (g : nat -> nat -> nat) n1 n2 m :
  existsb (fun e => existsb (fun i => Nat.eqb (g e i) m) (seq 0 n2)) (seq 0 n1) = true <->
  exists e i, (e < n1)%nat /\ (i < n2)%nat /\ g e i = m.
Proof.
  rewrite existsb_exists. split.
  - intros (e & He & H). apply existsb_exists in H. destruct H as (i & Hi & E).
    apply in_seq in He, Hi. apply Nat.eqb_eq in E. exists e, i. repeat split; auto; lia.
  - intros (e & i & He & Hi & E). exists e. split; [apply in_seq; lia|]. apply existsb_exists.
    exists i. split; [apply in_seq; lia|]. apply Nat.eqb_eq. exact E.
Qed.

Lemma interior_iff k m : (m < kind_nnode k)%nat ->
  (exists i, (i < kind_n_interior_nodes k)%nat /\ interior_node k i = m) <->
  ~ (match kind_ndim k with
     | 1%nat => (m < 2)%nat
     | 2%nat => exists e i, (e < kind_nedge k)%nat /\ (i < kind_edge_nnode k)%nat /\ edge_node_id k e i = m
     | _ => exists f i, (f < kind_nface k)%nat /\ (i < kind_face_nnode k)%nat /\ face_node_id k f i = m
     end).
Proof.
  intros Hm. pose proof (interior_check k) as H. apply forallb_seq with (i := m) in H; [|exact Hm].
  apply Bool.eqb_prop in H.
  assert (A : (exists i, (i < kind_n_interior_nodes k)%nat /\ interior_node k i = m) <-> is_interior k m = true).
  { unfold is_interior. rewrite existsb_exists. split.
    - intros (i & Hi & E). exists i. split; [apply in_seq; lia|]. apply Nat.eqb_eq; exact E.
    - intros (i & Hi & E). apply in_seq in Hi. apply Nat.eqb_eq in E. exists i. split; [lia|exact E]. }
  rewrite A, H, negb_true_iff. unfold on_boundary. rewrite <- not_true_iff_false.
  destruct (kind_ndim k) as [|[|[|n]]].
  - unfold on_face. rewrite existsb_seq2. reflexivity.
  - rewrite Nat.ltb_lt. reflexivity.
  - unfold on_edge. rewrite existsb_seq2. reflexivity.
  - unfold on_face. rewrite existsb_seq2. reflexivity.
Qed.

Definition lower_check (k : geokind) : bool :=
  match kind_lower_order k with None => true | Some l =>
  Nat.ltb (kind_nnode l) (kind_nnode k) && Nat.eqb (kind_ndim l) (kind_ndim k) &&
  forallb (fun m => forallb (fun j => Qeq_bool (qc j (reference_coords k m)) (qc j (reference_coords l m)))
     (seq 0 (kind_ndim k))) (seq 0 (kind_nnode l)) end.
Lemma lower_check_ok k : lower_check k = true.
Proof. destruct k; vm_compute; reflexivity. Qed.
Lemma lower_order k l : kind_lower_order k = Some l ->
  kind_class l = kind_class k /\ (kind_nnode l < kind_nnode k)%nat /\
  forall m j, (m < kind_nnode l)%nat -> (j < kind_ndim k)%nat ->
     (qc j (reference_coords k m) == qc j (reference_coords l m))%Q.
Proof.
  intros Hk. pose proof (lower_check_ok k) as H. unfold lower_check in H. rewrite Hk in H.
  repeat (apply andb_prop in H; let G := fresh "G" in destruct H as [H G]).
  split; [clear -Hk; destruct k; inversion Hk; reflexivity|]. split; [apply Nat.ltb_lt; exact H|].
  intros m j Hm Hj. apply forallb_seq with (i := m) in G; [|exact Hm].
  apply forallb_seq with (i := j) in G; [|exact Hj]. apply Qeq_bool_iff. exact G.
Qed.

(* the faces of a 3D cell form a closed oriented surface *)
Definition face_directed_edges (k : geokind) : list (nat * nat) :=
  concat (map (fun f => map (fun e => (face_edge_node_id k f e 0, face_edge_node_id k f e 1))
    (seq 0 (kind_face_nedge k))) (seq 0 (kind_nface k))).
Lemma closed_check k :
  (pnodup (face_directed_edges k) &&
   forallb (fun e => pmem (snd e, fst e) (face_directed_edges k)) (face_directed_edges k)) = true.
Proof. destruct k; vm_compute; reflexivity. Qed.
Lemma face_closed k :
  NoDup (face_directed_edges k) /\
  forall a b, In (a, b) (face_directed_edges k) -> In (b, a) (face_directed_edges k).
Proof.
  pose proof (closed_check k) as H. apply andb_prop in H. destruct H as [H G].
  split; [apply pnodup_ok; exact H|]. intros a b I. rewrite forallb_forall in G.
  specialize (G _ I). apply pmem_In in G. exact G.
Qed.

Definition centroid (k : geokind) : list Q :=
  match kind_class k with
  | CLin => [0%Q] | CTri => [1#3; 1#3]%Q | CQua => [0; 0]%Q | CTet => [1#4; 1#4; 1#4]%Q | CHex => [0; 0; 0]%Q
  end.
Definition outward_check (k : geokind) : bool :=
  match kind_ndim k with
  | 2%nat => forallb (fun e => negb (Qle_bool 0%Q (qarea2 (reference_coords k (edge_node_id k e 0))
        (reference_coords k (edge_node_id k e 1)) (centroid k)))) (seq 0 (kind_nedge k))
  | 3%nat => forallb (fun f => negb (Qle_bool 0%Q (qvolume6 (reference_coords k (face_node_id k f 0))
        (reference_coords k (face_node_id k f 1)) (reference_coords k (face_node_id k f 2)) (centroid k)))) (seq 0 (kind_nface k))
  | _ => true
  end.
Lemma outward_check_ok k : outward_check k = true.
Proof. destruct k; vm_compute; reflexivity. Qed.

Lemma edge_outward k e : kind_ndim k = 2%nat -> (e < kind_nedge k)%nat ->
  (qarea2 (reference_coords k (edge_node_id k e 0)) (reference_coords k (edge_node_id k e 1)) (centroid k) < 0)%Q.
Proof.
  intros Hd He. pose proof (outward_check_ok k) as H. unfold outward_check in H. rewrite Hd in H.
  apply forallb_seq with (i := e) in H; [|exact He]. apply negb_true_iff in H.
  apply Qnot_le_lt. intros G. apply Qle_bool_iff in G. congruence.
Qed.
Lemma face_outward k f : kind_ndim k = 3%nat -> (f < kind_nface k)%nat ->
  (qvolume6 (reference_coords k (face_node_id k f 0)) (reference_coords k (face_node_id k f 1))
     (reference_coords k (face_node_id k f 2)) (centroid k) < 0)%Q.
Proof.
  intros Hd He. pose proof (outward_check_ok k) as H. unfold outward_check in H. rewrite Hd in H.
  apply forallb_seq with (i := f) in H; [|exact He]. apply negb_true_iff in H.
  apply Qnot_le_lt. intros G. apply Qle_bool_iff in G. congruence.
Qed.

Definition edge_in_face (k : geokind) (e f : nat) : bool :=
  forallb (fun i => existsb (fun n => Nat.eqb (face_node_id k f n) (edge_node_id k e i))
     (seq 0 (kind_face_nnode k))) (seq 0 (kind_edge_nnode k)).
Definition hex_edge_face_check (k : geokind) : bool :=
  match kind_class k with
  | CHex => forallb (fun e => forallb (fun f => Bool.eqb (edge_in_face k e f)
       (existsb (Nat.eqb f) (nth e hex_edge_to_face []))) (seq 0 (kind_nface k))) (seq 0 (kind_nedge k))
  | _ => true
  end.
Lemma hex_edge_face_check_ok k : hex_edge_face_check k = true.
Proof. destruct k; vm_compute; reflexivity. Qed.
Lemma hex_edge_face k e f : kind_class k = CHex -> (e < kind_nedge k)%nat -> (f < kind_nface k)%nat ->
  (In f (nth e hex_edge_to_face []) <->
   forall i, (i < kind_edge_nnode k)%nat -> exists n, (n < kind_face_nnode k)%nat /\ face_node_id k f n = edge_node_id k e i).
Proof.
  intros Hc He Hf. pose proof (hex_edge_face_check_ok k) as H. unfold hex_edge_face_check in H. rewrite Hc in H.
  apply forallb_seq with (i := e) in H; [|exact He].
  apply forallb_seq with (i := f) in H; [|exact Hf]. apply Bool.eqb_prop in H.
  transitivity (existsb (Nat.eqb f) (nth e hex_edge_to_face []) = true).
  { rewrite existsb_exists. split; [intros I; exists f; split; auto; apply Nat.eqb_refl|].
    intros (x & I & E). apply Nat.eqb_eq in E. subst; auto. }
  rewrite <- H. unfold edge_in_face. rewrite forallb_forall. split.
  - intros G i Hi. specialize (G i ltac:(apply in_seq; lia)). apply existsb_exists in G.
    destruct G as (n & I & E). apply in_seq in I. apply Nat.eqb_eq in E. exists n. split; [lia|exact E].
  - intros G i Hi. apply in_seq in Hi. destruct (G i ltac:(lia)) as (n & I & E). apply existsb_exists.
    exists n. split; [apply in_seq; lia|apply Nat.eqb_eq; exact E].
Qed.

(* every kind, all table entries in range and no repeated node on an edge or face *)
Fixpoint nodupb (l : list nat) : bool :=
  match l with [] => true | x :: t => negb (existsb (Nat.eqb x) t) && nodupb t end.
Lemma nodupb_ok l : nodupb l = true -> NoDup l.
Proof.
  induction l as [|a l IH]; simpl; intros H; constructor; apply andb_prop in H; destruct H as [H1 H2]; auto.
  intros G. apply negb_true_iff in H1. rewrite <- not_true_iff_false in H1. apply H1.
  apply existsb_exists. exists a. split; auto. apply Nat.eqb_refl.
Qed.
Lemma distinct_check k :
  (forallb (fun e => nodupb (map (edge_node_id k e) (seq 0 (kind_edge_nnode k)))) (seq 0 (kind_nedge k)) &&
   forallb (fun f => nodupb (map (face_node_id k f) (seq 0 (kind_face_nnode k)))) (seq 0 (kind_nface k))) = true.
Proof. destruct k; vm_compute; reflexivity. Qed.
Lemma edge_nodes_distinct k e : (e < kind_nedge k)%nat -> NoDup (map (edge_node_id k e) (seq 0 (kind_edge_nnode k))).
Proof.
  intros He. pose proof (distinct_check k) as H. apply andb_prop in H. destruct H as [H _].
  apply nodupb_ok. apply (forallb_seq _ _ e H He).
Qed.
Lemma face_nodes_distinct k f : (f < kind_nface k)%nat -> NoDup (map (face_node_id k f) (seq 0 (kind_face_nnode k))).
Proof.
  intros He. pose proof (distinct_check k) as H. apply andb_prop in H. destruct H as [_ H].
  apply nodupb_ok. apply (forallb_seq _ _ f H He).
Qed.

(** names *)
Lemma kind_from_to_string k : kind_from (kind_to_string k) = Some k.
Proof. destruct k; reflexivity. Qed.
Lemma kind_from_inv s k : kind_from s = Some k -> s = kind_to_string k.
Proof.
  unfold kind_from.
  repeat match goal with |- (if String.eqb ?a ?b then _ else _) = _ -> _ =>
    let E := fresh in destruct (String.eqb a b) eqn:E;
    [apply String.eqb_eq in E; intros K; inversion K; subst; reflexivity|clear E] end.
  discriminate.
Qed.
Lemma kind_values_complete k : In k kind_values.
Proof. destruct k; simpl; tauto. Qed.
