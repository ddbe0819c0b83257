(* Proofs about the conversion of meshes: tables and steps of the loop *)
From Coq Require Import String Reals QArith Qreals List Arith Bool ZArith Lia Lra Permutation.
From Verif Require Import Base BaseFacts Kind ShapesModel ShapesProof ShapesTables MeshModel MeshQuerySpec TopoModel TopoSpec TopoMaps TopoProof TopoFeat TopoFeat4 TopoFeat5 PadModel PadSpec PadProof PadProof2 PadProof4 ConvertModel ConvertSpec.
Import ListNotations.
Local Open Scope list_scope.
Local Open Scope nat_scope.

Lemma kind_eqb_eq a b : kind_eqb a b = true <-> a = b.
Proof. split; [destruct a, b; simpl; congruence|intros ->; destruct b; reflexivity]. Qed.
Lemma class_eqb_eq a b : class_eqb a b = true <-> a = b.
Proof. split; [destruct a, b; simpl; congruence|intros ->; destruct b; reflexivity]. Qed.

(** tables *)
Definition plane_kinds : list geokind := [Tri3; Tri6; Tri10; Tri15; Qua4; Qua8; Qua9; Qua12; Qua16; Qua17].
Lemma plane_in k : plane k <-> In k plane_kinds.
Proof.
  split; [intros [H|H]; destruct k; try discriminate; simpl; tauto|].
  simpl. intros H. repeat (destruct H as [<-|H]; [vm_compute; auto|]). destruct H.
Qed.
Lemma plane_ind (P : geokind -> Prop) : Forall P plane_kinds -> forall k, plane k -> P k.
Proof. intros H k Hk. apply plane_in in Hk. rewrite Forall_forall in H. auto. Qed.

Definition mid_check (k : geokind) : bool :=
  forallb (fun e => forallb (fun i =>
      (ncorners k <=? edge_node_id k e i) && (edge_node_id k e i <? kind_nnode k) &&
      (ncorners k <=? edge_node_id_inward k e i) && (edge_node_id_inward k e i <? kind_nnode k) &&
      forallb (fun e' => forallb (fun i' =>
         implb ((edge_node_id k e i =? edge_node_id k e' i') || (edge_node_id_inward k e i =? edge_node_id_inward k e' i')) ((e =? e') && (i =? i')) &&
         implb (edge_node_id k e i =? edge_node_id_inward k e' i') (e =? e'))
        (seq 2 (kind_edge_nnode k - 2))) (seq 0 (kind_nedge k)) &&
      existsb (fun i' => (edge_node_id_inward k e i =? edge_node_id k e i') && (edge_node_id k e i =? edge_node_id_inward k e i')) (seq 2 (kind_edge_nnode k - 2)))
    (seq 2 (kind_edge_nnode k - 2))) (seq 0 (kind_nedge k)).
Lemma mid_checked k : plane k -> mid_check k = true.
Proof. revert k. apply plane_ind. repeat constructor. Qed.

Lemma in_mid i n : In i (seq 2 (n - 2)) <-> 2 <= i < n.
Proof. rewrite in_seq. lia. Qed.

Section Tables.
Variable k : geokind.
Hypothesis Hk : plane k.
Lemma mid_facts e i : e < kind_nedge k -> 2 <= i < kind_edge_nnode k ->
  ncorners k <= edge_node_id k e i < kind_nnode k /\ ncorners k <= edge_node_id_inward k e i < kind_nnode k /\
  (forall e' i', e' < kind_nedge k -> 2 <= i' < kind_edge_nnode k ->
     (edge_node_id k e i = edge_node_id k e' i' -> e = e' /\ i = i') /\
     (edge_node_id_inward k e i = edge_node_id_inward k e' i' -> e = e' /\ i = i') /\
     (edge_node_id k e i = edge_node_id_inward k e' i' -> e = e')) /\
  exists i', 2 <= i' < kind_edge_nnode k /\ edge_node_id_inward k e i = edge_node_id k e i' /\ edge_node_id k e i = edge_node_id_inward k e i'.
Proof.
  intros He Hi. pose proof (mid_checked k Hk) as H. unfold mid_check in H.
  rewrite forallb_forall in H. specialize (H e ltac:(apply in_seq; lia)).
  rewrite forallb_forall in H. specialize (H i ltac:(apply in_mid; lia)).
  rewrite !andb_true_iff, !Nat.leb_le, !Nat.ltb_lt in H. destruct H as (((((A & B) & C) & D) & E) & F).
  split; [lia|]. split; [lia|]. split.
  - intros e' i' He' Hi'. rewrite forallb_forall in E. specialize (E e' ltac:(apply in_seq; lia)).
    rewrite forallb_forall in E. specialize (E i' ltac:(apply in_mid; lia)).
    apply andb_true_iff in E as [E1 E2]. split; [|split]; intros G.
    + rewrite G, Nat.eqb_refl in E1. simpl in E1. apply andb_true_iff in E1. rewrite !Nat.eqb_eq in E1. tauto.
    + rewrite G, Nat.eqb_refl, orb_true_r in E1. simpl in E1. apply andb_true_iff in E1. rewrite !Nat.eqb_eq in E1. tauto.
    + rewrite G, Nat.eqb_refl in E2. simpl in E2. now apply Nat.eqb_eq.
  - apply existsb_exists in F as (i' & I & F). apply in_mid in I. apply andb_true_iff in F. rewrite !Nat.eqb_eq in F. exists i'. tauto.
Qed.
End Tables.

Definition plane_facts k : plane k ->
  kind_ndim k = 2 /\ ncorners k <= kind_nnode k /\ ncorners k = kind_nedge k /\ 2 <= kind_edge_nnode k.
Proof. revert k. apply plane_ind. repeat constructor. Qed.
Lemma class_facts k t : plane k -> kind_class t = kind_class k -> kind_nedge t = kind_nedge k /\ ncorners t = ncorners k /\ plane t.
Proof.
  intros P E. assert (Pt : plane t) by (unfold plane; now rewrite E).
  destruct (plane_facts k P) as (_ & _ & A & _). destruct (plane_facts t Pt) as (_ & _ & B & _).
  assert (C : ncorners t = ncorners k) by (unfold ncorners; now rewrite E). split; [congruence|auto].
Qed.

(* the corners are the same in all kinds of a class *)
Lemma corner_edges k t e i : plane k -> kind_class t = kind_class k -> e < kind_nedge k -> i < 2 ->
  edge_node_id t e i = edge_node_id k e i /\ edge_node_id k e i < ncorners k.
Proof.
  intros P E He Hi. destruct (class_facts k t P E) as (_ & _ & Pt). apply plane_in in P. apply plane_in in Pt.
  assert (X : forallb (fun k => forallb (fun t => negb (class_eqb (kind_class t) (kind_class k)) ||
    forallb (fun e => forallb (fun i => (edge_node_id t e i =? edge_node_id k e i) && (edge_node_id k e i <? ncorners k)) (seq 0 2)) (seq 0 (kind_nedge k))) plane_kinds) plane_kinds = true)
    by (vm_compute; reflexivity).
  rewrite forallb_forall in X. specialize (X k P). rewrite forallb_forall in X. specialize (X t Pt).
  rewrite (proj2 (class_eqb_eq _ _) E) in X. cbn [negb orb] in X.
  rewrite forallb_forall in X. specialize (X e ltac:(apply in_seq; lia)).
  rewrite forallb_forall in X. specialize (X i ltac:(apply in_seq; lia)).
  apply andb_true_iff in X. rewrite Nat.eqb_eq, Nat.ltb_lt in X. exact X.
Qed.
Definition Qeq_dec' (a b : Q) : {a = b} + {a <> b}.
Proof. decide equality; [apply Pos.eq_dec|apply Z.eq_dec]. Defined.
Lemma corner_refs k t a : plane k -> kind_class t = kind_class k -> a < ncorners k -> ref_coords t a = ref_coords k a.
Proof.
  intros P E Ha. destruct (class_facts k t P E) as (_ & _ & Pt). unfold ref_coords. f_equal.
  apply plane_in in P. apply plane_in in Pt.
  assert (X : forallb (fun k => forallb (fun t => negb (class_eqb (kind_class t) (kind_class k)) ||
    forallb (fun a => match list_eq_dec Qeq_dec' (reference_coords t a) (reference_coords k a) with left _ => true | right _ => false end) (seq 0 (ncorners k))) plane_kinds) plane_kinds = true)
    by (vm_compute; reflexivity).
  rewrite forallb_forall in X. specialize (X k P). rewrite forallb_forall in X. specialize (X t Pt).
  rewrite (proj2 (class_eqb_eq _ _) E) in X. cbn [negb orb] in X.
  rewrite forallb_forall in X. specialize (X a ltac:(apply in_seq; lia)). destruct list_eq_dec; [auto|discriminate].
Qed.

Lemma node_to_edge_ok k : plane k -> exists v, node_to_edge k = Ok v /\ List.length v = kind_nnode k /\
  forall a, a < kind_nnode k -> match nth a v None with Some e => on_edge k e a | None => forall e, ~ on_edge k e a end.
Proof.
  intros P. assert (X : forall k, plane k -> match node_to_edge k with
    | Ok v => (List.length v =? kind_nnode k) && forallb (fun a =>
        match nth a v None with
        | Some e => (e <? kind_nedge k) && existsb (fun i => edge_node_id k e i =? a) (seq 2 (kind_edge_nnode k - 2))
        | None => forallb (fun e => forallb (fun i => negb (edge_node_id k e i =? a)) (seq 2 (kind_edge_nnode k - 2))) (seq 0 (kind_nedge k))
        end) (seq 0 (kind_nnode k)) = true
    | _ => False end) by (apply plane_ind; repeat constructor).
  specialize (X k P). destruct (node_to_edge k) as [v| | |]; try easy. exists v. split; [auto|].
  apply andb_true_iff in X as [L X]. apply Nat.eqb_eq in L. split; [auto|].
  intros a Ha. rewrite forallb_forall in X. specialize (X a ltac:(apply in_seq; lia)).
  destruct (nth a v None) as [e|].
  - apply andb_true_iff in X as [X Y]. apply Nat.ltb_lt in X. split; [auto|].
    apply existsb_exists in Y as (i & I & Y). apply in_mid in I. apply Nat.eqb_eq in Y. eauto.
  - intros e (He & i & Hi & Y). rewrite forallb_forall in X. specialize (X e ltac:(apply in_seq; lia)).
    rewrite forallb_forall in X. specialize (X i ltac:(apply in_mid; lia)). apply negb_true_iff, Nat.eqb_neq in X. auto.
Qed.
