(* Sums around single cells *)
From Coq Require Import String Reals List Lia Lra Bool Arith ZArith Permutation Sorted.
From Verif Require Import Base BaseFacts Kind MeshModel GraphModel MeshQuerySpec TopoModel TopoSpec TopoProof TopoFinal
  ShapesModel ShapesSpec PadModel PadSpec PadProof PadProof2 PadProof3 PadProof4 IntegSpec NormalSpec BalanceSpec BalanceProof.
Import ListNotations.
Local Open Scope list_scope.
Local Open Scope R_scope.

(* the value at the second point minus that at the first point *)
Definition jump (f : nat -> R) (l : list nat) : R := match l with [a; b] => f b - f a | _ => 0 end.

Lemma len_cases {A} (P : list A -> Prop) : (forall l, (4 < List.length l)%nat -> P l) -> P [] -> (forall a, P [a]) -> (forall a b, P [a; b]) ->
  (forall a b c, P [a; b; c]) -> (forall a b c d, P [a; b; c; d]) -> forall l, P l.
Proof. intros H H0 H1 H2 H3 H4 l. destruct l as [|a [|b [|c [|d [|e l]]]]]; auto. apply H. cbn. lia. Qed.

Lemma long_zero (g : list nat -> R) : (forall l, (4 < List.length l)%nat -> g l = 0) -> forall l, (4 < List.length l)%nat -> g (rev l) = - g l.
Proof. intros H l L. rewrite !H; [lra|auto|now rewrite rev_length]. Qed.
Ltac long l := destruct l as [|?a [|?b [|?c [|?d [|?e l]]]]]; cbn in *; try lia; reflexivity.

Lemma jump_odd f : odd (jump f).
Proof.
  intros l. revert l. apply len_cases; [|unfold jump; cbn; intros; lra..]. apply long_zero. intros l L. long l.
Qed.
Lemma swept_odd m : odd (swept m).
Proof. intros l. revert l. apply len_cases; [|unfold swept; cbn; intros; lra..]. apply long_zero. intros l L. long l. Qed.
Lemma area_odd m i : odd (area_vector m i).
Proof.
  intros l. revert l. apply len_cases; [|unfold area_vector, from_to, vector_product; cbn; intros; try lra; destruct i as [|[|i]]; lra..].
  apply long_zero. intros l L. long l.
Qed.
Lemma swept3_odd m : odd (swept3 m).
Proof. intros l. revert l. apply len_cases; [|unfold swept3, vector_product; cbn; intros; lra..]. apply long_zero. intros l L. long l. Qed.

Lemma cyclic_step (g : list nat -> R) : (forall l, (4 < List.length l)%nat -> g l = 0) ->
  (forall a b, g [b; a] = g [a; b]) -> (forall a b c, g [b; c; a] = g [a; b; c]) -> (forall a b c d, g [b; c; d; a] = g [a; b; c; d]) -> cyclic g.
Proof.
  intros H0 H2 H3 H4 l1 l2. destruct (Nat.lt_ge_cases 4 (List.length (l1 ++ l2))) as [L|L].
  - rewrite !H0; auto. rewrite app_length in *. lia.
  - destruct l1 as [|a [|b [|c [|d [|e l1]]]]], l2 as [|a' [|b' [|c' [|d' [|e' l2]]]]]; cbn in L; try lia; cbn [app]; try reflexivity; auto.
    + rewrite H4. rewrite H4. reflexivity.
Qed.
Lemma area_cyclic m i : cyclic (area_vector m i).
Proof.
  apply cyclic_step; [intros l L; long l|..]; unfold area_vector, from_to, vector_product; intros; try lra; destruct i as [|[|i]]; lra.
Qed.
Lemma swept3_cyclic m : cyclic (swept3 m).
Proof. apply cyclic_step; [intros l L; long l|..]; unfold swept3, vector_product; intros; lra. Qed.

Lemma round_jump f c : kind_ndim (c_kind c) = 2%nat -> round_edges (jump f) c = 0.
Proof.
  intros D. unfold round_edges, sum_over. destruct (c_kind c) eqn:K; try discriminate D;
    cbn; lra.
Qed.
Lemma round_area m i c : kind_ndim (c_kind c) = 3%nat -> round_faces (area_vector m i) c = 0.
Proof.
  intros D. unfold round_faces, sum_over. destruct (c_kind c) eqn:K; try discriminate D; cbn; unfold from_to, vector_product; destruct i as [|[|i]]; lra.
Qed.

(* cell coordinates *)
Lemma element_x m c p a i : element_of m c p -> (a < List.length (c_points c))%nat -> (forall q, In q (c_points c) -> (q < List.length (points m))%nat) ->
  (i < ndim m)%nat -> node_x p i a = xcoord m (nth a (c_points c) 0%nat) i.
Proof.
  intros (_ & _ & _ & X) L B Hi. pose proof (nth_nth_error (c_points c) a 0%nat L) as E. unfold xcoord.
  destruct (nth_error (points m) (nth a (c_points c) 0%nat)) as [pt|] eqn:Ep; [|apply nth_error_None in Ep; specialize (B _ (nth_error_In _ _ E)); lia].
  now apply (X _ _ _ _ E Ep).
Qed.

Lemma round_swept m c a : consistent m -> coords_complete m -> ndim m = 2%nat -> In c (cells m) -> cell_area m c a ->
  round_edges (fun l => - swept m l / 2) c = a.
Proof.
  intros C K D Hc (p & Ep & Kd). pose proof C as (_ & C2). pose proof (cell_by_id m c C Hc) as Hn. destruct (C2 _ _ Hn) as (_ & Ln & B).
  assert (Dk : kind_ndim (c_kind c) = 2%nat) by (destruct Kd as [(-> & _)|(-> & _)]; reflexivity).
  destruct (get_pad_ok m (c_id c) c C K (or_introl D) Hn ltac:(lia)) as (p' & Ep' & El & _). rewrite Ep in Ep'. injection Ep' as <-.
  pose proof (fun i j => element_x m c p j i El) as X. unfold round_edges, sum_over.
  destruct Kd as [(Kd & ->)|(Kd & ->)]; rewrite Kd in *; unfold IntegSpec.tri_area, IntegSpec.qua_area; rewrite !X by (auto; try (rewrite Ln; vm_compute; lia); lia); cbn; lra.
Qed.
Lemma round_swept3 m c a : consistent m -> coords_complete m -> ndim m = 3%nat -> In c (cells m) -> cell_volume m c a ->
  round_faces (fun l => swept3 m l / 6) c = a.
Proof.
  intros C K D Hc (p & Ep & Kd & ->). pose proof C as (_ & C2). pose proof (cell_by_id m c C Hc) as Hn. destruct (C2 _ _ Hn) as (_ & Ln & B).
  destruct (get_pad_ok m (c_id c) c C K (or_intror D) Hn) as (p' & Ep' & El & _); [rewrite Kd, D; reflexivity|]. rewrite Ep in Ep'. injection Ep' as <-.
  pose proof (fun i j => element_x m c p j i El) as X. unfold round_faces, sum_over.
  rewrite Kd in *. unfold IntegSpec.tet_volume, det. cbn [Nat.eqb]. rewrite !X by (auto; try (rewrite Ln; vm_compute; lia); lia). cbn. lra.
Qed.
