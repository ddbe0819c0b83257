(* Uniform pressure along the whole boundary of a mesh of the plane *)
From Coquelicot Require Import Coquelicot.
From Coq Require Import String Reals QArith Qreals List Lia Lra Bool Arith ZArith Permutation Sorted.
From Verif Require Import Base BaseFacts Expr ShapesData Kind MeshModel GraphModel MeshQuerySpec TopoModel TopoSpec TopoProof TopoFeat3 TopoFinal
  ShapesModel ShapesSpec ShapesProof GeomModel GeomProof PadModel PadSpec PadProof PadProof2 PadProof3 PadProof4 GaussModel GaussSpec GaussProof GaussProof2 GaussProof3 IntegModel IntegSpec PropInteg
  NormalSpec NormalProof NormalProof2 NormalProof3 NormalModel NormalProof4 NormalProof5 PropNormal BalanceSpec BalanceProof BalanceProof2 BalanceProof3 BalanceProof4 PressureSpec PressureProof.
Import ListNotations.
Local Open Scope list_scope.
Local Open Scope R_scope.

Lemma sum_over_near {A} (f g : A -> R) (e : A -> R) l : (forall x, In x l -> Rabs (f x - g x) <= e x) -> Rabs (sum_over f l - sum_over g l) <= sum_over e l.
Proof.
  unfold sum_over. induction l as [|a l IH]; intros H; cbn [map fold_right]; [rewrite Rminus_eq_0, Rabs_R0; lra|].
  specialize (IH (fun x I => H x (or_intror I))). specialize (H a (or_introl eq_refl)).
  replace (f a + fold_right Rplus 0 (map f l) - (g a + fold_right Rplus 0 (map g l))) with ((f a - g a) + (fold_right Rplus 0 (map f l) - fold_right Rplus 0 (map g l))) by ring.
  eapply Rle_trans; [apply Rabs_triang|]. lra.
Qed.

Section Boundary.
Variables (leb : R -> R -> bool) (shuffle : emap -> emap).
Hypothesis Sh : forall l, Permutation (shuffle l) l.
Variables (m : mesh R) (ft : @features R) (pr th : R) (A : ekey -> args) (n : ekey -> nat) (b b' : ekey -> list R) (q : ekey -> pad).
Hypothesis C : consistent m.
Hypothesis K : coords_complete m.
Hypothesis D : MeshModel.ndim m = 2%nat.
Hypothesis O : directed m.
Hypothesis F : features_new leb shuffle m false = Ok ft.
Hypothesis Side : forall k ed, In (k, ed) (ft_edges ft) ->
  pad_of_side m (e_kind ed) (e_points ed) (a_pad (A k)) /\ a_axi (A k) = false /\ a_alpha (A k) = th /\
  gauss_new_sized CLin (n k) = Ok (a_gauss (A k)) /\ vec_02_nv_bry (A k) (b k) (pressure pr) = Ok (b' k, q k).

Lemma side_facts k ed : In (k, ed) (ft_edges ft) -> pad_wf (a_pad (A k)) /\ p_kind (a_pad (A k)) = e_kind ed /\ p_space (a_pad (A k)) = 2%nat /\ kind_ndim (e_kind ed) = 1%nat /\
  (exists a c t, e_points ed = a :: c :: t /\ (forall i, (i < 2)%nat -> node_x (a_pad (A k)) i 0 = xcoord m a i /\ node_x (a_pad (A k)) i 1 = xcoord m c i)).
Proof.
  intros I. pose proof (listed_sound leb shuffle Sh m ft C D F k ed I) as Sd. destruct (Side k ed I) as (P & _).
  destruct (side_x m (e_kind ed) (e_points ed) (a_pad (A k)) K (or_introl D) Sd P) as (W & Ek & Es & X). destruct Sd as (Dk & L & _). rewrite D in *. assert (D1 : kind_ndim (e_kind ed) = 1%nat) by lia.
  split; [exact W|]. split; [exact Ek|]. split; [exact Es|]. split; [exact D1|].
  assert (N : (2 <= kind_nnode (e_kind ed))%nat) by (destruct (e_kind ed); try discriminate D1; vm_compute; lia).
  destruct (e_points ed) as [|a [|c t]]; cbn in L; try lia. exists a, c, t. split; [reflexivity|]. intros i Hi. rewrite !X by lia. auto.
Qed.

Lemma force_sum i : (forall k ed, In (k, ed) (ft_edges ft) -> (kind_nnode (e_kind ed) <= 2 * n k + 1)%nat) -> (i < 2)%nat ->
  Rabs (sum_over (fun ke => net_force (A (fst ke)) (b (fst ke)) (b' (fst ke)) i) (ft_edges ft))
  <= 26 * table_eps * Rabs (pr * th) * sum_over (fun ke => extent (a_pad (A (fst ke))) (1 - i)) (ft_edges ft).
Proof.
  intros N Hi. set (f := fun p => pr * th * match i with 0%nat => - xcoord m p 1 | _ => xcoord m p 0 end).
  pose proof (closed_jumps leb shuffle Sh m ft f C O D F) as Z. rewrite <- (Rminus_0_r (sum_over _ (ft_edges ft))), <- Z at 1. rewrite <- sum_over_scal. apply sum_over_near.
  intros [k ed] I. cbn [fst snd]. destruct (side_facts k ed I) as (W & Ek & Es & D1 & a & c & t & Ep & X). destruct (Side k ed I) as (_ & Ax & Al & G & H). rewrite Ep.
  assert (D1' : kind_ndim (p_kind (a_pad (A k))) = 1%nat) by (rewrite Ek; exact D1).
  pose proof (edge_force (A k) (n k) pr (b k) (b' k) (q k) W D1' Es Ax G H i) as B. rewrite Ek in B. specialize (B (N k ed I) Hi). rewrite Al in B.
  unfold net_force. rewrite Es. unfold component in B. unfold a_nnode. rewrite Ek in *.
  match goal with |- Rabs (?x - ?y) <= _ => match type of B with Rabs (?x' - ?y') <= _ => replace y with y'; [exact B|] end end.
  unfold f. destruct (X 0%nat ltac:(lia)) as (-> & ->), (X 1%nat ltac:(lia)) as (-> & ->). destruct i; ring.
Qed.
Lemma moment_sum : (forall k ed, In (k, ed) (ft_edges ft) -> (kind_nnode (e_kind ed) <= n k + 1)%nat) ->
  Rabs (sum_over (fun ke => net_moment (A (fst ke)) (b (fst ke)) (b' (fst ke))) (ft_edges ft))
  <= 260 * table_eps * Rabs (pr * th) * sum_over (fun ke => extent (a_pad (A (fst ke))) 0 ^ 2 + extent (a_pad (A (fst ke))) 1 ^ 2) (ft_edges ft).
Proof.
  intros N. set (f := fun p => pr * th * ((xcoord m p 0 ^ 2 + xcoord m p 1 ^ 2) / 2)).
  pose proof (closed_jumps leb shuffle Sh m ft f C O D F) as Z. rewrite <- (Rminus_0_r (sum_over _ (ft_edges ft))), <- Z at 1. rewrite <- sum_over_scal. apply sum_over_near.
  intros [k ed] I. cbn [fst snd]. destruct (side_facts k ed I) as (W & Ek & Es & D1 & a & c & t & Ep & X). destruct (Side k ed I) as (_ & Ax & Al & G & H). rewrite Ep.
  assert (D1' : kind_ndim (p_kind (a_pad (A k))) = 1%nat) by (rewrite Ek; exact D1).
  pose proof (edge_torque (A k) (n k) pr (b k) (b' k) (q k) W D1' Es Ax G H) as B. rewrite Ek in B. specialize (B (N k ed I)). rewrite Al in B.
  unfold net_moment. unfold torque in B. unfold a_nnode. rewrite Ek in *.
  match goal with |- Rabs (?x - ?y) <= _ => match type of B with Rabs (?x' - ?y') <= _ => replace y with y'; [exact B|] end end.
  unfold f. destruct (X 0%nat ltac:(lia)) as (-> & ->), (X 1%nat ltac:(lia)) as (-> & ->). ring.
Qed.
End Boundary.
