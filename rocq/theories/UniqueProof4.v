(* Existence of solutions *)
From Coquelicot Require Import Coquelicot.
From Coq Require Import String Reals List Lia Lra Bool Arith ZArith Permutation Relations.
From Verif Require Import Base BaseFacts Kind MeshModel GraphModel MeshQuerySpec TopoModel TopoSpec TopoProof
  ShapesModel ShapesSpec PadModel PadSpec PadProof GaussModel GaussSpec IntegModel IntegSpec
  BalanceSpec BalanceProof PatchSpec PatchProof PatchProof3 PatchProof4 PatchProof5 UniqueSpec UniqueProof UniqueProof2 UniqueProof3 LinearProof.
Import ListNotations.
Local Open Scope list_scope.
Local Open Scope R_scope.

Lemma sum_over_plus {X} (f g : X -> R) l : sum_over (fun x => f x + g x) l = sum_over f l + sum_over g l.
Proof. unfold sum_over. induction l as [|x l IH]; cbn; [ring|]. rewrite IH. ring. Qed.
Lemma at_point_plus ps P v w : at_point ps P (fun a => v a + w a) = at_point ps P v + at_point ps P w.
Proof. unfold at_point. rewrite <- sum_n_plus. apply sum_n_ext. intros a _. destruct (_ =? _)%nat; ring. Qed.

Section Mesh.
Variables (m : mesh R).
Hypothesis C : consistent m.
Hypothesis K : coords_complete m.
Hypothesis D : (MeshModel.ndim m = 2 \/ MeshModel.ndim m = 3)%nat.
Hypothesis Sm : simplex_mesh m.
Let nd := MeshModel.ndim m.
Let np := List.length (points m).
Let cs := of_dim nd m.
Variables (A : nat -> args) (kk kk' : nat -> mat).
Hypothesis Pads : forall c, In c cs -> get_pad m (c_id c) = Ok (a_pad (A (c_id c))).

Lemma force_plus u v P i : nodal_force m A kk kk' (fun p j => u p j + v p j) P i = nodal_force m A kk kk' u P i + nodal_force m A kk kk' v P i.
Proof.
  unfold nodal_force. rewrite <- sum_over_plus. apply sum_over_ext. intros c _. cbv zeta. rewrite <- at_point_plus. apply at_point_ext. intros a _.
  unfold stiffness_times. rewrite <- sum_n_plus. apply sum_n_ext. intros b _. rewrite <- sum_n_plus. apply sum_n_ext. intros j _. ring.
Qed.
Lemma force_scal t u P i : nodal_force m A kk kk' (fun p j => t * u p j) P i = t * nodal_force m A kk kk' u P i.
Proof.
  unfold nodal_force. rewrite <- sum_over_scal. apply sum_over_ext. intros c _. cbv zeta. rewrite <- at_point_scal. apply at_point_ext. intros a _.
  unfold stiffness_times. rewrite <- sum_n_scal. apply sum_n_ext. intros b _. rewrite <- sum_n_scal. apply sum_n_ext. intros j _. ring.
Qed.
Lemma force_ext u v P i : (forall p j, (p < np)%nat -> (j < nd)%nat -> u p j = v p j) -> nodal_force m A kk kk' u P i = nodal_force m A kk kk' v P i.
Proof.
  intros E. unfold nodal_force. apply sum_over_ext. intros c Hc. cbv zeta. apply at_point_ext. intros a _. destruct (Sm c Hc) as (Kc & _).
  destruct (cell_pad m c (A (c_id c)) C K D (proj1 (in_dim m c nd Hc)) ltac:(apply cell_simple; auto) (Pads c Hc)) as (_ & _ & Es & En & _).
  unfold stiffness_times. apply sum_n_ext. intros b Hb. apply sum_n_ext. intros j Hj. f_equal. apply E; [|unfold nd; now rewrite <- Es].
  apply (points_below m C c Hc). apply nth_In. now rewrite <- En.
Qed.
Lemma heat_plus u v P : nodal_heat m A kk kk' (fun p => u p + v p) P = nodal_heat m A kk kk' u P + nodal_heat m A kk kk' v P.
Proof.
  unfold nodal_heat. rewrite <- sum_over_plus. apply sum_over_ext. intros c _. cbv zeta. rewrite <- at_point_plus. apply at_point_ext. intros a _.
  unfold conductivity_times. rewrite <- sum_n_plus. apply sum_n_ext. intros b _. ring.
Qed.
Lemma heat_scal t u P : nodal_heat m A kk kk' (fun p => t * u p) P = t * nodal_heat m A kk kk' u P.
Proof.
  unfold nodal_heat. rewrite <- sum_over_scal. apply sum_over_ext. intros c _. cbv zeta. rewrite <- at_point_scal. apply at_point_ext. intros a _.
  unfold conductivity_times. rewrite <- sum_n_scal. apply sum_n_ext. intros b _. ring.
Qed.
Lemma heat_ext u v P : (forall p, (p < np)%nat -> u p = v p) -> nodal_heat m A kk kk' u P = nodal_heat m A kk kk' v P.
Proof.
  intros E. unfold nodal_heat. apply sum_over_ext. intros c Hc. cbv zeta. apply at_point_ext. intros a _. destruct (Sm c Hc) as (Kc & _).
  destruct (cell_pad m c (A (c_id c)) C K D (proj1 (in_dim m c nd Hc)) ltac:(apply cell_simple; auto) (Pads c Hc)) as (_ & _ & _ & En & _).
  unfold conductivity_times. apply sum_n_ext. intros b Hb. f_equal. apply E.
  apply (points_below m C c Hc). apply nth_In. now rewrite <- En.
Qed.

(* if the homogeneous problem has the zero solution only, there is a solution *)
Lemma force_exists (fixed : nat -> nat -> bool) :
  (forall u, (forall P i, (P < np)%nat -> (i < nd)%nat -> if fixed P i then u P i = 0 else nodal_force m A kk kk' u P i = 0) -> forall P i, (P < np)%nat -> (i < nd)%nat -> u P i = 0) ->
  forall g f, exists u, forall P i, (P < np)%nat -> (i < nd)%nat -> if fixed P i then u P i = g P i else nodal_force m A kk kk' u P i = f P i.
Proof.
  intros Inj g f. assert (Nn : nd <> 0%nat) by (unfold nd; lia).
  set (un := fun (U : nat -> R) (P i : nat) => U (i + P * nd)%nat).
  assert (Dv : forall P i, (i < nd)%nat -> ((i + P * nd) / nd = P)%nat /\ ((i + P * nd) mod nd = i)%nat).
  { intros P i Hi. rewrite Nat.div_add, Nat.mod_add, Nat.div_small, Nat.mod_small by auto. auto. }
  assert (Lt : forall P i, (P < np)%nat -> (i < nd)%nat -> (i + P * nd < np * nd)%nat) by (intros; nia).
  destruct (linear_solvable (np * nd) (fun U r => if fixed (r / nd) (r mod nd) then U r else nodal_force m A kk kk' (un U) (r / nd) (r mod nd))%nat) with
    (b := fun r => (if fixed (r / nd) (r mod nd) then g (r / nd) (r mod nd) else f (r / nd) (r mod nd))%nat) as (U & E).
  - intros u v r _. destruct (fixed _ _); [reflexivity|]. exact (force_plus (un u) (un v) _ _).
  - intros t u r _. destruct (fixed _ _); [reflexivity|]. exact (force_scal t (un u) _ _).
  - intros u v r Hr E. destruct (fixed _ _); [now apply E|]. apply force_ext. intros p j Hp Hj. apply E. now apply Lt.
  - intros U H. assert (Z : forall P i, (P < np)%nat -> (i < nd)%nat -> un U P i = 0).
    { apply Inj. intros P i HP Hi. specialize (H (i + P * nd)%nat (Lt P i HP Hi)). destruct (Dv P i Hi) as (E1 & E2). rewrite E1, E2 in H. destruct (fixed P i); exact H. }
    intros k Hk. pose proof (Nat.div_mod k nd Nn) as Ek. pose proof (Nat.mod_upper_bound k nd Nn) as Hm.
    assert (Hd : (k / nd < np)%nat) by (apply Nat.div_lt_upper_bound; auto; nia).
    specialize (Z _ _ Hd Hm). unfold un in Z. replace (k mod nd + k / nd * nd)%nat with k in Z by nia. exact Z.
  - exists (un U). intros P i HP Hi. specialize (E _ (Lt P i HP Hi)). destruct (Dv P i Hi) as (E1 & E2). rewrite E1, E2 in E. destruct (fixed P i); exact E.
Qed.
Lemma heat_exists (fixed : nat -> bool) :
  (forall u, (forall P, (P < np)%nat -> if fixed P then u P = 0 else nodal_heat m A kk kk' u P = 0) -> forall P, (P < np)%nat -> u P = 0) ->
  forall g f, exists u, forall P, (P < np)%nat -> if fixed P then u P = g P else nodal_heat m A kk kk' u P = f P.
Proof.
  intros Inj g f.
  destruct (linear_solvable np (fun U r => if fixed r then U r else nodal_heat m A kk kk' U r)) with (b := fun r => if fixed r then g r else f r) as (U & E).
  - intros u v r _. destruct (fixed _); [reflexivity|]. exact (heat_plus u v _).
  - intros t u r _. destruct (fixed _); [reflexivity|]. exact (heat_scal t u _).
  - intros u v r Hr E. destruct (fixed _); [now apply E|]. now apply heat_ext.
  - intros U H. apply Inj. intros P HP. specialize (H P HP). destruct (fixed P); exact H.
  - exists U. intros P HP. specialize (E P HP). destruct (fixed P); exact E.
Qed.
End Mesh.
