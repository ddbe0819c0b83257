(* The setters. *)
From Coq Require Import String Reals List Lia Lra Bool Arith ZArith Permutation.
From Verif Require Import Base BaseFacts TopoMaps Kind TopoModel ShapesModel ShapesSpec GeomModel GeomProof PadModel PadSpec
  BlockModel BlockSpec BlockProof BlockProof2.
Import ListNotations.
Local Open Scope list_scope.
Local Open Scope R_scope.

Lemma with_div_same b n d : same_but_div b (with_div b n d).
Proof. repeat split. Qed.
Lemma equal_uniform n : equal_widths n = uniform n.
Proof. unfold equal_widths, uniform, NAT_LENGTH. rewrite Rmult_1_l. reflexivity. Qed.
Lemma ndiv_done b l : wf_block b -> List.length l = b_ndim b -> (forall n, In n l -> (1 <= n)%nat) ->
  exists b', set_ndiv b l = (Ok tt, b') /\ same_but_div b b' /\ b_ndiv b' = l /\ b_delta b' = map uniform l.
Proof.
  intros W L P. rewrite set_ndiv_ok by auto. eexists. split; [reflexivity|]. split; [apply with_div_same|]. split; [reflexivity|]. cbn. apply map_ext, equal_uniform.
Qed.
Lemma ndiv_partly b l i : wf_block b -> List.length l = b_ndim b -> nth_error l i = Some 0%nat -> (forall j n, (j < i)%nat -> nth_error l j = Some n -> (1 <= n)%nat) ->
  exists msg b', set_ndiv b l = (Err msg, b') /\ same_but_div b b' /\ b_ndiv b' = firstn i l ++ skipn i (b_ndiv b) /\ b_delta b' = map uniform (firstn i l) ++ skipn i (b_delta b).
Proof.
  intros W L Z P. rewrite (set_ndiv_zero b l i W L Z P). eexists _, _. split; [reflexivity|]. split; [apply with_div_same|]. split; [reflexivity|].
  cbn. f_equal. apply map_ext, equal_uniform.
Qed.
Lemma ndiv_result b l : wf_block b ->
  (exists b', set_ndiv b l = (Ok tt, b')) <-> List.length l = b_ndim b /\ forall n, In n l -> (1 <= n)%nat.
Proof.
  intros W. split.
  - intros (b' & E). destruct (Nat.eq_dec (List.length l) (b_ndim b)) as [L|L]; [|rewrite set_ndiv_len in E by auto; discriminate].
    split; auto. intros n Hn. destruct n; [|lia]. exfalso. destruct (first_zero l) as (i & Z & P).
    { exact Hn. }
    rewrite (set_ndiv_zero b l i W L Z P) in E. discriminate.
  - intros [L P]. rewrite set_ndiv_ok by auto. eauto.
Qed.
Lemma scaled_weighted w : weighted w (scaled w).
Proof.
  split; [apply map_length|]. intros i Hi. unfold scaled. rewrite nth_indep with (d' := (fun v => v * NAT_LENGTH / sum_w w) 0) by (rewrite map_length; auto).
  rewrite (map_nth (fun v => v * NAT_LENGTH / sum_w w)), sum_w_sum. unfold NAT_LENGTH. f_equal. ring.
Qed.
Lemma w2_done b wx wy : wf_block b -> b_ndim b = 2%nat -> wx <> [] -> wy <> [] -> 1 <= sum wx -> 1 <= sum wy ->
  exists b' dx dy, set_div_weights_2d b wx wy = (Ok tt, b') /\ same_but_div b b' /\ b_ndiv b' = [List.length wx; List.length wy] /\ b_delta b' = [dx; dy] /\ weighted wx dx /\ weighted wy dy.
Proof.
  intros W N A B C D. rewrite w2_ok by auto. eexists _, _, _. split; [reflexivity|]. split; [apply with_div_same|]. split; [reflexivity|]. split; [reflexivity|]. split; apply scaled_weighted.
Qed.
Lemma w3_done b wx wy wz : wf_block b -> b_ndim b = 3%nat -> wx <> [] -> wy <> [] -> wz <> [] -> 1 <= sum wx -> 1 <= sum wy -> 1 <= sum wz ->
  exists b' dx dy dz, set_div_weights_3d b wx wy wz = (Ok tt, b') /\ same_but_div b b' /\ b_ndiv b' = [List.length wx; List.length wy; List.length wz] /\
    b_delta b' = [dx; dy; dz] /\ weighted wx dx /\ weighted wy dy /\ weighted wz dz.
Proof.
  intros W N A B C D E F. rewrite w3_ok by auto. eexists _, _, _, _. split; [reflexivity|]. split; [apply with_div_same|]. split; [reflexivity|]. split; [reflexivity|]. split; [|split]; apply scaled_weighted.
Qed.
Lemma mget_mdel {V} (m : list (nat * V)) k k' : mget Nat.eqb (mdel m k) k' = if (k' =? k)%nat then None else mget Nat.eqb m k'.
Proof.
  unfold mdel. induction m as [|[i v] m IH]; cbn; [destruct (k' =? k)%nat; auto|].
  destruct (Nat.eqb_spec i k) as [->|N]; cbn [negb]; [rewrite IH; destruct (Nat.eqb_spec k' k); auto; destruct (Nat.eqb_spec k k'); congruence|].
  cbn. rewrite IH. destruct (Nat.eqb_spec i k'); auto. subst. destruct (Nat.eqb_spec k' k); congruence.
Qed.
Lemma mget_put {V} (m : list (nat * V)) k k' v : mget Nat.eqb (mput Nat.eqb m k v) k' = if (k' =? k)%nat then Some v else mget Nat.eqb m k'.
Proof.
  destruct (Nat.eqb_spec k' k) as [->|N].
  - apply mget_mput_same. intros; apply Nat.eqb_eq.
  - apply mget_mput_other; auto. intros; apply Nat.eqb_eq.
Qed.
