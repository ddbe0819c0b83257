(* Blocks made by new and the setters are well formed. *)
From Coq Require Import String Reals QArith Qreals List Lia Lra Bool Arith ZArith.
From Verif Require Import Base BaseFacts TopoMaps Kind MeshModel TopoModel MeshQuerySpec ShapesModel ShapesSpec ShapesProof
  GeomModel GeomProof PadModel PadSpec PadProof PadProof2 PadProof3 PadProof4 BlockModel BlockSpec.
Import ListNotations.
Local Open Scope list_scope.
Local Open Scope R_scope.

Record wf_block (b : block) : Prop := {
  w_nd : (b_ndim b = 2 \/ b_ndim b = 3)%nat;
  w_ndiv : List.length (b_ndiv b) = b_ndim b;
  w_delta : List.length (b_delta b) = b_ndim b;
  w_widths : forall a, (a < b_ndim b)%nat -> List.length (widths b a) = ndivs b a;
  w_pos : forall a, (a < b_ndim b)%nat -> (1 <= ndivs b a)%nat;
  w_sum : forall a, (a < b_ndim b)%nat -> sum (widths b a) = 2;
  w_pad : pad_wf (b_pad b);
  w_ok : p_ok (b_pad b) = true;
  w_space : p_space (b_pad b) = b_ndim b;
  w_kind : p_kind (b_pad b) = if (b_ndim b =? 2)%nat then Qua8 else Hex20;
  w_ec : b_ndim b = 3%nat -> b_ec b = [];
  w_fc : b_ndim b = 2%nat -> b_fc b = [];
  w_fm : b_ndim b = 2%nat -> b_fm b = [];
  w_ecs : forall s c, In (s, c) (b_ec b) -> (s < 4)%nat;
  w_fcs : forall s c, In (s, c) (b_fc b) -> (s < 6)%nat;
  w_ems : forall s c, In (s, c) (b_em b) -> (s < if (b_ndim b =? 2)%nat then 4 else 12)%nat;
  w_fms : forall s c, In (s, c) (b_fm b) -> (s < 6)%nat;
  w_ring : good_ring (b_args b) }.

Lemma sum_repeat x n : sum (repeat x n) = INR n * x.
Proof. induction n as [|n IH]; [simpl; ring|]. cbn [repeat sum]. rewrite IH, S_INR. ring. Qed.
Lemma sum_app l1 : forall l2, sum (l1 ++ l2) = sum l1 + sum l2.
Proof. induction l1 as [|x l1 IH]; intros l2; simpl; [ring|]. rewrite IH. ring. Qed.
Lemma sum_w_sum l : sum_w l = sum l.
Proof.
  unfold sum_w. assert (H : forall a, fold_left Rplus l a = a + sum l).
  { induction l as [|x l IH]; intros a; simpl; [ring|]. rewrite IH. ring. }
  rewrite H. ring.
Qed.
Lemma sum_scal l c : sum (map (fun v => v * c) l) = sum l * c.
Proof. induction l as [|x l IH]; simpl; [ring|]. rewrite IH. ring. Qed.
Lemma scaled_sum w : 1 <= sum_w w -> sum (scaled w) = 2.
Proof.
  intros H. unfold scaled. rewrite (map_ext _ (fun v => v * (NAT_LENGTH / sum_w w))) by (intros; unfold Rdiv; ring).
  rewrite sum_scal, <- sum_w_sum. unfold NAT_LENGTH. field. lra.
Qed.
Lemma scaled_length w : List.length (scaled w) = List.length w. Proof. apply map_length. Qed.
Lemma equal_sum n : (1 <= n)%nat -> sum (repeat (1 * NAT_LENGTH / INR n) n) = 2.
Proof. intros H. rewrite sum_repeat. unfold NAT_LENGTH. field. apply not_0_INR. lia. Qed.

(* ---------------------------------------------------------------- copy of the nodes *)
Lemma at2_ok x m j : (m < List.length x)%nat -> (j < List.length (nth m x []))%nat -> at2 x m j = Ok (ent x m j).
Proof. intros A B. unfold at2. rewrite (get_ok _ _ []) by auto. cbn [bind]. now rewrite (get_ok _ _ 0) by auto. Qed.

Lemma copy_nodes_ok nd n coords p : pad_wf p -> p_space p = nd -> (1 <= n <= kind_nnode (p_kind p))%nat ->
  (n <= List.length coords)%nat -> (forall m, (m < n)%nat -> (nd <= List.length (nth m coords []))%nat) ->
  exists q, copy_nodes nd n coords p = Ok q /\ pad_wf q /\ p_kind q = p_kind p /\ p_space q = nd /\
    (forall a i, (i < nd)%nat -> node_x q i a = if (a <? n)%nat then ent coords a i else node_x p i a) /\
    p_ok q = (n =? kind_nnode (p_kind p))%nat.
Proof.
  intros W Es Hn Lc Lr. assert (Sp : (nd = 2 \/ nd = 3)%nat) by (rewrite <- Es; apply W).
  unfold copy_nodes.
  set (P := fun n1 (q : pad) => pad_wf q /\ p_kind q = p_kind p /\ p_space q = nd /\
     (forall a i, (i < nd)%nat -> node_x q i a = if (a <? n1)%nat then ent coords a i else node_x p i a) /\
     ((1 <= n1)%nat -> p_ok q = (n1 =? kind_nnode (p_kind p))%nat)).
  destruct (foldM_seq (fun (p : pad) m => foldM (fun (p : pad) j => let! v := at2 coords m j in set_xx p m j v) (seq 0 nd) p) P n p) as (q & E & Q).
  - split; auto. split; auto. split; auto. split; [|lia]. intros a i Hi. reflexivity.
  - intros m p1 Hm (W1 & K1 & S1 & X1 & O1).
    set (Q := fun n1 (q : pad) => pad_wf q /\ p_kind q = p_kind p /\ p_space q = nd /\
       (forall a i, (i < nd)%nat -> a <> m -> node_x q i a = node_x p1 i a) /\
       (forall i, (i < n1)%nat -> node_x q i m = ent coords m i) /\
       (n1 = nd -> p_ok q = (S m =? kind_nnode (p_kind p))%nat)).
    destruct (foldM_seq (fun (p : pad) j => let! v := at2 coords m j in set_xx p m j v) Q nd p1) as (p2 & E2 & Q2).
    + do 3 (split; [auto|]). split; [auto|]. split; intros; lia.
    + intros j p2 Hj (W2 & K2 & S2 & X2 & Y2 & O2). rewrite at2_ok; [|lia|specialize (Lr m Hm); lia]. cbn [bind].
      destruct (set_xx_ok p2 m j (ent coords m j) W2) as (p3 & E3 & W3 & K3 & S3 & X3 & O3); [rewrite K2; lia|rewrite S2; lia|].
      exists p3. split; auto. split; auto. split; [congruence|]. split; [congruence|]. split; [|split].
      * intros a i Hi Ha. rewrite X3. destruct (Nat.eqb_spec a m); [lia|]. rewrite andb_false_r. auto.
      * intros i Hi. rewrite X3, Nat.eqb_refl, andb_true_r. destruct (Nat.eqb_spec i j) as [->|]; auto. apply Y2. lia.
      * intros En. rewrite O3, K2, S2. rewrite <- En. simpl. rewrite Nat.sub_0_r, Nat.eqb_refl, andb_true_r.
        destruct (Nat.eqb_spec m (kind_nnode (p_kind p) - 1)), (kind_nnode (p_kind p)) as [|nn] eqn:EE; try lia; symmetry; [apply Nat.eqb_eq|apply Nat.eqb_neq]; lia.
    + exists p2. split; auto. destruct Q2 as (W2 & K2 & S2 & X2 & Y2 & O2).
      split; auto. split; auto. split; auto. split; [|intros _; now apply O2].
      intros a i Hi. destruct (Nat.eq_dec a m) as [->|Ha].
      * rewrite (proj2 (Nat.ltb_lt m (S m))) by lia. auto.
      * rewrite X2, X1 by auto. destruct (Nat.ltb_spec a m), (Nat.ltb_spec a (S m)); try lia; auto.
  - exists q. rewrite E. destruct Q as (W2 & K2 & S2 & X2 & O2). split; auto. split; auto. split; auto. split; auto. split; auto. apply O2. lia.
Qed.

Definition mid_m (t : nat * nat * nat) : nat := fst (fst t).
Lemma mid_row_ok nd coords j : forall mids p, pad_wf p -> p_space p = nd -> (j < nd)%nat ->
  NoDup (map mid_m mids) ->
  (forall t, In t mids -> mid_m t < kind_nnode (p_kind p) /\ snd (fst t) < List.length coords /\ snd t < List.length coords)%nat ->
  (forall m, (m < List.length coords)%nat -> (nd <= List.length (nth m coords []))%nat) ->
  exists q, foldM (fun (p : pad) (t : nat * nat * nat) =>
          let '(m, a, b) := t in
          let! xa := at2 coords a j in let! xb := at2 coords b j in
          set_xx p m j ((xa + xb) / 2)) mids p = Ok q /\ pad_wf q /\ p_kind q = p_kind p /\ p_space q = nd /\
    (forall i n, i <> j \/ ~ In n (map mid_m mids) -> node_x q i n = node_x p i n) /\
    (forall t, In t mids -> node_x q j (mid_m t) = (ent coords (snd (fst t)) j + ent coords (snd t) j) / 2) /\
    p_ok q = match rev mids with [] => p_ok p | t :: _ => ((mid_m t =? kind_nnode (p_kind p) - 1) && (j =? nd - 1))%nat end.
Proof.
  intros mids. induction mids as [|t mids IH] using rev_ind; intros p W Es Hj ND HT HR.
  - exists p. split; [reflexivity|]. do 4 (split; [auto|]). split; [intros ? []|reflexivity].
  - rewrite map_app in ND. destruct (IH p W Es Hj) as (q & E & Wq & Kq & Sq & Xq & Yq & Oq); auto.
    { apply NoDup_remove_1 in ND. now rewrite app_nil_r in ND. }
    { intros t' Ht'. apply HT, in_or_app. auto. }
    destruct t as [[m a] b'] eqn:Et. destruct (HT (m, a, b')) as (T1 & T2 & T3); [apply in_or_app; right; left; reflexivity|].
    unfold mid_m in T1. simpl in T1, T2, T3.
    destruct (set_xx_ok q m j ((ent coords a j + ent coords b' j) / 2) Wq) as (r & E3 & W3 & K3 & S3 & X3 & O3); [now rewrite Kq|now rewrite Sq|].
    exists r. split; [|split; [auto|split; [congruence|split; [congruence|split; [|split]]]]].
    + rewrite foldM_app, E. cbn [bind foldM].
      rewrite (at2_ok coords a j) by (auto; specialize (HR a T2); lia). cbn [bind].
      rewrite (at2_ok coords b' j) by (auto; specialize (HR b' T3); lia). cbn [bind]. rewrite E3. reflexivity.
    + intros i n H. rewrite X3. rewrite map_app, in_app_iff in H.
      destruct (Nat.eqb_spec i j) as [->|]; [destruct (Nat.eqb_spec n m) as [->|]|]; simpl; try apply Xq; try tauto.
      exfalso. destruct H as [H|H]; [now apply H|]. apply H. right. left. reflexivity.
    + intros t' Ht'. apply in_app_or in Ht' as [Ht'|[<-|[]]].
      * rewrite X3. destruct (Nat.eqb_spec (mid_m t') m) as [Em|]; [|rewrite andb_false_r; auto].
        exfalso. apply NoDup_remove_2 in ND. apply ND. rewrite app_nil_r. change (mid_m (m, a, b')) with m. rewrite <- Em. apply in_map. exact Ht'.
      * rewrite X3. unfold mid_m. simpl. rewrite !Nat.eqb_refl. reflexivity.
    + rewrite rev_app_distr. simpl. rewrite O3, Kq, Sq. reflexivity.
Qed.

Lemma mid_nodes_ok nd coords mids p t0 l : pad_wf p -> p_space p = nd ->
  NoDup (map mid_m mids) -> rev mids = t0 :: l -> mid_m t0 = (kind_nnode (p_kind p) - 1)%nat ->
  (forall t, In t mids -> mid_m t < kind_nnode (p_kind p) /\ snd (fst t) < List.length coords /\ snd t < List.length coords)%nat ->
  (forall m, (m < List.length coords)%nat -> (nd <= List.length (nth m coords []))%nat) ->
  exists q, mid_nodes nd coords mids p = Ok q /\ pad_wf q /\ p_kind q = p_kind p /\ p_space q = nd /\
    (forall i n, ~ In n (map mid_m mids) -> node_x q i n = node_x p i n) /\
    (forall i t, (i < nd)%nat -> In t mids -> node_x q i (mid_m t) = (ent coords (snd (fst t)) i + ent coords (snd t) i) / 2) /\
    p_ok q = true.
Proof.
  intros W Es ND Hl Hm HT HR. assert (Sp : (nd = 2 \/ nd = 3)%nat) by (rewrite <- Es; apply W).
  set (P := fun n1 (q : pad) => pad_wf q /\ p_kind q = p_kind p /\ p_space q = nd /\
    (forall i n, ~ In n (map mid_m mids) -> node_x q i n = node_x p i n) /\
    (forall i t, (i < n1)%nat -> In t mids -> node_x q i (mid_m t) = (ent coords (snd (fst t)) i + ent coords (snd t) i) / 2) /\
    (n1 = nd -> p_ok q = true)).
  unfold mid_nodes. destruct (foldM_seq (fun (p : pad) j =>
      foldM (fun (p : pad) (t : nat * nat * nat) =>
          let '(m, a, b) := t in
          let! xa := at2 coords a j in let! xb := at2 coords b j in
          set_xx p m j ((xa + xb) / 2)) mids p) P nd p) as (q & E & Q).
  - do 4 (split; [auto|]). split; intros; lia.
  - intros j p1 Hj (W1 & K1 & S1 & X1 & Y1 & O1).
    destruct (mid_row_ok nd coords j mids p1) as (q & E & Wq & Kq & Sq & Xq & Yq & Oq); auto.
    { rewrite K1. exact HT. }
    exists q. split; [exact E|]. split; auto. split; [congruence|]. split; auto. split; [|split].
    + intros i n Hn. rewrite Xq by auto. auto.
    + intros i t Hi Ht. destruct (Nat.eq_dec i j) as [->|]; [auto|]. rewrite Xq by auto. apply Y1; auto. lia.
    + intros En. rewrite Oq, Hl, K1, Hm, Nat.eqb_refl. rewrite <- En. simpl. rewrite Nat.sub_0_r. apply Nat.eqb_refl.
  - exists q. rewrite E. destruct Q as (A & B & C & D & F & G). split; auto. repeat (split; [auto|]). auto.
Qed.

(* ---------------------------------------------------------------- new *)
Definition fill (nd : nat) (coords : mat) (p : pad) : res pad :=
  let nrow := List.length coords in
  if (nd =? 2)%nat then
    if (nrow =? 8)%nat then copy_nodes nd (kind_nnode (bkind nd)) coords p
    else let! p := copy_nodes nd nrow coords p in mid_nodes nd coords mid_2d p
  else
    if (nrow =? 20)%nat then copy_nodes nd (kind_nnode (bkind nd)) coords p
    else let! p := copy_nodes nd nrow coords p in mid_nodes nd coords mid_3d p.


Lemma fill_ok nd coords p : good_size nd coords -> rect nd coords -> pad_wf p -> p_kind p = bkind nd -> p_space p = nd ->
  exists q, fill nd coords p = Ok q /\ pad_wf q /\ p_kind q = bkind nd /\ p_space q = nd /\ p_ok q = true /\ holds_nodes nd coords q.
Proof.
  intros [Hn HS] HR W K S. unfold fill.
  assert (HR' : forall m, (m < List.length coords)%nat -> (nd <= List.length (nth m coords []))%nat) by (intros m Hm; rewrite HR; auto).
  destruct Hn as [-> | ->]; cbn [Nat.eqb] in HS |- *; destruct HS as [L|L]; rewrite L; cbn [Nat.eqb].
  - destruct (copy_nodes_ok 2 4 coords p) as (q & E & Wq & Kq & Sq & Xq & Oq); auto; try lia.
    { rewrite K. change (1 <= 4 <= 8)%nat. lia. } { intros m Hm. apply HR'. lia. }
    rewrite E. cbn [bind].
    destruct (mid_nodes_ok 2 coords mid_2d q (7, 3, 0)%nat [(6, 2, 3); (5, 1, 2); (4, 0, 1)]%nat) as (r & Er & Wr & Kr & Sr & Xr & Yr & Or); auto.
    { cbn. repeat constructor; cbn; intuition lia. } { rewrite Kq, K. reflexivity. }
    { rewrite Kq, K, L. intros t Ht. cbn in Ht. destruct Ht as [<-|[<-|[<-|[<-|[]]]]]; change (kind_nnode (bkind 2)) with 8%nat; unfold mid_m; cbn [fst snd]; lia. }
    rewrite Er. exists r. split; auto. split; auto. split; [congruence|]. split; auto. split; auto. split.
    + intros m i Hm Hi. rewrite L in Hm. rewrite Xr. { rewrite Xq by auto. rewrite (proj2 (Nat.ltb_lt m 4)) by lia. reflexivity. }
      cbn. intuition lia.
    + intros _ e i He Hi. change (e < 4)%nat in He.
      assert (C : forall m, (m < 4)%nat -> node_x r i m = ent coords m i).
      { intros m Hm. rewrite Xr. { rewrite Xq by auto. rewrite (proj2 (Nat.ltb_lt m 4)) by lia. reflexivity. } cbn. intuition lia. }
      assert (M : forall t, In t mid_2d -> node_x r i (mid_m t) = (node_x r i (snd (fst t)) + node_x r i (snd t)) / 2).
      { intros t Ht. rewrite Yr by auto. cbn in Ht. destruct Ht as [<-|[<-|[<-|[<-|[]]]]]; cbn [fst snd]; rewrite !C by lia; reflexivity. }
      do 4 (destruct e as [|e]; [match goal with |- node_x r i ?m = _ => let m' := eval compute in m in
        match eval compute in (find (fun t => Nat.eqb (mid_m t) m') mid_2d) with Some ?t => pose proof (M t ltac:(cbn; tauto)) as MM end end; cbn in MM |- *; rewrite MM; lra|]). lia.
  - change (kind_nnode (bkind 2)) with 8%nat.
    destruct (copy_nodes_ok 2 8 coords p) as (q & E & Wq & Kq & Sq & Xq & Oq); auto; try lia.
    { rewrite K. change (1 <= 8 <= 8)%nat. lia. } { intros m Hm. apply HR'. lia. }
    rewrite E. exists q. split; auto. split; auto. split; [congruence|]. split; auto. split; [rewrite Oq, K; reflexivity|]. split.
    + intros m i Hm Hi. rewrite L in Hm. rewrite Xq by auto. rewrite (proj2 (Nat.ltb_lt m 8)) by lia. reflexivity.
    + intros H. change (corners 2) with 4%nat in H. lia.
  - destruct (copy_nodes_ok 3 8 coords p) as (q & E & Wq & Kq & Sq & Xq & Oq); auto; try lia.
    { rewrite K. change (1 <= 8 <= 20)%nat. lia. } { intros m Hm. apply HR'. lia. }
    rewrite E. cbn [bind].
    destruct (mid_nodes_ok 3 coords mid_3d q (19, 3, 7)%nat (tl (rev mid_3d))) as (r & Er & Wr & Kr & Sr & Xr & Yr & Or); auto.
    { cbn. repeat constructor; cbn; intuition lia. } { rewrite Kq, K. reflexivity. }
    { rewrite Kq, K, L. intros t Ht. cbn in Ht. repeat (destruct Ht as [<-|Ht]; [change (kind_nnode (bkind 3)) with 20%nat; unfold mid_m; cbn [fst snd]; lia|]). contradiction. }
    rewrite Er. exists r. split; auto. split; auto. split; [congruence|]. split; auto. split; auto. split.
    + intros m i Hm Hi. rewrite L in Hm. rewrite Xr. { rewrite Xq by auto. rewrite (proj2 (Nat.ltb_lt m 8)) by lia. reflexivity. }
      cbn. intuition lia.
    + intros _ e i He Hi. change (e < 12)%nat in He.
      assert (C : forall m, (m < 8)%nat -> node_x r i m = ent coords m i).
      { intros m Hm. rewrite Xr. { rewrite Xq by auto. rewrite (proj2 (Nat.ltb_lt m 8)) by lia. reflexivity. } cbn. intuition lia. }
      assert (M : forall t, In t mid_3d -> node_x r i (mid_m t) = (node_x r i (snd (fst t)) + node_x r i (snd t)) / 2).
      { intros t Ht. rewrite Yr by auto. cbn in Ht. repeat (destruct Ht as [<-|Ht]; [cbn [fst snd]; rewrite !C by lia; reflexivity|]). contradiction. }
      do 12 (destruct e as [|e]; [match goal with |- node_x r i ?m = _ => let m' := eval compute in m in
        match eval compute in (find (fun t => Nat.eqb (mid_m t) m') mid_3d) with Some ?t => pose proof (M t ltac:(cbn; tauto)) as MM end end; cbn in MM |- *; rewrite MM; lra|]). lia.
  - change (kind_nnode (bkind 3)) with 20%nat.
    destruct (copy_nodes_ok 3 20 coords p) as (q & E & Wq & Kq & Sq & Xq & Oq); auto; try lia.
    { rewrite K. change (1 <= 20 <= 20)%nat. lia. } { intros m Hm. apply HR'. lia. }
    rewrite E. exists q. split; auto. split; auto. split; [congruence|]. split; auto. split; [rewrite Oq, K; reflexivity|]. split.
    + intros m i Hm Hi. rewrite L in Hm. rewrite Xq by auto. rewrite (proj2 (Nat.ltb_lt m 20)) by lia. reflexivity.
    + intros H. change (corners 3) with 8%nat in H. lia.
Qed.

Lemma block_new_eq zdet nd coords : good_size nd coords ->
  block_new zdet nd coords =
  let! p := pad_new nd (bkind nd) in
  let! p := fill nd coords p in
  let! dj := calc_jacobian zdet p [0; 0; 0] in
  if Rleb (fst dj) 0 then Err "the determinant of the Jacobian is non-positive at the center of the block" else
  Ok (mkBlock MARKER nd (repeat 2%nat nd) (repeat (repeat (NAT_LENGTH / INR 2) 2) nd) [] [] [] [] (snd dj)
        (mkRing 0 (PI / 2) 1 2 0 1) false).
Proof.
  intros [Hn HS]. unfold block_new, fill, bkind.
  destruct Hn as [-> | ->]; cbn [Nat.eqb Nat.ltb Nat.leb orb] in HS |- *; destruct HS as [-> | ->]; reflexivity.
Qed.
Lemma block_new_size zdet nd coords : ~ good_size nd coords -> exists msg, block_new zdet nd coords = Err msg.
Proof.
  intros H. unfold block_new. destruct ((nd <? 2) || (3 <? nd))%nat eqn:A; [eexists; reflexivity|].
  apply orb_false_iff in A as (A1 & A2). apply Nat.ltb_ge in A1, A2. assert (Hn : (nd = 2 \/ nd = 3)%nat) by lia.
  unfold good_size in H. destruct Hn as [-> | ->]; cbn [Nat.eqb andb negb] in H |- *.
  - destruct (Nat.eqb_spec (List.length coords) 4); [exfalso; tauto|]. destruct (Nat.eqb_spec (List.length coords) 8); [exfalso; tauto|]. eexists; reflexivity.
  - destruct (Nat.eqb_spec (List.length coords) 8); [exfalso; tauto|]. destruct (Nat.eqb_spec (List.length coords) 20); [exfalso; tauto|]. eexists; reflexivity.
Qed.
Lemma fill_ragged nd coords p q : good_size nd coords -> fill nd coords p = Ok q -> forall m, (m < List.length coords)%nat -> (nd <= List.length (nth m coords []))%nat.
Proof.
  intros [Hn HS] E m Hm.
  assert (C : forall n p q, copy_nodes nd n coords p = Ok q -> forall a, (a < n)%nat -> (nd <= List.length (nth a coords []))%nat).
  { clear -Hn. intros n p q E a Ha. unfold copy_nodes in E.
    assert (H : forall l p q, foldM (fun (p : pad) m => foldM (fun (p : pad) j => let! v := at2 coords m j in set_xx p m j v) (seq 0 nd) p) l p = Ok q ->
      forall a, In a l -> (nd <= List.length (nth a coords []))%nat).
    { clear -Hn. induction l as [|x l IH]; intros p q E a Ha; [destruct Ha|]. cbn [foldM] in E.
      apply bind_ok in E as (p1 & E1 & E2). destruct Ha as [<-|Ha]; [|eauto].
      destruct nd as [|n]; [lia|]. rewrite seq_S, foldM_app in E1. apply bind_ok in E1 as (p2 & E3 & E4).
      cbn [foldM] in E4. apply bind_ok in E4 as (p3 & E5 & _). apply bind_ok in E5 as (v & Ev & _).
      unfold at2 in Ev. apply bind_ok in Ev as (row & Er & Ev). apply get_inv in Er as (_ & Er). apply get_inv in Ev as (Lv & _).
      rewrite (nth_error_nth _ _ [] Er). lia. }
    apply (H _ _ _ E). apply in_seq. lia. }
  unfold fill in E. destruct Hn as [-> | ->]; cbn [Nat.eqb] in E, HS.
  - destruct HS as [L|L]; rewrite L in *; cbn [Nat.eqb] in E.
    + apply bind_ok in E as (p1 & E1 & _). apply (C _ _ _ E1). lia.
    + apply (C _ _ _ E). change (m < 8)%nat. lia.
  - destruct HS as [L|L]; rewrite L in *; cbn [Nat.eqb] in E.
    + apply bind_ok in E as (p1 & E1 & _). apply (C _ _ _ E1). lia.
    + apply (C _ _ _ E). change (m < 20)%nat. lia.
Qed.

Lemma deriv_zero nd : (nd = 2 \/ nd = 3)%nat -> calc_deriv (bkind nd) [0; 0; 0] = calc_deriv (bkind nd) (repeat 0 nd).
Proof.
  intros Hn. unfold calc_deriv. apply map_ext_in. intros r Hr. apply map_ext_in. intros e He.
  apply (eval_below (kind_ndim (bkind nd))).
  - intros j Hj. unfold env. destruct Hn as [-> | ->]; destruct j as [|[|[|[|j]]]]; reflexivity.
  - pose proof (kind_deriv_below (bkind nd)) as B. rewrite forallb_forall in B. specialize (B _ Hr).
    rewrite forallb_forall in B. auto.
Qed.
Lemma bkind_ndim nd : (nd = 2 \/ nd = 3)%nat -> kind_ndim (bkind nd) = nd.
Proof. intros [-> | ->]; reflexivity. Qed.

Lemma same_holds nd coords p q : same_element p q -> holds_nodes nd coords p -> holds_nodes nd coords q.
Proof. intros (_ & _ & E & _) [A B]. unfold holds_nodes, node_x in *. rewrite E. auto. Qed.

Lemma new_fields zdet nd coords : 0 <= zdet -> good_size nd coords -> rect nd coords ->
  exists d, det_center nd coords d /\
    (zdet < d -> exists p, pad_wf p /\ p_kind p = bkind nd /\ p_space p = nd /\ p_ok p = true /\ holds_nodes nd coords p /\
       block_new zdet nd coords = Ok (mkBlock MARKER nd (repeat 2%nat nd) (repeat (repeat (NAT_LENGTH / INR 2) 2) nd) [] [] [] [] p
        (mkRing 0 (PI / 2) 1 2 0 1) false)) /\
    (d <= zdet -> exists msg, block_new zdet nd coords = Err msg).
Proof.
  intros Hz G HR. rewrite (block_new_eq zdet nd coords G). pose proof G as [Hn _].
  destruct (pad_new_ok nd (bkind nd) Hn) as (p0 & -> & W0 & K0 & S0 & _); [rewrite bkind_ndim; auto|]. cbn [bind].
  destruct (fill_ok nd coords p0 G HR W0 K0 S0) as (p & -> & W & K & S & O & HN). cbn [bind].
  assert (L3 : (kind_ndim (p_kind p) <= List.length [0; 0; 0]%R)%nat) by (rewrite K, bkind_ndim by auto; simpl; lia).
  assert (Es : kind_ndim (p_kind p) = p_space p) by (rewrite K, S, bkind_ndim; auto).
  pose proof (jj_partial p [0; 0; 0] W L3) as J3.
  destruct (calc_jacobian_solid zdet p _ _ W O L3 Es J3) as (H1 & H2).
  assert (Lr : (kind_ndim (p_kind p) <= List.length (repeat 0%R nd))%nat) by (rewrite repeat_length, Es; lia).
  pose proof (jj_partial p (repeat 0 nd) W Lr) as Jr.
  rewrite K, (deriv_zero nd Hn) in H1, H2. rewrite K in Jr.
  set (A := ent (mat_mul (p_geo p) (p_xxt p) (calc_deriv (bkind nd) (repeat 0 nd)))) in *.
  exists (det nd A). rewrite S in H1, H2. split; [|split].
  - exists p, A. repeat (split; [auto|]). reflexivity.
  - intros D. destruct H1 as (q & E). { rewrite Rabs_pos_eq; lra. }
    rewrite E. cbn [bind fst snd]. rewrite (proj2 (Rleb_false (det nd A) 0)) by lra.
    destruct (calc_jacobian_post zdet p _ _ q Hz W E) as (_ & SE & _).
    exists q. split; [exact (same_wf p q SE W)|]. destruct SE as (E1 & E2 & E3 & E4).
    split; [congruence|]. split; [congruence|]. split; [congruence|]. split; [|reflexivity].
    apply (same_holds nd coords p q); [repeat split; auto|auto].
  - intros D. destruct (Rle_lt_dec (Rabs (det nd A)) zdet) as [D2|D2].
    + rewrite (H2 D2). eexists; reflexivity.
    + destruct (H1 D2) as (q & ->). cbn [bind fst snd]. rewrite (proj2 (Rleb_iff (det nd A) 0)); [eexists; reflexivity|].
      destruct (Rle_lt_dec (det nd A) 0); auto. rewrite Rabs_pos_eq in D2; lra.
Qed.

Lemma nth_repeat_in {A} (x d : A) n i : (i < n)%nat -> nth i (repeat x n) d = x.
Proof. revert i. induction n as [|n IH]; intros [|i] H; simpl; auto; try lia. apply IH. lia. Qed.

Lemma default_wf nd p : (nd = 2 \/ nd = 3)%nat -> pad_wf p -> p_kind p = bkind nd -> p_space p = nd -> p_ok p = true ->
  wf_block (mkBlock MARKER nd (repeat 2%nat nd) (repeat (repeat (NAT_LENGTH / INR 2) 2) nd) [] [] [] [] p (mkRing 0 (PI / 2) 1 2 0 1) false).
Proof.
  intros Hn W K S O. constructor; cbn [b_ndim b_ndiv b_delta b_ec b_fc b_em b_fm b_pad b_args]; auto; try (intros; contradiction).
  - apply repeat_length.
  - apply repeat_length.
  - intros a Ha. unfold widths, ndivs. cbn [b_delta b_ndiv]. rewrite !nth_repeat_in by auto. reflexivity.
  - intros a Ha. unfold ndivs. cbn [b_ndiv]. rewrite nth_repeat_in by auto. lia.
  - intros a Ha. unfold widths. cbn [b_delta]. rewrite nth_repeat_in by auto. unfold NAT_LENGTH. simpl. lra.
  - unfold good_ring. cbn. pose proof PI_RGT_0. lra.
Qed.

(* rows may be longer than the number of columns only in ill-formed matrices; the first nd entries count *)
Lemma fill_trim nd coords p : (forall m, (m < List.length coords)%nat -> (nd <= List.length (nth m coords []))%nat) -> (nd = 2 \/ nd = 3)%nat ->
  fill nd (map (firstn nd) coords) p = fill nd coords p.
Proof.
  intros HR Hn.
  assert (A : forall m j, (j < nd)%nat -> at2 (map (firstn nd) coords) m j = at2 coords m j).
  { intros m j Hj. unfold at2, get. rewrite nth_error_map. destruct (nth_error coords m) as [row|] eqn:E; [|reflexivity]. cbn [option_map bind].
    rewrite <- (firstn_skipn nd row) at 2. destruct (Nat.lt_ge_cases j (List.length (firstn nd row))) as [H|H].
    - now rewrite nth_error_app1 by auto.
    - exfalso. rewrite firstn_length in H. assert (m < List.length coords)%nat by (apply nth_error_Some; congruence).
      specialize (HR m H0). rewrite (nth_error_nth _ _ [] E) in HR. lia. }
  assert (F : forall {X S} (f g : S -> X -> res S) l s, (forall s x, In x l -> f s x = g s x) -> foldM f l s = foldM g l s).
  { clear. intros X S f g l. induction l as [|x l IH]; intros s H; simpl; auto. rewrite H by (left; auto). destruct (g s x); simpl; auto. apply IH. intros. apply H. right; auto. }
  assert (C : forall n p, copy_nodes nd n (map (firstn nd) coords) p = copy_nodes nd n coords p).
  { intros n p0. unfold copy_nodes. apply F. intros s m _. apply F. intros s' j Hj. apply in_seq in Hj. rewrite A by lia. reflexivity. }
  assert (M : forall mids p, mid_nodes nd (map (firstn nd) coords) mids p = mid_nodes nd coords mids p).
  { intros mids p0. unfold mid_nodes. apply F. intros s j Hj. apply in_seq in Hj. apply F. intros s' [[m a] b'] _. rewrite !A by lia. reflexivity. }
  unfold fill. rewrite map_length, !C.
  destruct (nd =? 2)%nat; [destruct (List.length coords =? 8)%nat|destruct (List.length coords =? 20)%nat]; auto;
    destruct (copy_nodes nd (List.length coords) coords p); cbn [bind]; auto.
Qed.

Lemma new_wf zdet nd coords b : 0 <= zdet -> block_new zdet nd coords = Ok b -> wf_block b.
Proof.
  intros Hz E.
  assert (G : good_size nd coords).
  { assert (D : good_size nd coords \/ ~ good_size nd coords) by (unfold good_size; destruct (nd =? 2)%nat; lia). destruct D as [G|G]; auto. destruct (block_new_size zdet nd coords G) as (msg & M). congruence. }
  pose proof E as E'. rewrite (block_new_eq zdet nd coords G) in E'. pose proof G as [Hn HS].
  destruct (pad_new_ok nd (bkind nd) Hn) as (p0 & N & W0 & K0 & S0 & _); [rewrite bkind_ndim; auto|].
  rewrite N in E'. cbn [bind] in E'. apply bind_ok in E' as (p & Ef & E').
  pose proof (fill_ragged nd coords p0 p G Ef) as HR.
  rewrite <- (fill_trim nd coords p0 HR Hn) in Ef.
  destruct (fill_ok nd (map (firstn nd) coords) p0) as (q & Eq & W & K & S & O & _); auto.
  { split; auto. now rewrite map_length. }
  { intros m Hm. rewrite map_length in Hm. rewrite (nth_map_in _ _ _ []) by auto. rewrite firstn_length. specialize (HR m Hm). lia. }
  rewrite Eq in Ef. injection Ef as ->. apply bind_ok in E' as ([d r] & Ej & E'). cbn [fst snd] in E'.
  destruct (Rleb d 0); [discriminate|]. injection E' as <-.
  destruct (calc_jacobian_post zdet p _ _ r Hz W Ej) as (_ & SE & _). pose proof SE as (E1 & E2 & E3 & E4).
  apply default_wf; auto; try congruence. exact (same_wf p r SE W).
Qed.
