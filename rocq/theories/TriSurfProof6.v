(* The calls of the function given to Scratchpad::triangulate. *)
From Coq Require Import String Reals QArith Qreals List Arith Bool Lia Lra.
From Verif Require Import Base BaseFacts Kind MeshModel ShapesModel ShapesSpec ShapesTables PadModel PadSpec PadProof PadProof2 TopoModel BlockProof6
  TriSurfModel TriSurfSpec TriSurfProof TriSurfProof2.
Import ListNotations.
Local Open Scope nat_scope.

Lemma same_refl p : same_element p p.
Proof. repeat split. Qed.
Lemma same_trans p q r : same_element p q -> same_element q r -> same_element p r.
Proof. intros (A & B & C & D) (A' & B' & C' & D'). repeat split; congruence. Qed.
Lemma same_wf p q : same_element p q -> pad_wf p -> pad_wf q.
Proof. intros (A & B & C & D) W. unfold pad_wf. rewrite A, B, C. exact W. Qed.
Lemma same_corner p q n i : same_element p q -> corner_x q n i = corner_x p n i.
Proof. intros (A & B & C & D). unfold corner_x, node_x, pos. rewrite A. destruct (n <? kind_nnode (p_kind p)); [now rewrite C|]. unfold node_x. now rewrite C. Qed.

Lemma pad_corner p n : pad_wf p -> p_ok p = true -> n < kind_nnode (p_kind p) + triangulate_extra_nnode (p_kind p) ->
  exists x q, tri_corner p (p_space p) n = Ok (x, q) /\ List.length x = p_space p /\ same_element p q /\
    forall i, i < p_space p -> nth i x 0%R = corner_x p n i.
Proof.
  intros W O Hn. unfold tri_corner, corner_x. destruct (Nat.leb_spec (kind_nnode (p_kind p)) n) as [Hm|Hm].
  - destruct (Nat.leb_spec (triangulate_extra_nnode (p_kind p)) (n - kind_nnode (p_kind p))); [lia|].
    destruct (Nat.ltb_spec n (kind_nnode (p_kind p))); [lia|].
    destruct (pad_coords_ok p (map Q2R (triangulate_extra_coords (p_kind p) (n - kind_nnode (p_kind p)))) W O) as (x & q & -> & Lx & Hx & Sm).
    exists x, q. auto.
  - destruct (Nat.ltb_spec n (kind_nnode (p_kind p))); [|lia]. rewrite (mapM_ok _ (fun j => node_x p j n)).
    + cbn [bind]. eexists _, p. split; [reflexivity|]. rewrite map_length, seq_length. split; [auto|]. split; [apply same_refl|].
      intros i Hi. now rewrite nth_map_seq by lia.
    + intros j Hj. apply in_seq in Hj. rewrite (get_ok _ _ []) by (destruct W as (_ & _ & -> & _); lia). cbn [bind].
      apply get_ok. rewrite (wf_row p j W) by lia. auto.
Qed.

Lemma Forall2_weaken {A B} (P Q : A -> B -> Prop) l l' : (forall a b, P a b -> Q a b) -> Forall2 P l l' -> Forall2 Q l l'.
Proof. intros H F. induction F; constructor; auto. Qed.
Definition pairs_of (k : geokind) : list (nat * nat) := flat_map (fun t => map (pair t) (seq 0 3)) (seq 0 (triangulate_ntriangle k)).

Lemma calls_ok (l : list (nat * nat)) : forall p, plane_kind (p_kind p) -> pad_wf p -> p_ok p = true ->
  (forall t i, In (t, i) l -> t < triangulate_ntriangle (p_kind p) /\ i < 3) ->
  exists calls q, same_element p q /\
    Forall2 (fun (ti : nat * nat) (c : pad_call) => exists x, c = (fst ti, snd ti, tnode (p_kind p) (fst ti) (snd ti), x) /\ List.length x = p_space p /\
      forall j, j < p_space p -> nth j x 0%R = corner_x p (tnode (p_kind p) (fst ti) (snd ti)) j) l calls /\
    forall St (f : St -> nat -> nat -> nat -> list R -> res St) s,
      foldM (fun (st : pad * St) (ti : nat * nat) =>
          let! m := unwrap (triangulate_triangle_nodes (p_kind p) (fst ti) (snd ti)) in
          let! xp := tri_corner (fst st) (p_space p) m in
          let! s := f (snd st) (fst ti) (snd ti) m (fst xp) in
          Ok (snd xp, s)) l (p, s) = (let! s' := foldM (do_call f) calls s in Ok (q, s')).
Proof.
  induction l as [|[t i] l IH]; intros p P W O H.
  - exists [], p. split; [apply same_refl|]. split; [constructor|]. reflexivity.
  - destruct (H t i (or_introl eq_refl)) as (Ht & Hi). destruct (plane_nodes (p_kind p) t i P Ht Hi) as (En & Hn).
    destruct (pad_corner p (tnode (p_kind p) t i) W O Hn) as (x & q & Eq & Lx & Sq & Hx).
    pose proof Sq as (S1 & S2 & S3 & S4).
    destruct (IH q) as (calls & r & Sr & F & E); [now rewrite S1|now apply (same_wf p)|congruence|rewrite S1; intros; apply H; now right|].
    rewrite S1, S2 in F, E. exists ((t, i, tnode (p_kind p) t i, x) :: calls), r. split; [now apply (same_trans p q)|]. split.
    + constructor; [exists x; cbn [fst snd]; auto|]. eapply Forall2_weaken; [|exact F]. intros [t' i'] c (x' & Ec & Lx' & Hx'). exists x'.
      split; [auto|]. split; [auto|]. intros j Hj. rewrite Hx' by auto. now apply same_corner.
    + intros St f s. cbn [foldM fst snd]. rewrite En. cbn [unwrap bind]. rewrite Eq. cbn [bind fst snd do_call].
      destruct (f s t i (tnode (p_kind p) t i) x) as [s1| | |]; try reflexivity. cbn [bind]. apply E.
Qed.

Lemma pad_triangulate_calls p : plane_kind (p_kind p) -> pad_wf p -> p_ok p = true ->
  exists calls q, same_element p q /\
    List.length calls = 3 * triangulate_ntriangle (p_kind p) /\
    (forall t i, t < triangulate_ntriangle (p_kind p) -> i < 3 -> exists x,
       nth_error calls (3 * t + i) = Some (t, i, tnode (p_kind p) t i, x) /\ List.length x = p_space p /\
       forall j, j < p_space p -> nth j x 0%R = corner_x p (tnode (p_kind p) t i) j) /\
    forall St (f : St -> nat -> nat -> nat -> list R -> res St) s,
      pad_triangulate p (p_space p) f s = (let! s' := foldM (do_call f) calls s in Ok (q, s')).
Proof.
  intros P W O. destruct (calls_ok (pairs_of (p_kind p)) p P W O) as (calls & q & Sq & F & E).
  { intros t i H. unfold pairs_of in H. apply in_flat_map in H as (t' & Ht & H). apply in_map_iff in H as (i' & [= <- <-] & H). apply in_seq in Ht, H. lia. }
  exists calls, q. split; [auto|].
  assert (N : forall n a, List.length (flat_map (fun t => map (pair t) (seq 0 3)) (seq a n)) = 3 * n /\
     forall t i, t < n -> i < 3 -> nth_error (flat_map (fun t => map (pair t) (seq 0 3)) (seq a n)) (3 * t + i) = Some (a + t, i)).
  { clear. induction n as [|n IH]; intros a; [split; [reflexivity|lia]|]. change (seq a (S n)) with (a :: seq (S a) n). cbn [flat_map]. destruct (IH (S a)) as (L & H). split.
    - rewrite app_length, L. cbn. lia.
    - intros t i Ht Hi. destruct t as [|t].
      + rewrite nth_error_app1 by (cbn; lia). rewrite Nat.add_0_r. destruct i as [|[|[|i]]]; [reflexivity|reflexivity|reflexivity|lia].
      + rewrite nth_error_app2 by (cbn; lia). change (List.length (map (pair a) (seq 0 3))) with 3. replace (3 * S t + i - 3) with (3 * t + i) by lia. rewrite H by lia.
        f_equal. f_equal. lia. }
  destruct (N (triangulate_ntriangle (p_kind p)) 0) as (L & Nt). fold (pairs_of (p_kind p)) in L, Nt. split; [|split].
  - rewrite <- L. clear - F. induction F; simpl; auto.
  - intros t i Ht Hi. specialize (Nt t i Ht Hi). cbn [Nat.add] in Nt.
    assert (X : forall l cs, Forall2 (fun (ti : nat * nat) (c : pad_call) => exists x, c = (fst ti, snd ti, tnode (p_kind p) (fst ti) (snd ti), x) /\ List.length x = p_space p /\
      forall j, j < p_space p -> nth j x 0%R = corner_x p (tnode (p_kind p) (fst ti) (snd ti)) j) l cs -> forall n ti, nth_error l n = Some ti ->
      exists x, nth_error cs n = Some (fst ti, snd ti, tnode (p_kind p) (fst ti) (snd ti), x) /\ List.length x = p_space p /\
      forall j, j < p_space p -> nth j x 0%R = corner_x p (tnode (p_kind p) (fst ti) (snd ti)) j).
    { clear. induction 1 as [|a b l cs Hab _ IH]; intros [|n] ti; cbn [nth_error]; try discriminate; [|apply IH].
      intros [= <-]. destruct Hab as (x & -> & ?). eauto. }
    apply (X _ _ F _ _ Nt).
  - intros St f s. rewrite <- E. unfold pad_triangulate. rewrite (proj2 (plane_tri_or_qua _) P), Nat.eqb_refl. cbn [negb].
    unfold pairs_of. rewrite foldM_flat_map. apply foldM_ext. intros st t _. symmetry.
    generalize (seq 0 3) as l. intros l. revert st. induction l as [|i l IH]; intros st; [reflexivity|]. cbn [map foldM fst snd].
    destruct (unwrap (triangulate_triangle_nodes (p_kind p) t i)) as [n| | |]; try reflexivity. cbn [bind].
    destruct (tri_corner (fst st) (p_space p) n) as [xp| | |]; try reflexivity. cbn [bind].
    destruct (f (snd st) t i n (fst xp)); try reflexivity. cbn [bind]. apply IH.
Qed.
