(* The sum over the boundary is the sum over all cells *)
From Coq Require Import String Reals List Lia Lra Bool Arith ZArith Permutation Sorted.
From Verif Require Import Base BaseFacts Kind MeshModel GraphModel MeshQuerySpec TopoModel TopoSpec TopoMaps TopoProof TopoFeat3 TopoFinal BalanceSpec.
Import ListNotations.
Local Open Scope list_scope.
Local Open Scope R_scope.

Lemma sum_over_perm {A} (w : A -> R) l l' : Permutation l l' -> sum_over w l = sum_over w l'.
Proof. unfold sum_over. induction 1; cbn; lra. Qed.
Lemma sum_over_app {A} (w : A -> R) l l' : sum_over w (l ++ l') = sum_over w l + sum_over w l'.
Proof. unfold sum_over. rewrite map_app. induction (map w l); cbn; lra. Qed.
Lemma sum_over_ext {A} (w w' : A -> R) l : (forall x, In x l -> w x = w' x) -> sum_over w l = sum_over w' l.
Proof. unfold sum_over. induction l; cbn; intros H; auto. rewrite IHl by auto. rewrite (H a) by auto. reflexivity. Qed.
Lemma sum_over_flat {A B} (w : B -> R) (h : A -> list B) l : sum_over w (flat_map h l) = sum_over (fun x => sum_over w (h x)) l.
Proof. induction l; [reflexivity|]. cbn [flat_map]. rewrite sum_over_app, IHl. reflexivity. Qed.
Lemma sum_over_map {A B} (w : B -> R) (h : A -> B) l : sum_over w (map h l) = sum_over (fun x => w (h x)) l.
Proof. unfold sum_over. now rewrite map_map. Qed.
Lemma sum_over_scal {A} (w : A -> R) k l : sum_over (fun x => k * w x) l = k * sum_over w l.
Proof. unfold sum_over. induction l; cbn; lra. Qed.
Lemma sum_over_zero {A} (w : A -> R) l : (forall x, In x l -> w x = 0) -> sum_over w l = 0.
Proof. unfold sum_over. induction l; cbn; intros H; [lra|]. rewrite IHl by auto. rewrite (H a) by auto. lra. Qed.

Lemma split_perm {A} (f : A -> bool) l : Permutation l (filter f l ++ filter (fun x => negb (f x)) l).
Proof.
  induction l as [|x l IH]; cbn; [constructor|]. destruct (f x); cbn.
  - now constructor.
  - eapply perm_trans; [constructor; exact IH|]. apply Permutation_middle.
Qed.
Lemma filter_len {A} (f : A -> bool) l : (List.length (filter f l) <= List.length l)%nat.
Proof. induction l; cbn; [lia|]. destruct (f a); cbn; lia. Qed.

(* entries with equal keys cancel: only the entries with a key of their own count *)
Lemma cancel {A B K} (dec : forall x y : K, {x = y} + {x <> y}) (key : A -> K) (kb : B -> K) (w : A -> R) (wb : B -> R) :
  forall n L Bs, (List.length L <= n)%nat -> NoDup L -> NoDup (map kb Bs) ->
  (forall x y, In x L -> In y L -> x <> y -> key x = key y -> w x + w y = 0) ->
  (forall b, In b Bs -> exists x, In x L /\ key x = kb b /\ wb b = w x /\ forall y, In y L -> key y = kb b -> y = x) ->
  (forall x, In x L -> (forall y, In y L -> key y = key x -> y = x) -> exists b, In b Bs /\ kb b = key x) ->
  sum_over w L = sum_over wb Bs.
Proof.
  induction n as [|n IH]; intros L Bs Ln ND NB C HB HL.
  { destruct L; [|cbn in Ln; lia]. destruct Bs as [|b Bs]; [reflexivity|]. destruct (HB b (or_introl eq_refl)) as (x & [] & _). }
  destruct L as [|x L]. { destruct Bs as [|b Bs]; [reflexivity|]. destruct (HB b (or_introl eq_refl)) as (x & [] & _). }
  set (f := fun y => if dec (key y) (key x) then true else false).
  set (f' := fun b => if dec (kb b) (key x) then true else false).
  assert (F : forall y, f y = true <-> key y = key x) by (intros y; unfold f; destruct (dec (key y) (key x)); split; auto; discriminate).
  assert (F' : forall y, f' y = true <-> kb y = key x) by (intros y; unfold f'; destruct (dec (kb y) (key x)); split; auto; discriminate).
  rewrite (sum_over_perm w _ _ (split_perm f (x :: L))), (sum_over_perm wb _ _ (split_perm f' Bs)), !sum_over_app.
  f_equal.
  - assert (NDf : NoDup (filter f (x :: L))) by now apply NoDup_filter.
    assert (Ef : filter f (x :: L) = x :: filter f L) by (cbn; rewrite (proj2 (F x) eq_refl); reflexivity).
    assert (NDb : NoDup (map kb (filter f' Bs))).
    { clear -NB. induction Bs; cbn in *; [constructor|]. inversion NB; subst. destruct (f' a); cbn; auto. constructor; auto.
      intros Q. apply H1. apply in_map_iff in Q as (z & <- & Hz). apply in_map. apply filter_In in Hz. tauto. }
    rewrite Ef in *. destruct (filter f L) as [|y t] eqn:Ey.
    + assert (U : forall y, In y (x :: L) -> key y = key x -> y = x).
      { intros y [->|Hy] E; auto. exfalso. assert (Q : In y (filter f L)) by (apply filter_In; rewrite F; auto). rewrite Ey in Q. destruct Q. }
      destruct (HL x (or_introl eq_refl) U) as (b & Hb & Eb).
      destruct (filter f' Bs) as [|b1 [|b2 r]] eqn:Eb'.
      * exfalso. assert (Q : In b (filter f' Bs)) by (apply filter_In; rewrite F'; auto). rewrite Eb' in Q. destruct Q.
      * assert (Q : In b1 (filter f' Bs)) by (rewrite Eb'; cbn; auto). apply filter_In in Q as (Q1 & Q2). apply F' in Q2.
        destruct (HB b1 Q1) as (x' & H1 & H2 & H3 & _). rewrite (U x' H1 (eq_trans H2 Q2)) in H3. cbn. now rewrite H3.
      * exfalso. assert (Q : In b1 (filter f' Bs) /\ In b2 (filter f' Bs)) by (rewrite Eb'; cbn; auto). destruct Q as (Q1 & Q2).
        apply filter_In in Q1 as (_ & Q1). apply filter_In in Q2 as (_ & Q2). apply F' in Q1. apply F' in Q2.
        cbn in NDb. inversion NDb; subst. apply H1. left. congruence.
    + assert (I : forall z, In z (x :: y :: t) -> In z (x :: L) /\ key z = key x).
      { intros z [->|Hz]; [cbn; auto|]. rewrite <- Ey in Hz. apply filter_In in Hz as (H1 & H2). apply F in H2. cbn. auto. }
      assert (E0 : filter f' Bs = []).
      { destruct (filter f' Bs) as [|b r] eqn:Eb'; [reflexivity|exfalso]. assert (Q : In b (filter f' Bs)) by (rewrite Eb'; cbn; auto).
        apply filter_In in Q as (Q1 & Q2). apply F' in Q2. destruct (HB b Q1) as (x' & _ & _ & _ & U).
        destruct (I y) as (I1 & I2); [cbn; auto|]. pose proof (U x (or_introl eq_refl) (eq_sym Q2)). pose proof (U y I1 (eq_trans I2 (eq_sym Q2))).
        inversion NDf; subst. match goal with H : ~ In _ (_ :: t) |- _ => apply H; left; congruence end. }
      rewrite E0. change (sum_over wb []) with 0.
      assert (S2 : forall u v, In u (x :: y :: t) -> In v (x :: y :: t) -> u <> v -> w u + w v = 0).
      { intros u v Hu Hv N. destruct (I u Hu) as (U1 & U2). destruct (I v Hv) as (V1 & V2). apply C; auto. congruence. }
      inversion NDf as [|? ? N1 N2]; subst. inversion N2 as [|? ? N3 N4]; subst.
      assert (Sxy : w x + w y = 0) by (apply S2; [cbn; auto|cbn; auto|intros ->; apply N1; cbn; auto]).
      destruct t as [|z t].
      * unfold sum_over. cbn. lra.
      * assert (Sxz : w x + w z = 0) by (apply S2; [cbn; auto|cbn; auto|intros ->; apply N1; cbn; auto]).
        assert (Syz : w y + w z = 0) by (apply S2; [cbn; auto|cbn; auto|intros ->; apply N3; cbn; auto]).
        apply sum_over_zero. intros v Hv.
        assert (X0 : w x = 0) by lra. destruct Hv as [<-|Hv]; [exact X0|].
        assert (Q : w x + w v = 0); [|lra]. apply S2; [cbn; auto|right; exact Hv|intros ->; exact (N1 Hv)].
  - assert (G : forall y, In y (filter (fun y => negb (f y)) (x :: L)) <-> In y (x :: L) /\ key y <> key x).
    { intros y. rewrite filter_In. rewrite negb_true_iff. rewrite <- (F y). destruct (f y); split; intros (? & ?); split; auto; congruence. }
    assert (G' : forall y, In y (filter (fun y => negb (f' y)) Bs) <-> In y Bs /\ kb y <> key x).
    { intros y. rewrite filter_In. rewrite negb_true_iff. rewrite <- (F' y). destruct (f' y); split; intros (? & ?); split; auto; congruence. }
    apply IH.
    + cbn [filter]. rewrite (proj2 (F x) eq_refl). cbn [negb]. pose proof (filter_len (fun y => negb (f y)) L). cbn in Ln. lia.
    + now apply NoDup_filter.
    + clear -NB. induction Bs; cbn in *; [constructor|]. inversion NB; subst. destruct (f' a); cbn; auto. constructor; auto.
      intros Q. apply H1. apply in_map_iff in Q as (z & <- & Hz). apply in_map. apply filter_In in Hz. tauto.
    + intros u v Hu Hv. apply G in Hu as (Hu & _). apply G in Hv as (Hv & _). now apply C.
    + intros b Hb. apply G' in Hb as (Hb & Nb). destruct (HB b Hb) as (u & U1 & U2 & U3 & U4). exists u. split; [apply G; split; auto; congruence|].
      split; auto. split; auto. intros v Hv. apply G in Hv as (Hv & _). auto.
    + intros u Hu U. apply G in Hu as (Hu & Nu). destruct (HL u Hu) as (b & Hb & Eb).
      * intros v Hv Ev. apply U; auto. apply G. split; auto. congruence.
      * exists b. split; auto. apply G'. split; auto. congruence.
Qed.

(* the places (cell, local number) of the edges or faces of a mesh, with the corners there *)
Definition place := (nat * nat * list nat)%type.
Definition edge_places (c : cell) : list place :=
  map (fun e => (c_id c, e, map (fun i => nth (edge_node_id (c_kind c) e i) (c_points c) 0%nat) (seq 0 2))) (seq 0 (kind_nedge (c_kind c))).
Definition face_places (c : cell) : list place :=
  map (fun f => (c_id c, f, map (fun i => nth (face_node_id (c_kind c) f i) (c_points c) 0%nat) (seq 0 (face_ncorner (c_kind c)))))
    (seq 0 (kind_nface (c_kind c))).

Lemma nodup_places {T} (m : mesh T) (pl : cell -> list place) (g : cell -> nat -> list nat) (n : cell -> nat) d : consistent m ->
  (forall c, pl c = map (fun e => (c_id c, e, g c e)) (seq 0 (n c))) -> NoDup (flat_map pl (of_dim d m)).
Proof.
  intros (_ & C) E.
  assert (N : NoDup (map c_id (of_dim d m))).
  { assert (X : NoDup (map c_id (cells m))).
    { replace (map c_id (cells m)) with (seq 0 (List.length (cells m))); [apply seq_NoDup|].
      apply nth_ext with (d := 0%nat) (d' := 0%nat); [now rewrite map_length, seq_length|]. intros i Hi. rewrite seq_length in Hi. rewrite seq_nth by auto.
      destruct (nth_error (cells m) i) as [c|] eqn:Ec; [|apply nth_error_None in Ec; lia].
      rewrite (nth_error_nth (map c_id (cells m)) i 0%nat (x := c_id c)); [symmetry; apply (C i c Ec)|]. now apply map_nth_error. }
    unfold of_dim. clear -X. induction (cells m); cbn in *; [constructor|]. inversion X; subst. destruct (_ =? d)%nat; cbn; auto. constructor; auto.
    intros Q. apply H1. apply in_map_iff in Q as (z & <- & Hz). apply in_map. apply filter_In in Hz. tauto. }
  induction (of_dim d m) as [|c l IH]; [constructor|]. cbn [flat_map map] in *. inversion N as [|? ? N1 N2]; subst.
  apply nodup_app; auto.
  - rewrite E. apply NoDup_map_inv with (f := fun x : place => snd (fst x)). rewrite map_map. cbn [fst snd]. rewrite map_id. apply seq_NoDup.
  - intros x H1 H2. rewrite E in H1. apply in_map_iff in H1 as (e & <- & _). apply in_flat_map in H2 as (c' & Hc' & H2). rewrite E in H2.
    apply in_map_iff in H2 as (e' & X & _). apply N1. apply in_map_iff. exists c'. split; auto. congruence.
Qed.

Lemma nth_nth_error {A} (l : list A) i d : (i < List.length l)%nat -> nth_error l i = Some (nth i l d).
Proof. intros H. apply nth_error_nth'; auto. Qed.
Lemma map_nth_error_seq (ps : list nat) (h : nat -> nat) n : (forall i, (i < n)%nat -> (h i < List.length ps)%nat) ->
  map (fun i => nth_error ps (h i)) (seq 0 n) = map Some (map (fun i => nth (h i) ps 0%nat) (seq 0 n)).
Proof. intros H. rewrite map_map. apply map_ext_in. intros i Hi. apply in_seq in Hi. apply nth_nth_error. apply H. lia. Qed.
Lemma map_some_inj {A} : forall l l' : list A, map Some l = map Some l' -> l = l'.
Proof. induction l; destruct l'; cbn; intros H; try discriminate; auto. injection H as -> H. f_equal; auto. Qed.

Lemma edge_low k e i : kind_ndim k = 2%nat -> (e < kind_nedge k)%nat -> (i < 2)%nat -> (edge_node_id k e i < kind_nnode k)%nat.
Proof. intros D He Hi. apply ShapesProof.edge_node_lt; auto. destruct k; try discriminate D; vm_compute; lia. Qed.
Lemma face_low k f i : kind_ndim k = 3%nat -> (f < kind_nface k)%nat -> (i < face_ncorner k)%nat -> (face_node_id k f i < kind_nnode k)%nat.
Proof. intros D Hf Hi. apply ShapesProof.face_node_lt; auto. destruct k; try discriminate D; vm_compute in Hi |- *; lia. Qed.

Section Mesh.
Context {T : Type} (m : mesh T) (C : consistent m).

Lemma in_edge_places c e l : In (c, e, l) (flat_map edge_places (of_dim 2 m)) <-> exists p q, l = [p; q] /\ edge_of m c e p q.
Proof.
  pose proof C as (_ & C2). rewrite in_flat_map. split.
  - intros (cl & Hc & H). unfold edge_places in H. apply in_map_iff in H as (e' & X & He). injection X as <- <- <-. apply filter_In in Hc as (Hc & D). apply Nat.eqb_eq in D.
    apply in_seq in He. pose proof (C2 _ _ (cell_by_id m cl C Hc)) as (_ & Ln & _). eexists _, _. split; [cbn [map seq]; reflexivity|].
    exists cl. repeat split; auto; try lia; (apply nth_nth_error; rewrite Ln; apply edge_low; auto; lia).
  - intros (p & q & -> & cl & Hc & <- & D & He & A & B). exists cl. split; [apply filter_In; split; auto; now apply Nat.eqb_eq|].
    unfold edge_places. apply in_map_iff. exists e. split; [|apply in_seq; lia]. cbn [map seq]. now rewrite (nth_error_nth _ _ _ A), (nth_error_nth _ _ _ B).
Qed.

Lemma in_face_places c f l : In (c, f, l) (flat_map face_places (of_dim 3 m)) <-> face_of m c f l.
Proof.
  pose proof C as (_ & C2). rewrite in_flat_map. split.
  - intros (cl & Hc & H). unfold face_places in H. apply in_map_iff in H as (e' & X & He). injection X as <- <- <-. apply filter_In in Hc as (Hc & D). apply Nat.eqb_eq in D.
    apply in_seq in He. pose proof (C2 _ _ (cell_by_id m cl C Hc)) as (_ & Ln & _).
    exists cl. repeat split; auto; try lia. apply map_nth_error_seq. intros i Hi. rewrite Ln. apply face_low; auto; lia.
  - intros (cl & Hc & <- & D & He & A). exists cl. split; [apply filter_In; split; auto; now apply Nat.eqb_eq|].
    pose proof (C2 _ _ (cell_by_id m cl C Hc)) as (_ & Ln & _).
    unfold face_places. apply in_map_iff. exists f. split; [|apply in_seq; lia]. f_equal. apply map_some_inj. rewrite <- A. symmetry. apply map_nth_error_seq.
    intros i Hi. rewrite Ln. apply face_low; auto; lia.
Qed.

Variables (leb : T -> T -> bool) (shuffle : emap -> emap).

Definition pair_key (l : list nat) : nat * nat := let a := nth 0 l 0%nat in let b := nth 1 l 0%nat in if (a <=? b)%nat then (a, b) else (b, a).
Lemma pair_key_eq a b p q : (a <= b)%nat -> (pair_key [p; q] = (a, b) <-> same_pair a b p q).
Proof.
  intros L. unfold pair_key, same_pair. cbn. destruct (Nat.leb_spec p q); split.
  - intros H0. injection H0 as -> ->. auto.
  - intros [(-> & ->)|(-> & ->)]; auto. f_equal; lia.
  - intros H0. injection H0 as -> ->. auto.
  - intros [(-> & ->)|(-> & ->)]; auto. f_equal; lia.
Qed.
Lemma pair_key_sorted p q : (fst (pair_key [p; q]) <= snd (pair_key [p; q]))%nat.
Proof. unfold pair_key. cbn. destruct (Nat.leb_spec p q); cbn; lia. Qed.
Lemma pair_dec : forall x y : nat * nat, {x = y} + {x <> y}.
Proof. decide equality; apply Nat.eq_dec. Qed.

Lemma circulation_2d g ft : (forall l, Permutation (shuffle l) l) -> odd g -> directed m -> ndim m = 2%nat -> features_new leb shuffle m false = Ok ft ->
  sum_over (fun ke => g (corners (e_kind (snd ke)) (e_points (snd ke)))) (ft_edges ft) = sum_over (round_edges g) (of_dim 2 m).
Proof.
  intros Sh Go O D F. destruct (edges_2d leb shuffle Sh m false ft C D F) as (ND & _ & Wt & Dt).
  symmetry. transitivity (sum_over (fun x : place => g (snd x)) (flat_map edge_places (of_dim 2 m))).
  { rewrite sum_over_flat. apply sum_over_ext. intros c _. unfold edge_places. rewrite sum_over_map. reflexivity. }
  apply (cancel pair_dec (fun x : place => pair_key (snd x)) fst _ _ _ _ _ (le_n _)); auto.
  - apply (nodup_places m _ (fun c e => map (fun i => nth (edge_node_id (c_kind c) e i) (c_points c) 0%nat) (seq 0 2)) (fun c => kind_nedge (c_kind c))); auto.
  - intros [[c e] l] [[c' e'] l'] H H' N E. apply in_edge_places in H as (p & q & -> & H). apply in_edge_places in H' as (p' & q' & -> & H'). cbn [snd] in *.
    pose proof (pair_key_sorted p' q') as S'. destruct (pair_key [p'; q']) as [a b] eqn:E'. cbn [fst snd] in S'.
    apply pair_key_eq in E; auto. apply pair_key_eq in E'; auto.
    assert (X : (p = p' /\ q = q') \/ (p = q' /\ q = p')) by (unfold same_pair in *; destruct E as [(-> & ->)|(-> & ->)], E' as [(-> & ->)|(-> & ->)]; auto).
    destruct X as [(-> & ->)|(-> & ->)].
    + exfalso. apply N. pose proof (O _ _ _ _ _ _ H H') as Q. injection Q as -> ->. reflexivity.
    + change [q'; p'] with (rev [p'; q']). rewrite Go. lra.
  - intros [[a b] ed] Hb. assert (G : get_edge ft a b = Ok ed) by (apply get_edge_iff, in_mget; auto using ekey_eqb_eq).
    destruct (proj1 (Wt a b) (ex_intro _ ed G)) as (Lab & (c1 & e1) & P & U). destruct (Dt a b ed G) as (_ & ([c e] & (P' & _) & EN)).
    pose proof (U _ P') as X. injection X as -> ->. destruct P' as (p & q & Q & SP). cbn [fst snd] in *.
    exists (c, e, [p; q]). split; [apply in_edge_places; exists p, q; auto|]. cbn [snd fst]. split; [apply pair_key_eq; auto|]. split.
    + f_equal. destruct Q as (cl & Hc & I & D2 & He & A & B). destruct EN as (cl' & Hc' & I' & _ & _ & K & M).
      assert (cl' = cl) as -> by (pose proof (cell_by_id m cl C Hc); pose proof (cell_by_id m cl' C Hc'); congruence).
      assert (L2 : exists r, kind_edge_nnode (c_kind cl) = S (S r)) by (destruct (c_kind cl); try discriminate D2; eexists; vm_compute; reflexivity).
      destruct L2 as (r & L2). rewrite L2 in M. cbn [seq map] in M. rewrite A, B in M.
      destruct (e_points ed) as [|x [|y t]]; try discriminate M. cbn [map] in M. injection M as -> -> _. unfold corners.
      replace (kind_class (e_kind ed)) with CLin by (destruct (c_kind cl); try discriminate D2; cbn [kind_edge_kind kind_face_kind] in K; injection K as <-; reflexivity). reflexivity.
    + intros [[c' e'] l'] H' E'. apply in_edge_places in H' as (p' & q' & -> & H'). cbn [snd] in E'. apply pair_key_eq in E'; auto.
      assert (Q' : has_edge m a b (c', e')) by (exists p', q'; auto). pose proof (U _ Q') as X. injection X as <- <-.
      destruct Q as (cl & Hc & I & D2 & He & A & B). destruct H' as (cl' & Hc' & I' & _ & _ & A' & B').
      assert (cl' = cl) as -> by (pose proof (cell_by_id m cl C Hc); pose proof (cell_by_id m cl' C Hc'); congruence). congruence.
  - intros [[c e] l] H U. apply in_edge_places in H as (p & q & -> & H). cbn [snd] in *.
    pose proof (pair_key_sorted p q) as S'. destruct (pair_key [p; q]) as [a b] eqn:E'. cbn [fst snd] in S'. pose proof E' as E2. apply pair_key_eq in E2; auto.
    destruct (proj2 (Wt a b)) as (ed & G).
    + split; auto. exists (c, e). split; [exists p, q; auto|]. intros [c' e'] (p' & q' & H' & SP). cbn [fst snd] in *.
      assert (X : (c', e', [p'; q']) = (c, e, [p; q])); [|injection X as -> -> _ _; auto]. apply U; [apply in_edge_places; eauto|]. now apply pair_key_eq.
    + exists (a, b, ed). split; auto. apply get_edge_iff in G. apply (mget_in _ ekey_eqb_eq) in G. exact G.
Qed.

Lemma list_dec : forall x y : list nat, {x = y} + {x <> y}.
Proof. decide equality; apply Nat.eq_dec. Qed.

Lemma circulation_3d g ft : no_quadratic_tets m -> odd g -> cyclic g -> directed_faces m -> ndim m = 3%nat -> features_new leb shuffle m false = Ok ft ->
  sum_over (fun kf => g (corners (f_kind (snd kf)) (f_points (snd kf)))) (ft_faces ft) = sum_over (round_faces g) (of_dim 3 m).
Proof.
  intros NQ Go Gr O D F. destruct (faces_3d leb shuffle m false ft C D F) as (ND & Wt & Srt & Dt & _).
  symmetry. transitivity (sum_over (fun x : place => g (snd x)) (flat_map face_places (of_dim 3 m))).
  { rewrite sum_over_flat. apply sum_over_ext. intros c _. unfold face_places. rewrite sum_over_map. reflexivity. }
  apply (cancel list_dec (fun x : place => sort4 (snd x)) fst _ _ _ _ _ (le_n _)); auto.
  - apply (nodup_places m _ (fun c f => map (fun i => nth (face_node_id (c_kind c) f i) (c_points c) 0%nat) (seq 0 (face_ncorner (c_kind c)))) (fun c => kind_nface (c_kind c))); auto.
  - intros [[c f] l] [[c' f'] l'] H H' N E. apply in_face_places in H. apply in_face_places in H'. cbn [snd] in *. apply sort4_perm in E.
    assert (N' : (c, f) <> (c', f')).
    { intros X. injection X as <- <-. apply N. f_equal. destruct H as (cl & Hc & I & _ & _ & A), H' as (cl' & Hc' & I' & _ & _ & A').
      assert (cl' = cl) as -> by (pose proof (cell_by_id m cl C Hc); pose proof (cell_by_id m cl' C Hc'); congruence). apply map_some_inj. congruence. }
    destruct (O _ _ _ _ _ _ H H' E N') as (l1 & l2 & X & ->). rewrite (Gr l1 l2), <- X, Go. lra.
  - intros [k fc] Hb. assert (G0 : get_face ft k = Ok fc) by (apply get_face_iff, in_mget; auto using fkey_eqb_eq).
    pose proof (sort4_sorted k (Srt k fc G0)) as Sk. assert (G : get_face ft (sort4 k) = Ok fc) by now rewrite Sk.
    destruct (proj1 (Wt k) (ex_intro _ fc G)) as ((c1 & f1) & P & U). destruct (Dt k fc G) as (_ & ([c f] & (P' & _) & EN)).
    pose proof (U _ P') as X. injection X as -> ->. apply has_face_4 in P'; auto. destruct P' as (qs & Q & SP). cbn [fst snd] in *.
    exists (c, f, qs). split; [now apply in_face_places|]. cbn [snd fst]. split; [rewrite <- Sk; apply sort4_perm; now apply Permutation_sym|]. split.
    + f_equal. destruct Q as (cl & Hc & I & D2 & He & A). destruct EN as (cl' & Hc' & I' & _ & _ & K & M).
      assert (cl' = cl) as -> by (pose proof (cell_by_id m cl C Hc); pose proof (cell_by_id m cl' C Hc'); congruence).
      apply map_some_inj. rewrite <- A. unfold corners. rewrite <- firstn_map, <- M, firstn_map.
      assert (E : firstn (match kind_class (f_kind fc) with CLin => 2 | CTri => 3 | _ => 4 end)%nat (seq 0 (kind_face_nnode (c_kind cl))) = seq 0 (face_ncorner (c_kind cl)))
        by (destruct (c_kind cl); try discriminate D2; cbn [kind_edge_kind kind_face_kind] in K; injection K as <-; reflexivity).
      now rewrite E.
    + intros [[c' f'] l'] H' E'. apply in_face_places in H'. cbn [snd] in E'. rewrite <- Sk in E'. apply sort4_perm in E'.
      assert (Q' : has_face4 m k (c', f')) by (apply has_face_4; auto; exists l'; split; [exact H'|now apply Permutation_sym]). pose proof (U _ Q') as X. injection X as <- <-.
      f_equal. destruct Q as (cl & Hc & I & D2 & He & A). destruct H' as (cl' & Hc' & I' & _ & _ & A').
      assert (cl' = cl) as -> by (pose proof (cell_by_id m cl C Hc); pose proof (cell_by_id m cl' C Hc'); congruence). apply map_some_inj. congruence.
  - intros [[c f] l] H U. apply in_face_places in H. cbn [snd] in *.
    destruct (proj2 (Wt l)) as (fc & G).
    + exists (c, f). split; [apply has_face_4; auto; exists l; auto|]. intros [c' f'] P. apply has_face_4 in P; auto. destruct P as (qs & H' & SP). cbn [fst snd] in *.
      assert (X : (c', f', qs) = (c, f, l)); [|injection X as -> -> _; auto]. apply U; [now apply in_face_places|]. apply sort4_perm. now apply Permutation_sym.
    + exists (sort4 l, fc). split; auto. apply get_face_iff in G. apply (mget_in _ fkey_eqb_eq) in G. exact G.
Qed.
End Mesh.
