(* A point that is a corner of one cell only is on the boundary. *)
From Coq Require Import String Reals List Lia Lra Bool Arith ZArith Permutation Sorted.
From Verif Require Import Base BaseFacts Kind GraphModel MeshModel MeshQuerySpec TopoModel TopoSpec TopoMaps TopoProof TopoFeat3 TopoFinal GeomModel GeomSpec GeomProof GridModel GridSpec GridProof SearchModel SearchSpec SearchProof SearchProof2
  JoinModel JoinSpec JoinProof JoinProof2 JoinProof3 PropJoin ShapesModel ShapesSpec PadModel PadSpec PadProof PadProof2 PadProof3 BlockModel BlockSpec BlockProof BlockProof2 BlockProof3 BlockProof10 PropBlock StructModel StructSpec StructProof StructProof4 RingSpec RingProof2 BlocksSpec BlocksProof BlocksProof2 BlocksProof3 BlocksProof4 BlocksProof5 BlocksProof6 BlocksProof7 BlocksProof8.
Import ListNotations.
Local Open Scope list_scope.
Local Open Scope R_scope.


Definition edges_as (k k0 : geokind) : bool :=
  (kind_ndim k =? 2)%nat && (kind_nedge k =? 4)%nat && (2 <=? kind_edge_nnode k)%nat && (4 <=? kind_nnode k)%nat &&
  forallb (fun e => (edge_node_id k e 0 =? edge_node_id k0 e 0)%nat && (edge_node_id k e 1 =? edge_node_id k0 e 1)%nat) (seq 0 4).
Definition faces_as (k k0 : geokind) : bool :=
  (kind_ndim k =? 3)%nat && (kind_nface k =? 6)%nat && (4 <=? kind_face_nnode k)%nat && (8 <=? kind_nnode k)%nat && (face_ncorner k =? 4)%nat &&
  forallb (fun f => forallb (fun i => (face_node_id k f i =? face_node_id k0 f i)%nat) (seq 0 4)) (seq 0 6).
Lemma targets_2 : forallb (fun k => edges_as k Qua4) (targets 2) = true. Proof. vm_compute. reflexivity. Qed.
Lemma targets_3 : forallb (fun k => faces_as k Hex8) (targets 3) = true. Proof. vm_compute. reflexivity. Qed.
Lemma target_edges k : In k (targets 2) -> kind_ndim k = 2%nat /\ kind_nedge k = 4%nat /\ (2 <= kind_edge_nnode k)%nat /\ (4 <= kind_nnode k)%nat /\
  forall e, (e < 4)%nat -> edge_node_id k e 0 = edge_node_id Qua4 e 0 /\ edge_node_id k e 1 = edge_node_id Qua4 e 1.
Proof.
  intros I. pose proof targets_2 as T. rewrite forallb_forall in T. specialize (T k I). unfold edges_as in T. rewrite !andb_true_iff in T. destruct T as ((((A & B) & C) & D) & E).
  apply Nat.eqb_eq in A, B. apply Nat.leb_le in C, D. repeat (split; [assumption|]). rewrite forallb_forall in E. intros e He. specialize (E e ltac:(apply in_seq; lia)). apply andb_true_iff in E as (E1 & E2). apply Nat.eqb_eq in E1, E2. auto.
Qed.
Lemma target_faces k : In k (targets 3) -> kind_ndim k = 3%nat /\ kind_nface k = 6%nat /\ (4 <= kind_face_nnode k)%nat /\ (8 <= kind_nnode k)%nat /\ face_ncorner k = 4%nat /\
  forall f i, (f < 6)%nat -> (i < 4)%nat -> face_node_id k f i = face_node_id Hex8 f i.
Proof.
  intros I. pose proof targets_3 as T. rewrite forallb_forall in T. specialize (T k I). unfold faces_as in T. rewrite !andb_true_iff in T. destruct T as (((((A & B) & C) & D) & F) & E).
  apply Nat.eqb_eq in A, B, F. apply Nat.leb_le in C, D. repeat (split; [assumption|]). rewrite forallb_forall in E. intros f i Hf Hi. specialize (E f ltac:(apply in_seq; lia)). rewrite forallb_forall in E. specialize (E i ltac:(apply in_seq; lia)). apply Nat.eqb_eq in E. exact E.
Qed.

Section Lone.
Variable shuffle : emap -> emap.
Hypothesis shP : forall l, Permutation (shuffle l) l.
Variable a : mesh R.
Hypothesis Va : valid a.
Hypothesis Kd : forall c, In c (cells a) -> In (c_kind c) (targets (ndim a)).

(* p is a corner of one cell only *)
Definition lone (p : nat) : Prop := exists c k, In c (cells a) /\ (k < corners (ndim a))%nat /\ nth_error (c_points c) k = Some p /\
  (forall i j q, (i < corners (ndim a))%nat -> (j < corners (ndim a))%nat -> nth_error (c_points c) i = Some q -> nth_error (c_points c) j = Some q -> i = j) /\
  forall c' k', In c' (cells a) -> (k' < corners (ndim a))%nat -> nth_error (c_points c') k' = Some p -> c' = c /\ k' = k.

Lemma cell_by_id c c' : In c (cells a) -> In c' (cells a) -> c_id c = c_id c' -> c = c'.
Proof.
  intros I I' E. destruct Va as ((_ & C) & _ & _). apply In_nth_error in I as (i & Hi). apply In_nth_error in I' as (j & Hj). destruct (C i c Hi) as (A & _). destruct (C j c' Hj) as (B & _). congruence.
Qed.
Lemma lone_2 ft p : ndim a = 2%nat -> features_new Rleb shuffle a false = Ok ft -> lone p -> In p (ft_points ft).
Proof.
  intros Da F (c & k & Ic & Hk & Ep & Inj & Un). pose proof Va as (Ca & _ & _). rewrite Da in *. change (corners 2) with 4%nat in *.
  pose proof Kd as Kd'.
  destruct (target_edges _ (Kd' c Ic)) as (Kn & Ke & Kl & Kp & Kid). assert (Lc : List.length (c_points c) = kind_nnode (c_kind c)).
  { apply In_nth_error in Ic as (i & Hi). apply (proj2 Ca i c Hi). }
  assert (E1 : exists e q, (e < 4)%nat /\ edge_node_id Qua4 e 1 = k /\ (edge_node_id Qua4 e 0 < 4)%nat /\ nth_error (c_points c) (edge_node_id Qua4 e 0) = Some q).
  { exists k. assert (Y : (edge_node_id Qua4 k 0 < 4)%nat) by (do 4 (destruct k as [|k]; [vm_compute; lia|]); lia). destruct (nth_error (c_points c) (edge_node_id Qua4 k 0)) as [q|] eqn:E; [|apply nth_error_None in E; lia].
    exists q. split; [exact Hk|]. split; [|split; [exact Y|reflexivity]]. do 4 (destruct k as [|k]; [reflexivity|]). lia. }
  destruct E1 as (e & q & He & Ek & Hq & Eq). assert (Ed : edge_of a (c_id c) e q p).
  { exists c. split; [exact Ic|]. split; [reflexivity|]. split; [exact Kn|]. rewrite Ke. split; [exact He|]. destruct (Kid e He) as (-> & ->). rewrite Ek. split; [exact Eq|exact Ep]. }
  assert (Wt : forall x y, same_pair x y q p -> wanted false (has_edge a x y)).
  { intros x y Sxy. exists (c_id c, e). split; [exists q, p; split; [exact Ed|exact Sxy]|]. intros [c' e'] (q' & p' & (cl & Icl & Ei & _ & Le & X1 & X2) & SP). cbn [fst snd] in *.
    destruct (target_edges _ (Kd' cl Icl)) as (_ & Ke' & _ & _ & Kid'). rewrite Ke' in Le. destruct (Kid' e' Le) as (Y1 & Y2). rewrite Y1 in X1. rewrite Y2 in X2.
    assert (B1 : (edge_node_id Qua4 e' 0 < 4 /\ edge_node_id Qua4 e' 1 < 4)%nat) by (clear - Le; do 4 (destruct e' as [|e']; [vm_compute; lia|]); lia).
    assert (SQ : q = q' /\ p = p' \/ q = p' /\ p = q') by (unfold same_pair in *; clear - Sxy SP; lia).
    assert (Z : cl = c /\ (edge_node_id Qua4 e 0 = edge_node_id Qua4 e' 0 /\ edge_node_id Qua4 e 1 = edge_node_id Qua4 e' 1 \/ edge_node_id Qua4 e 0 = edge_node_id Qua4 e' 1 /\ edge_node_id Qua4 e 1 = edge_node_id Qua4 e' 0)).
    { destruct SQ as [[<- <-]|[<- <-]].
      - destruct (Un cl _ Icl (proj2 B1) X2) as (-> & Z). split; [reflexivity|]. left. split; [eapply (Inj _ _ q); [exact Hq|apply B1|exact Eq|exact X1]|congruence].
      - destruct (Un cl _ Icl (proj1 B1) X1) as (-> & Z). split; [reflexivity|]. right. split; [eapply (Inj _ _ q); [exact Hq|apply B1|exact Eq|exact X2]|congruence]. }
    destruct Z as (-> & Z). f_equal; [congruence|]. clear - Z He Le. do 4 (destruct e as [|e]; [do 4 (destruct e' as [|e']; [first [reflexivity|exfalso; vm_compute in Z; lia]|]); lia|]). lia. }
  destruct (points_and_limits Rleb shuffle shP a false ft Rleb_total Ca (or_introl Da) F) as (_ & UP & _). apply UP. left.
  assert (exists x y, (x <= y)%nat /\ same_pair x y q p) as (x & y & Lxy & Sxy) by (destruct (le_lt_dec q p); [exists q, p|exists p, q]; unfold same_pair; lia).
  destruct (proj2 (listed_edges_2d Rleb shuffle shP a false ft Ca Da F x y) (conj Lxy (Wt x y Sxy))) as (ed & G). exists x, y, ed. split; [exact G|].
  destruct (edges_2d Rleb shuffle shP a false ft Ca Da F) as (_ & _ & _ & X). destruct (X x y ed G) as (_ & ce & (Hce & _) & EN).
  destruct (Wt x y Sxy) as (u & Hu & Uu). pose proof (Uu _ Hce) as E0. assert (H0e : has_edge a x y (c_id c, e)) by (exists q, p; split; [exact Ed|exact Sxy]). pose proof (Uu _ H0e) as E0'. assert (Ece : ce = (c_id c, e)) by congruence. rewrite Ece in EN. cbn [fst snd] in EN.
  destruct EN as (cl & Icl & Eid & _ & _ & _ & M). rewrite (cell_by_id cl c Icl Ic Eid) in M.
  assert (I : In (Some p) (map Some (e_points ed))). { rewrite <- M. apply in_map_iff. exists 1%nat. split; [|apply in_seq; lia]. rewrite (proj2 (Kid e He)), Ek. exact Ep. }
  apply in_map_iff in I as (z & Z & I). injection Z as ->. exact I.
Qed.
Lemma lone_3 ft p : ndim a = 3%nat -> features_new Rleb shuffle a false = Ok ft -> lone p -> In p (ft_points ft).
Proof.
  intros Da F (c & k & Ic & Hk & Ep & Inj & Un). pose proof Va as (Ca & _ & _). rewrite Da in *. change (corners 3) with 8%nat in *.
  pose proof Kd as Kd'.
  assert (Q : no_quadratic_tets a). { intros cl Icl. specialize (Kd' cl Icl). split; intros E; rewrite E in Kd'; cbn in Kd'; intuition discriminate. }
  assert (Len : forall cl, In cl (cells a) -> List.length (c_points cl) = kind_nnode (c_kind cl)) by (intros cl Icl; apply In_nth_error in Icl as (i & Hi); apply (proj2 Ca i cl Hi)).
  destruct (target_faces _ (Kd' c Ic)) as (Kn & Kf & Kl & Kp & Kc & Kid). pose proof (Len c Ic) as Lc.
  assert (exists f i, (f < 6)%nat /\ (i < 4)%nat /\ face_node_id Hex8 f i = k) as (f & i & Hf & Hi & Ek).
  { exists (if (k <? 4)%nat then 4 else 5)%nat. do 8 (destruct k as [|k]; [first [exists 0%nat; split; [cbn; lia|]; split; [lia|]; reflexivity|exists 1%nat; split; [cbn; lia|]; split; [lia|]; reflexivity|exists 2%nat; split; [cbn; lia|]; split; [lia|]; reflexivity|exists 3%nat; split; [cbn; lia|]; split; [lia|]; reflexivity]|]). lia. }
  assert (Fn : forall f i, (f < 6)%nat -> (i < 4)%nat -> (face_node_id Hex8 f i < 8)%nat).
  { clear. intros f i Hf Hi. do 6 (destruct f as [|f]; [do 4 (destruct i as [|i]; [vm_compute; lia|]); lia|]). lia. }
  set (at_face := fun (cl : MeshModel.cell) f => map (fun i => nth (face_node_id Hex8 f i) (c_points cl) 0%nat) (seq 0 4)).
  assert (Face : forall cl f qs, In cl (cells a) -> (f < 6)%nat -> face_of a (c_id cl) f qs -> qs = at_face cl f).
  { intros cl g qs Icl Hg (c0 & I0 & Ei & _ & _ & X). rewrite (cell_by_id c0 cl I0 Icl Ei) in X. destruct (target_faces _ (Kd' cl Icl)) as (_ & _ & _ & Kp' & Kc' & Kid'). rewrite Kc' in X.
    apply (f_equal (map (fun o => match o with Some x => x | None => 0%nat end))) in X. rewrite !map_map in X. rewrite map_id in X. rewrite <- X. apply map_ext_in. intros j Ij. apply in_seq in Ij. rewrite Kid' by lia.
    rewrite nth_error_nth' with (d := 0%nat) by (rewrite (Len cl Icl); pose proof (Fn g j Hg ltac:(lia)); lia). reflexivity. }
  assert (Fo : face_of a (c_id c) f (at_face c f)).
  { exists c. split; [exact Ic|]. split; [reflexivity|]. split; [exact Kn|]. rewrite Kf. split; [exact Hf|]. rewrite Kc. unfold at_face. rewrite map_map. apply map_ext_in. intros j Ij. apply in_seq in Ij. rewrite Kid by lia. apply nth_error_nth'. pose proof (Fn f j Hf ltac:(lia)). lia. }
  set (ks := isort Nat.leb (at_face c f)). assert (Pk : Permutation ks (at_face c f)) by apply isort_perm.
  assert (H0 : has_face a ks (c_id c, f)) by (exists (at_face c f); split; [exact Fo|exact Pk]).
  assert (Ip : In p ks). { eapply Permutation_in; [apply Permutation_sym; exact Pk|]. apply in_map_iff. exists i. split; [rewrite Ek; apply nth_error_nth; exact Ep|apply in_seq; lia]. }
  assert (UnF : forall x, has_face a ks x -> (c_id c, f) = x).
  { intros [c' f'] (rs & Fr & P). cbn [fst snd] in *. pose proof Fr as (cl & Icl & Ei & _ & Le & X). destruct (target_faces _ (Kd' cl Icl)) as (_ & Kf' & _ & Kp' & _). rewrite Kf' in Le.
    rewrite <- Ei in Fr |- *. pose proof (Face cl f' rs Icl Le Fr) as Er.
    assert (Ecl : cl = c).
    { pose proof (Permutation_in p P Ip) as I. rewrite Er in I. apply in_map_iff in I as (j & Ej & Ij). apply in_seq in Ij. apply (Un cl (face_node_id Hex8 f' j) Icl); [apply Fn; lia|]. rewrite <- Ej. apply nth_error_nth'. rewrite (Len cl Icl). pose proof (Fn f' j Le ltac:(lia)). lia. }
    subst cl. f_equal.
    assert (Same : forall j, (j < 4)%nat -> exists j', (j' < 4)%nat /\ face_node_id Hex8 f j = face_node_id Hex8 f' j').
    { intros j Hj. assert (Iq : In (nth (face_node_id Hex8 f j) (c_points c) 0%nat) rs).
      { eapply Permutation_in; [exact P|]. eapply Permutation_in; [apply Permutation_sym; exact Pk|]. apply in_map_iff. exists j. split; [reflexivity|apply in_seq; lia]. }
      rewrite Er in Iq. apply in_map_iff in Iq as (j' & Ej & Ij). apply in_seq in Ij. exists j'. split; [lia|]. pose proof (Fn f j Hf Hj). pose proof (Fn f' j' Le ltac:(lia)).
      eapply (Inj _ _ (nth (face_node_id Hex8 f j) (c_points c) 0%nat)); [assumption|assumption|apply nth_error_nth'; lia|]. rewrite <- Ej. apply nth_error_nth'. lia. }
    pose proof (Same 0%nat ltac:(lia)) as (j0 & L0 & E0). pose proof (Same 1%nat ltac:(lia)) as (j1 & L1 & E1). pose proof (Same 2%nat ltac:(lia)) as (j2 & L2 & E2). clear - Hf Le L0 L1 L2 E0 E1 E2.
    do 6 (destruct f as [|f]; [do 6 (destruct f' as [|f']; [first [reflexivity|exfalso; clear - L0 L1 L2 E0 E1 E2;
      do 4 (try (destruct j0 as [|j0]; [try (vm_compute in E0; lia)|])); try lia; do 4 (try (destruct j1 as [|j1]; [try (vm_compute in E1; lia)|])); try lia; do 4 (try (destruct j2 as [|j2]; [try (vm_compute in E2; lia)|])); lia]|]); lia|]). lia. }
  assert (Wt : wanted false (has_face a ks)) by (exists (c_id c, f); split; [exact H0|exact UnF]).
  destruct (points_and_limits Rleb shuffle shP a false ft Rleb_total Ca (or_intror Da) F) as (_ & UP & _). apply UP. right. left.
  destruct (proj2 (listed_faces_3d Rleb shuffle a false ft Ca Da Q F ks) (conj (isort_sorted_le (at_face c f)) Wt)) as (fc & G). exists ks, fc. split; [exact G|].
  destruct (face_data_3d Rleb shuffle a false ft Ca Da Q F ks fc G) as (_ & cf & (Hcf & _) & EN). rewrite <- (UnF _ Hcf) in EN. cbn [fst snd] in EN.
  destruct EN as (cl & Icl & Eid & _ & _ & _ & M). rewrite (cell_by_id cl c Icl Ic Eid) in M.
  assert (I : In (Some p) (map Some (f_points fc))). { rewrite <- M. apply in_map_iff. exists i. split; [rewrite Kid by assumption; rewrite Ek; exact Ep|apply in_seq; lia]. }
  apply in_map_iff in I as (z & Z & I). injection Z as ->. exact I.
Qed.

(* extreme coordinates at such points *)
Lemma lone_framed : (forall j, (j < ndim a)%nat -> exists p q x y, lone p /\ lone q /\ coord_is a p j x /\ coord_is a q j y /\ x <> y /\
    forall i z, coord_is a i j z -> x <= z <= y) -> framed shuffle a.
Proof.
  intros H ft F. pose proof Va as (_ & CC & Dm). assert (L : forall p, lone p -> In p (ft_points ft)) by (intros p Lp; destruct Dm as [D|D]; [eapply lone_2; eassumption|eapply lone_3; eassumption]).
  split.
  - intros j Hj. destruct (H j Hj) as (p & q & x & y & Lp & Lq & Cx & Cy & Ne & _). exists p, q, x, y. auto.
  - intros pt Ip j Hj. destruct (H j Hj) as (p & q & x & y & Lp & Lq & Cx & Cy & Ne & B). apply In_nth_error in Ip as (i & Ei).
    assert (Ci : coord_is a i j (nth j (pt_coords pt) 0)).
    { exists pt. split; [exact Ei|]. apply nth_error_nth'. rewrite (CC pt (nth_error_In _ _ Ei)). exact Hj. }
    specialize (B i _ Ci). exists p, q, x, y. split; [exact (L p Lp)|]. split; [exact (L q Lq)|]. split; [exact Cx|]. split; [exact Cy|]. lra.
Qed.
End Lone.
