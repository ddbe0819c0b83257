(* Joining two meshes without any displacement of points. *)
From Coq Require Import String Reals List Lia Lra Bool Arith ZArith Permutation.
From Verif Require Import Base BaseFacts Kind MeshModel MeshQuerySpec TopoModel TopoSpec GeomModel GeomSpec GeomProof GridModel GridSpec GridProof SearchModel SearchProof
  JoinModel JoinSpec JoinProof JoinProof2 BlockSpec PropJoin StructSpec.
Import ListNotations.
Local Open Scope list_scope.
Local Open Scope R_scope.

Lemma Forall2_nth {A B} (P : A -> B -> Prop) l r : Forall2 P l r <->
  List.length l = List.length r /\ forall i x y, nth_error l i = Some x -> nth_error r i = Some y -> P x y.
Proof.
  split.
  - intros F. split; [induction F; cbn; auto|]. induction F; intros [|i] a b Ha Hb; cbn in *; try discriminate; [congruence|eauto].
  - revert r. induction l as [|a l IH]; intros [|b r] [L H]; cbn in L; try discriminate; constructor.
    + apply (H 0%nat a b); reflexivity.
    + apply IH. split; [lia|]. intros i x y Hx Hy. apply (H (S i) x y); assumption.
Qed.
Lemma Forall2_map_l {A B C} (P : C -> B -> Prop) (f : A -> C) l r : Forall2 P (map f l) r <-> Forall2 (fun x y => P (f x) y) l r.
Proof.
  split; [|induction 1; cbn; constructor; auto]. revert r. induction l as [|a l IH]; intros r F; cbn in F; inversion F; subst; constructor; auto.
Qed.
Lemma Forall2_weaken {A B} (P Q : A -> B -> Prop) l r : (forall x y, In x l -> P x y -> Q x y) -> Forall2 P l r -> Forall2 Q l r.
Proof. intros H F. induction F; constructor; [apply H; [left; reflexivity|assumption]|]. apply IHF. intros a b I. apply H. right. exact I. Qed.

Lemma coords_inj {T} (m : mesh T) p x y : coords_of m p x -> coords_of m p y -> x = y.
Proof. intros (u & A & B) (v & C & D). rewrite A in C. injection C as <-. congruence. Qed.
Lemma coords_range {T} (m : mesh T) p x : coords_of m p x -> (p < List.length (points m))%nat.
Proof. intros (u & A & _). apply nth_error_Some. rewrite A. discriminate. Qed.
Lemma coords_get {T} (m : mesh T) p : (p < List.length (points m))%nat -> exists x, coords_of m p x.
Proof. intros H. apply nth_error_Some in H. destruct (nth_error (points m) p) as [pt|] eqn:E; [|congruence]. exists (pt_coords pt), pt. auto. Qed.

Definition unmarked (m : mesh R) : Prop := marked_edges m = [] /\ marked_faces m = [].

Section Join.
Variable shp : list nat -> list nat.
Variable shuffle : emap -> emap.
Variable sh : container -> container.
Hypothesis O : any_order shp shuffle sh.


Lemma close_self e x : 0 <= e -> close e x x.
Proof. intros H. split; [reflexivity|]. intros i _. rewrite Rminus_diag_eq by reflexivity. rewrite Rabs_R0. exact H. Qed.

Lemma empty_unmarked a b m : valid a -> consistent b -> coords_complete b -> unmarked a -> unmarked b -> join_two_meshes shp shuffle sh a b = Ok m -> unmarked m.
Proof.
  intros V C CC (A1 & A2) (B1 & B2) H. split.
  - destruct (C59_marked_edges shp shuffle sh a b m O V C CC H) as (f & _ & _ & _ & I). destruct (marked_edges m) as [|[[mk x] y] l]; [reflexivity|].
    exfalso. destruct (proj1 (I mk x y) (or_introl eq_refl)) as (_ & q & (_ & [(u & v & E & _)|(_ & u & v & E & _)]) & _).
    + rewrite A1 in E. destruct u; discriminate.
    + rewrite B1 in E. destruct u; discriminate.
  - destruct (C59_marked_faces shp shuffle sh a b m O V C CC H) as (f & _ & _ & _ & I). destruct (marked_faces m) as [|q' l]; [reflexivity|].
    exfalso. destruct (proj1 (I q') (or_introl eq_refl)) as (_ & q & (_ & [(u & v & E & _)|(_ & u & v & E & _)]) & _).
    + rewrite A2 in E. destruct u; discriminate.
    + rewrite B2 in E. destruct u; discriminate.
Qed.

(* a covers all of its own points with its boundary points *)
Definition framed (a : mesh R) : Prop := forall ft, features_new Rleb shuffle a false = Ok ft ->
  (forall j, (j < ndim a)%nat -> exists p q x y, In p (ft_points ft) /\ In q (ft_points ft) /\ coord_is a p j x /\ coord_is a q j y /\ x <> y) /\
  (forall pt, In pt (points a) -> enclosed a ft (pt_coords pt)).

Lemma join_exact a b ga gb : valid a -> valid b -> ndim a = ndim b -> unmarked a -> unmarked b -> framed a ->
  (forall i j x y, coords_of a i x -> coords_of b j y -> x = y \/ tolR (ndim a) < euclid x y) ->
  distinct_points a -> distinct_points b -> all_used a -> all_used b -> shows a ga -> shows b gb ->
  exists m, join_two_meshes shp shuffle sh a b = Ok m /\ valid m /\ ndim m = ndim a /\ unmarked m /\ distinct_points m /\ all_used m /\ shows m (ga ++ gb) /\
    (forall x, (exists i, coords_of m i x) <-> (exists i, coords_of a i x) \/ (exists i, coords_of b i x)).
Proof.
  intros Va Vb En Ua Ub Fr Gap Da Db Na Nb Sa Sb. pose proof O as (O1 & O2 & O3). pose proof Va as (Ca & CCa & Dm). pose proof Vb as (Cb & CCb & _).
  destruct (TopoFinal.new_total Rleb shuffle O2 a false Ca CCa Dm) as (ft & F). destruct (Fr ft F) as (W & E).
  assert (MO : markers_ok b). { destruct Ub as (U1 & U2). split; [rewrite U1|rewrite U2]; intros; contradiction. }
  destruct (C28_total shp shuffle sh a b ft O Va Cb CCb En F W E MO) as (m & H). exists m. split; [exact H|].
  destruct (C28_join shp shuffle sh a b m O Va Cb CCb H) as (Vm & Nm & _ & K & KC & LC & f & Pl & CC & Mg & New & _). specialize (Mg ft F).
  split; [exact Vm|]. split; [exact Nm|]. split; [exact (empty_unmarked a b m Va Cb CCb Ua Ub H)|].
  assert (KA : forall i x, coords_of a i x -> coords_of m i x). { intros i x (pt & A & B). exists pt. split; [apply K; exact A|exact B]. }
  assert (KB : forall p x, coords_of b p x -> coords_of m (f p) x).
  { intros p x (pt & A & <-). destruct (Mg p pt A) as [(q & Q & Dq)|(_ & Q & _)].
    - exists q. split; [apply K; exact Q|]. destruct (Gap (f p) p (pt_coords q) (pt_coords pt)) as [G|G]; [exists q; auto|exists pt; auto|exact G|lra].
    - eexists. split; [exact Q|]. reflexivity. }
  assert (Range : forall i x, coords_of m i x -> coords_of a i x \/ (List.length (points a) <= i)%nat /\ exists p, f p = i /\ coords_of b p x).
  { intros i x X. destruct (le_lt_dec (List.length (points a)) i) as [L|L].
    - right. split; [exact L|]. destruct (New i) as (p & Lp & Fp). { split; [exact L|]. eapply coords_range. exact X. }
      exists p. split; [exact Fp|]. destruct (coords_get b p Lp) as (y & Y). pose proof (KB p y Y) as Z. rewrite Fp in Z. rewrite (coords_inj _ _ _ _ X Z). exact Y.
    - left. destruct (coords_get a i L) as (y & Y). rewrite (coords_inj _ _ _ _ X (KA _ _ Y)). exact Y. }
  assert (Fresh : forall i p x, (List.length (points a) <= f p)%nat -> coords_of b p x -> ~ coords_of a i x).
  { intros i p x L (pt & A & <-) (q & Q & Eq). destruct (Mg p pt A) as [(q' & Q' & _)|(_ & _ & X & _)].
    - assert (nth_error (points a) (f p) <> None) by (rewrite Q'; discriminate). apply nth_error_Some in H0. lia.
    - apply (X i q Q). + apply E. eapply nth_error_In. exact Q. + rewrite Eq. apply close_self. lra. }
  split; [|split; [|split]].
  - intros i j x Xi Xj. destruct (Range i x Xi) as [Ai|(Li & p & Fp & Bp)]; destruct (Range j x Xj) as [Aj|(Lj & p' & Fp' & Bp')].
    + exact (Da i j x Ai Aj).
    + exfalso. subst j. exact (Fresh i p' x Lj Bp' Ai).
    + exfalso. subst i. exact (Fresh j p x Li Bp Aj).
    + rewrite <- Fp, <- Fp'. f_equal. exact (Db p p' x Bp Bp').
  - intros i Li. destruct (le_lt_dec (List.length (points a)) i) as [L|L].
    + destruct (New i (conj L Li)) as (p & Lp & Fp). destruct (Nb p Lp) as (c & Ic & Ip). apply In_nth_error in Ic as (k & Ek).
      destruct (CC k c Ek) as (c' & E' & _ & _ & P). exists c'. split; [eapply nth_error_In; exact E'|]. rewrite P, <- Fp. apply in_map. exact Ip.
    + destruct (Na i L) as (c & Ic & Ip). apply In_nth_error in Ic as (k & Ek). exists c. split; [|exact Ip]. eapply nth_error_In. apply KC. exact Ek.
  - unfold shows in *. apply Forall2_nth in Sa as (La & Sa). apply Forall2_nth in Sb as (Lb & Sb). apply Forall2_nth. split; [rewrite app_length; lia|].
    intros i c g Hc Hg. destruct (le_lt_dec (List.length (cells a)) i) as [L|L].
    + rewrite nth_error_app2 in Hg by lia. replace (i - List.length ga)%nat with (i - List.length (cells a))%nat in Hg by lia.
      destruct (nth_error (cells b) (i - List.length (cells a))) as [cb|] eqn:Eb.
      2: { apply nth_error_None in Eb. assert (nth_error gb (i - List.length (cells a)) <> None) by (rewrite Hg; discriminate). apply nth_error_Some in H0. lia. }
      destruct (CC _ cb Eb) as (c' & E' & K1 & K2 & K3). replace (List.length (cells a) + (i - List.length (cells a)))%nat with i in E' by lia. rewrite Hc in E'. injection E' as <-.
      destruct (Sb _ _ _ Eb Hg) as (S1 & S2 & S3). split; [congruence|]. split; [congruence|]. rewrite K3. apply Forall2_map_l. eapply Forall2_weaken; [|exact S3]. intros p x _. apply KB.
    + rewrite nth_error_app1 in Hg by lia. destruct (nth_error (cells a) i) as [ca|] eqn:Ea; [|apply nth_error_None in Ea; lia].
      rewrite (KC _ _ Ea) in Hc. injection Hc as <-. destruct (Sa _ _ _ Ea Hg) as (S1 & S2 & S3). split; [exact S1|]. split; [exact S2|]. eapply Forall2_weaken; [|exact S3]. intros p x _. apply KA.
  - intros x. split.
    + intros (i & X). destruct (Range i x X) as [A|(_ & p & _ & B)]; [left|right]; eauto.
    + intros [(i & X)|(i & X)]; eauto.
Qed.
End Join.
