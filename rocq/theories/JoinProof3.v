(* Proofs: the marked edges and faces of several joined meshes *)
From Coq Require Import String List Arith Bool ZArith Reals Lra Lia Permutation Sorted.
From Verif Require Import Base BaseFacts Kind MeshModel MeshQuerySpec TopoModel TopoSpec TopoMaps TopoProof GeomModel GeomSpec GridModel GridSpec SearchModel SearchSpec SearchProof JoinModel JoinSpec JoinProof JoinProof2.
Import ListNotations.
Open Scope nat_scope.

Section Marks.
Context {A : Type}.
Variable same : A -> A -> Prop.
Variable mark : A -> Z.
Variable good : A -> Prop.
Hypothesis same_dec : forall x y, {same x y} + {~ same x y}.
Hypothesis same_refl : forall x, same x x.
Hypothesis same_sym : forall x y, same x y -> same y x.
Hypothesis same_trans : forall x y z, same x y -> same y z -> same x z.
Hypothesis good_eq : forall x y, good x -> good y -> same x y -> mark x = mark y -> x = y.

(* the list [M] holds one entry for each key of [l1] and [l2], with the right marker *)
Definition chosen (M l1 l2 : list A) : Prop := forall q, In q M <-> good q /\ exists q', last_first (same q) l1 l2 q' /\ mark q' = mark q.

Lemma find_first P (D : forall x : A, {P x} + {~ P x}) (l : list A) : (exists u q v, l = u ++ q :: v /\ P q /\ forall q', In q' u -> ~ P q') \/ forall q, In q l -> ~ P q.
Proof.
  induction l as [|x l IH]; [right; intros q []|]. destruct (D x) as [Px|Nx]; [left; exists [], x, l; split; [reflexivity|]; split; [exact Px|]; intros q []|].
  destruct IH as [(u & q & v & -> & Pq & Hu)|N]; [left; exists (x :: u), q, v; split; [reflexivity|]; split; [exact Pq|]; intros q' [<-|I]; auto|right; intros q [<-|I]; auto].
Qed.
Lemma find_last P (D : forall x : A, {P x} + {~ P x}) (l : list A) : (exists u q v, l = u ++ q :: v /\ P q /\ forall q', In q' v -> ~ P q') \/ forall q, In q l -> ~ P q.
Proof.
  destruct (find_first P D (rev l)) as [(u & q & v & E & Pq & Hu)|N].
  - left. exists (rev v), q, (rev u). split; [|split; [exact Pq|intros q' I; apply in_rev in I; auto]]. rewrite <- (rev_involutive l), E, rev_app_distr. cbn. rewrite <- app_assoc. reflexivity.
  - right. intros q I. apply N. apply in_rev in I. exact I.
Qed.
Lemma last_first_ex P (D : forall x : A, {P x} + {~ P x}) l1 l2 x : In x l1 \/ In x l2 -> P x -> exists q, last_first P l1 l2 q.
Proof.
  intros I Px. destruct (find_last P D l1) as [(u & q & v & E & Pq & Hv)|N1]; [exists q; split; [exact Pq|]; left; eauto|].
  destruct (find_first P D l2) as [(u & q & v & E & Pq & Hv)|N2]; [exists q; split; [exact Pq|]; right; split; [exact N1|]; eauto|]. exfalso. destruct I as [I|I]; [exact (N1 x I Px)|exact (N2 x I Px)].
Qed.
Lemma last_first_more (P : A -> Prop) l1 l2 l3 q : last_first P l1 l2 q -> last_first P l1 (l2 ++ l3) q.
Proof.
  intros (Pq & [H|(N & u & v & -> & Hu)]); split; auto. right. split; [exact N|]. exists u, (v ++ l3). rewrite <- app_assoc. auto.
Qed.
Lemma last_first_in (P : A -> Prop) l1 l2 q : last_first P l1 l2 q -> P q /\ (In q l1 \/ In q l2).
Proof. intros (Pq & [(u & v & -> & _)|(_ & u & v & -> & _)]); split; auto; [left|right]; apply in_elt. Qed.
Lemma in_last_ex {B} (P : B -> Prop) x y (u v u' v' : list B) : u ++ x :: v = u' ++ y :: v' -> P x -> P y -> (forall q, In q v -> ~ P q) -> (forall q, In q v' -> ~ P q) -> x = y.
Proof.
  revert u'. induction u as [|a u IH]; intros [|b u'] E Px Py Hv Hv'; cbn in E; injection E as E1 E2; subst.
  - reflexivity.
  - exfalso. apply (Hv y); [|exact Py]. apply in_elt.
  - exfalso. apply (Hv' x); [|exact Px]. apply in_elt.
  - eapply IH; eauto.
Qed.
Lemma in_first_ex {B} (P : B -> Prop) x y (u v u' v' : list B) : u ++ x :: v = u' ++ y :: v' -> P x -> P y -> (forall q, In q u -> ~ P q) -> (forall q, In q u' -> ~ P q) -> x = y.
Proof.
  revert u'. induction u as [|a u IH]; intros [|b u'] E Px Py Hv Hv'; cbn in E; injection E as E1 E2; subst.
  - reflexivity.
  - exfalso. apply (Hv' b); [left; reflexivity|exact Px].
  - exfalso. apply (Hv y); [left; reflexivity|exact Py].
  - eapply IH; eauto; intros q I; [apply Hv|apply Hv']; right; exact I.
Qed.
Lemma last_first_fun (P : A -> Prop) l1 l2 q q' : last_first P l1 l2 q -> last_first P l1 l2 q' -> q = q'.
Proof.
  intros (P1 & H1) (P2 & H2). destruct H1 as [(u & v & E1 & U1)|(N1 & u & v & E1 & U1)], H2 as [(u' & v' & E2 & U2)|(N2 & u' & v' & E2 & U2)].
  - subst l1. eapply in_last_ex; eauto.
  - exfalso. apply (N2 q); [subst l1; apply in_elt|exact P1].
  - exfalso. apply (N1 q'); [subst l1; apply in_elt|exact P2].
  - subst l2. eapply in_first_ex; eauto.
Qed.
Lemma last_first_ext (P Q : A -> Prop) l1 l2 q : (forall x, P x <-> Q x) -> last_first P l1 l2 q -> last_first Q l1 l2 q.
Proof.
  intros H (Pq & [(u & v & E & U)|(N & u & v & E & U)]); (split; [apply H; exact Pq|]); [left|right].
  - exists u, v. split; [exact E|]. intros q' I X. apply (U q' I), H, X.
  - split; [intros q' I X; apply (N q' I), H, X|]. exists u, v. split; [exact E|]. intros q' I X. apply (U q' I), H, X.
Qed.

Lemma chosen_step M l1 l2 l3 N : (forall q z, exists g, good g /\ same q g /\ mark g = z) ->
  chosen M l1 l2 -> chosen N M l3 -> chosen N l1 (l2 ++ l3).
Proof.
  intros Rep C1 C2 q. rewrite (C2 q). split; intros (G & q' & LF & E); (split; [exact G|]).
  - destruct LF as (S & [(u & v & EM & U)|(Nn & u & v & E3 & U)]).
    + assert (I : In q' M) by (rewrite EM; apply in_elt). apply C1 in I as (G' & r & LF & Er). exists r. split; [|congruence].
      apply last_first_more. eapply last_first_ext; [|exact LF]. intros x. split; intros X; eauto.
    + exists q'. split; [|exact E]. split; [exact S|]. right.
      assert (No : forall x, In x l1 \/ In x l2 -> ~ same q x).
      { intros x I X. destruct (last_first_ex (same q) (same_dec q) l1 l2 x I X) as (r & LF). destruct (Rep q (mark r)) as (g' & Gg & Sg & Mg).
        apply (Nn g'); [|exact Sg]. apply C1. split; [exact Gg|]. exists r. split; [|congruence]. eapply last_first_ext; [|exact LF]. intros y. split; intros Y; eauto. }
      split; [intros x I; apply No; auto|]. exists (l2 ++ u), v. split; [rewrite E3, <- app_assoc; reflexivity|]. intros x I. apply in_app_iff in I as [I|I]; [apply No; auto|apply U; exact I].
  - assert (Cases : last_first (same q) l1 l2 q' \/ ((forall x, In x l1 \/ In x l2 -> ~ same q x) /\ exists u v, l3 = u ++ q' :: v /\ forall x, In x u -> ~ same q x)).
    { destruct (find_last (same q) (same_dec q) l1) as [(u & r & v & E1 & Sr & U)|N1].
      - left. assert (r = q'); [|subst r; split; [exact Sr|]; left; eauto]. eapply (last_first_fun (same q) l1 (l2 ++ l3)); [|exact LF]. split; [exact Sr|]. left. eauto.
      - destruct (find_first (same q) (same_dec q) l2) as [(u & r & v & E1 & Sr & U)|N2].
        + left. assert (LF' : last_first (same q) l1 l2 r) by (split; [exact Sr|]; right; split; [exact N1|]; eauto). rewrite (last_first_fun _ _ _ _ _ LF (last_first_more _ _ _ l3 _ LF')). exact LF'.
        + right. split; [intros x [I|I]; auto|]. destruct LF as (Sq & [(u & v & E1 & _)|(_ & u & v & E1 & U)]); [exfalso; apply (N1 q'); [rewrite E1; apply in_elt|exact Sq]|].
          destruct (find_first (same q) (same_dec q) l3) as [(u' & r & v' & E3 & Sr & U')|N3].
          * exists u', v'. split; [|exact U']. rewrite E3 in E1. assert (r = q'); [|subst r; exact E3].
            rewrite app_assoc in E1. eapply (in_first_ex (same q)); [exact E1|exact Sr|exact Sq| |exact U]. intros x I. apply in_app_iff in I as [I|I]; auto.
          * exfalso. assert (I : In q' (l2 ++ l3)) by (rewrite E1; apply in_elt). apply in_app_iff in I as [I|I]; [exact (N2 _ I Sq)|exact (N3 _ I Sq)]. }
    destruct Cases as [LF'|(No & u & v & E3 & U)].
    + exists q. split; [|reflexivity]. assert (I : In q M) by (apply C1; split; [exact G|]; exists q'; auto).
      split; [apply same_refl|]. left. destruct (find_last (same q) (same_dec q) M) as [(u & r & v & EM & Sr & U)|N1]; [|exfalso; exact (N1 q I (same_refl q))].
      assert (Ir : In r M) by (rewrite EM; apply in_elt). apply C1 in Ir as (Gr & r' & LFr & Er).
      assert (r' = q'). { eapply (last_first_fun (same q)); [|exact LF']. eapply last_first_ext; [|exact LFr]. intros x. split; intros X; eauto. }
      assert (r = q) by (apply good_eq; auto; congruence). subst r. eauto.
    + exists q'. split; [|exact E]. destruct LF as (Sq & _). split; [exact Sq|]. right. split; [|eauto].
      intros x I X. apply C1 in I as (Gx & r & LFr & _). apply last_first_in in LFr as (Sx & I). apply (No r I). eauto.
Qed.
End Marks.

Lemma same_pair_dec x y u v : {same_pair x y u v} + {~ same_pair x y u v}.
Proof. unfold same_pair. destruct (Nat.eq_dec x u), (Nat.eq_dec y v), (Nat.eq_dec x v), (Nat.eq_dec y u); (left; lia) || (right; lia). Qed.
Lemma perm_dec (l l' : list nat) : {Permutation l l'} + {~ Permutation l l'}.
Proof.
  destruct (list_eq_dec Nat.eq_dec (isort Nat.leb l) (isort Nat.leb l')) as [E|E]; [left|right].
  - eapply Permutation_trans; [apply Permutation_sym, (isort_perm Nat.leb)|]. rewrite E. apply isort_perm.
  - intros P. apply E. apply sorted_perm_eq; [apply isort_sorted_le|apply isort_sorted_le|]. eapply Permutation_trans; [apply isort_perm|]. eapply Permutation_trans; [exact P|]. apply Permutation_sym, isort_perm.
Qed.

Definition esame (q q' : Z * nat * nat) : Prop := edge_at (snd (fst q)) (snd q) q'.
Definition egood (q : Z * nat * nat) : Prop := snd (fst q) <= snd q.
Definition fsame (q q' : Z * nat * nat * nat * option nat) : Prop := face_at (marked_face_points q) q'.
Definition fgood (q : Z * nat * nat * nat * option nat) : Prop := StronglySorted le (marked_face_points q).

Lemma edges_step M l1 l2 l3 N : chosen esame emk egood M l1 l2 -> chosen esame emk egood N M l3 -> chosen esame emk egood N l1 (l2 ++ l3).
Proof.
  apply chosen_step; unfold esame, edge_at, same_pair, egood, emk.
  - intros x y. apply same_pair_dec.
  - intros x. lia.
  - intros x y. lia.
  - intros x y z. lia.
  - intros [[a x] y] [[b u] v]; cbn [fst snd]. intros H1 H2 H3 ->. assert (x = u /\ y = v) as [-> ->] by lia. reflexivity.
  - intros [[a x] y] z. cbn [fst snd]. destruct (le_lt_dec x y); [exists (z, x, y)|exists (z, y, x)]; cbn [fst snd]; repeat split; lia.
Qed.
Lemma faces_step M l1 l2 l3 N : chosen fsame fmk fgood M l1 l2 -> chosen fsame fmk fgood N M l3 -> chosen fsame fmk fgood N l1 (l2 ++ l3).
Proof.
  apply chosen_step; unfold fsame, face_at, fgood, fmk.
  - intros x y. apply perm_dec.
  - intros x. apply Permutation_refl.
  - intros x y. apply Permutation_sym.
  - intros x y z. apply Permutation_trans.
  - intros x y H1 H2 P E. pose proof (sorted_perm_eq _ _ H1 H2 P) as H. destruct x as [[[[a x1] x2] x3] x4], y as [[[[b y1] y2] y3] y4]. cbn [fst] in E. subst b. cbn in H.
    destruct x4, y4; cbn in H; try discriminate H; injection H; intros; subst; reflexivity.
  - intros q z. pose proof (isort_perm Nat.leb (marked_face_points q)) as P. pose proof (isort_sorted_le (marked_face_points q)) as St.
    assert (exists g, marked_face_points g = isort Nat.leb (marked_face_points q) /\ fst (fst (fst (fst g))) = z) as (g & Eg & Mg).
    { pose proof (isort_length Nat.leb (marked_face_points q)) as L. destruct q as [[[[a x1] x2] x3] [x4|]]; unfold marked_face_points in L at 2; cbn [app List.length] in L;
      destruct (isort Nat.leb _) as [|y1 [|y2 [|y3 [|y4 [|y5 t]]]]]; cbn in L; try discriminate L; [exists (z, y1, y2, y3, Some y4)|exists (z, y1, y2, y3, None)]; split; reflexivity. }
    exists g. rewrite Eg. split; [exact St|]. split; [apply Permutation_sym; exact P|exact Mg].
Qed.

Section Join.
Variable shp : list nat -> list nat.
Variable shuffle : emap -> emap.
Hypothesis shuffled : forall l, Permutation (shuffle l) l.
Variable sh : container -> container.
Hypothesis shP : forall c, Permutation (sh c) c.

Definition all_marked (m0 : mesh R) (fs : list (nat -> nat)) (ms : list (mesh R)) (m : mesh R) : Prop :=
  List.length fs = List.length ms /\ valid m /\ ndim m = ndim m0 /\ List.length (cells m) = cells_before (m0 :: ms) (S (List.length ms)) /\
  keeps_points m0 m /\ (forall i c, nth_error (cells m0) i = Some c -> nth_error (cells m) i = Some c) /\
  (forall k f mk, nth_error fs k = Some f -> nth_error ms k = Some mk -> carried (ndim m0) (cells_before (m0 :: ms) (S k)) mk m f) /\
  (forall j, j < List.length (points m) -> j < List.length (points m0) \/
     exists k f mk p, nth_error fs k = Some f /\ nth_error ms k = Some mk /\ p < List.length (points mk) /\ f p = j) /\
  StronglySorted lex (map (fun q => (snd (fst q), snd q)) (marked_edges m)) /\
  StronglySorted lex_list (map marked_face_points (marked_faces m)) /\
  chosen esame emk egood (marked_edges m) (marked_edges m0) (moved_edges fs ms) /\
  chosen fsame fmk fgood (marked_faces m) (marked_faces m0) (moved_faces fs ms).

Lemma combine_snoc {A B} (x : list A) (y : list B) a b : List.length x = List.length y -> combine (x ++ [a]) (y ++ [b]) = combine x y ++ [(a, b)].
Proof. revert y. induction x as [|u x IH]; intros [|v y] L; try discriminate L; [reflexivity|]. cbn. rewrite IH by (cbn in L; lia). reflexivity. Qed.
Lemma nth_error_snoc {A} (l : list A) a k x : nth_error (l ++ [a]) k = Some x -> (k < List.length l /\ nth_error l k = Some x) \/ (k = List.length l /\ x = a).
Proof.
  intros E. destruct (lt_dec k (List.length l)) as [L|L]; [left; rewrite nth_error_app1 in E by exact L; auto|right]. rewrite nth_error_app2 in E by lia.
  destruct (k - List.length l) as [|z] eqn:Z; cbn in E; [injection E as <-; split; [lia|reflexivity]|destruct z; discriminate].
Qed.

Lemma marked_first m0 b m : valid m0 -> consistent b -> coords_complete b -> join_two_meshes shp shuffle sh m0 b = Ok m -> exists f, all_marked m0 [f] [b] m.
Proof.
  intros V Cb CCb H. destruct (joined_spec shp shuffle shuffled sh shP m0 b m V Cb CCb H) as (Vm & f & J & (E1 & E2) & (F1 & F2)). pose proof J as (J1 & J2 & J3 & J4 & J5 & J6 & J7 & J8 & J9 & J10).
  exists f. split; [reflexivity|]. split; [exact Vm|]. split; [exact J1|]. split; [rewrite J9; unfold cells_before; cbn; lia|]. split; [exact J2|]. split; [exact J8|]. split.
  { intros [|k] g mk Ef Em; cbn in Ef, Em; [injection Ef as <-; injection Em as <-|destruct k; discriminate]. split; [exact J4|]. unfold cells_before. cbn. rewrite Nat.add_0_r. exact J10. }
  split. { intros j Hj. destruct (lt_dec j (List.length (points m0))) as [L|L]; [auto|right]. destruct (J6 j ltac:(lia)) as (p & Hp & E). exists 0, f, b, p. auto. }
  split; [exact E1|]. split; [exact F1|]. unfold moved_edges, moved_faces. cbn [combine flat_map fst snd]. rewrite !app_nil_r. split.
  - intros [[mk x] y]. apply E2.
  - intros q. apply F2.
Qed.
Lemma marked_step m0 fs ms a b m : all_marked m0 fs ms a -> consistent b -> coords_complete b -> join_two_meshes shp shuffle sh a b = Ok m -> exists f, all_marked m0 (fs ++ [f]) (ms ++ [b]) m.
Proof.
  intros (A1 & A2 & A3 & A4 & A5 & A6 & A7 & Au & A8 & A9 & A10 & A11) Cb CCb H.
  destruct (joined_spec shp shuffle shuffled sh shP a b m A2 Cb CCb H) as (Vm & f & J & (E1 & E2) & (F1 & F2)). pose proof J as (J1 & J2 & J3 & J4 & J5 & J6 & J7 & J8 & J9 & J10).
  exists f. split; [rewrite !app_length, A1; reflexivity|]. split; [exact Vm|]. split; [congruence|].
  split. { rewrite J9, A4, app_length. cbn [List.length]. rewrite Nat.add_1_r. exact (eq_sym (cells_before_all (m0 :: ms) b)). }
  split; [intros p pt Ep; apply J2, A5, Ep|]. split; [intros i c Ec; apply J8, A6, Ec|]. split.
  { intros k g mk Ef Em. change (m0 :: ms ++ [b]) with ((m0 :: ms) ++ [b]). apply nth_error_snoc in Ef as [(Lk & Ef)|(-> & ->)]; apply nth_error_snoc in Em as [(Lk' & Em)|(Ek & ->)]; try lia.
    - rewrite cells_before_app by (cbn [List.length]; lia). eapply carried_step; [exact J|]. apply A7; assumption.
    - rewrite cells_before_app by (cbn [List.length]; lia). split; [rewrite <- A3; exact J4|]. rewrite A1, <- A4. exact J10. }
  split. { intros j Hj. destruct (lt_dec j (List.length (points a))) as [L|L].
    - destruct (Au j L) as [?|(k & g & mk & p & Ef & Em & Hp & E)]; [auto|right]. exists k, g, mk, p. split; [rewrite nth_error_app1; [exact Ef|apply nth_error_Some; congruence]|].
      split; [rewrite nth_error_app1; [exact Em|apply nth_error_Some; congruence]|auto].
    - right. destruct (J6 j ltac:(lia)) as (p & Hp & E). exists (List.length ms), f, b, p. split; [rewrite nth_error_app2, A1, Nat.sub_diag by lia; reflexivity|].
      split; [rewrite nth_error_app2, Nat.sub_diag by lia; reflexivity|auto]. }
  split; [exact E1|]. split; [exact F1|]. unfold moved_edges, moved_faces. rewrite combine_snoc by exact A1. rewrite !flat_map_app. cbn [flat_map fst snd]. rewrite !app_nil_r. split.
  - eapply edges_step; [exact A10|]. intros [[mk x] y]. apply E2.
  - eapply faces_step; [exact A11|]. intros q. apply F2.
Qed.
Lemma marked_rest rest : forall m0 fs ms a m, all_marked m0 fs ms a -> Forall (fun b => consistent b /\ coords_complete b) rest -> foldM (join_two_meshes shp shuffle sh) rest a = Ok m ->
  exists fs', all_marked m0 (fs ++ fs') (ms ++ rest) m.
Proof.
  induction rest as [|b t IH]; intros m0 fs ms a m A Fr H; cbn [foldM] in H; [injection H as <-; exists []; rewrite !app_nil_r; exact A|].
  apply bind_ok in H as (a1 & H1 & H). inversion Fr as [|? ? (Cb & CCb) Ft]; subst. destruct (marked_step _ _ _ _ _ _ A Cb CCb H1) as (f & A').
  destruct (IH _ _ _ _ _ A' Ft H) as (fs' & A''). exists (f :: fs'). rewrite <- !app_assoc in A''. exact A''.
Qed.
Lemma join_marks m0 ms m : valid m0 -> Forall (fun b => consistent b /\ coords_complete b) ms -> join_meshes shp shuffle sh (m0 :: ms) = Ok m -> exists fs, all_marked m0 fs ms m.
Proof.
  intros V Fm H. destruct ms as [|b rest]; [discriminate H|]. unfold join_meshes in H. cbn [foldM] in H. inversion Fm as [|? ? (Cb & CCb) Ft]; subst.
  apply bind_ok in H as (a1 & H1 & H). destruct (marked_first m0 b a1 V Cb CCb H1) as (f & A). destruct (marked_rest rest _ _ _ _ _ A Ft H) as (fs' & A'). exists (f :: fs'). exact A'.
Qed.
End Join.
