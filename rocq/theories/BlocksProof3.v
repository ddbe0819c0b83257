(* Collections of blocks: joining the meshes of the regions. *)
From Coq Require Import String Reals List Lia Lra Bool Arith ZArith Permutation Sorted.
From Verif Require Import Base BaseFacts Kind MeshModel MeshQuerySpec TopoModel TopoSpec TopoMaps TopoProof GeomModel GeomSpec GeomProof GridModel GridSpec GridProof SearchModel SearchSpec SearchProof SearchProof2
  JoinModel JoinSpec JoinProof JoinProof2 JoinProof3 ShapesModel ShapesSpec PadModel PadSpec BlockModel BlockSpec StructModel StructSpec StructProof RingSpec BlocksSpec BlocksProof BlocksProof2.
Import ListNotations.
Local Open Scope list_scope.
Local Open Scope R_scope.

(* ---------------------------------------------------------------- lists of lists *)
Section Lists.
Context {A : Type}.
Variable P : A -> Prop.
Lemma first_list (L : list (list A)) u q v : concat L = u ++ q :: v -> (forall q', In q' u -> ~ P q') ->
  exists k l, nth_error L k = Some l /\ In q l /\ forall k' l' q', (k' < k)%nat -> nth_error L k' = Some l' -> In q' l' -> ~ P q'.
Proof.
  revert u. induction L as [|l L IH]; intros u E Hu; [destruct u; discriminate|]. cbn [concat] in E.
  destruct (le_lt_dec (List.length l) (List.length u)) as [H|H].
  - assert (Eu : u = l ++ skipn (List.length l) u). { rewrite <- (firstn_skipn (List.length l) u) at 1. f_equal.
      transitivity (firstn (List.length l) (u ++ q :: v)); [rewrite firstn_app; replace (List.length l - List.length u)%nat with 0%nat by lia; rewrite app_nil_r; reflexivity|].
      rewrite <- E, firstn_app, Nat.sub_diag, firstn_all, app_nil_r. reflexivity. }
    set (u' := skipn (List.length l) u) in *. clearbody u'. subst u. rewrite <- app_assoc in E. apply app_inv_head in E.
    destruct (IH u' E) as (k & l1 & X & I & N); [intros q' I; apply Hu; apply in_or_app; right; exact I|]. exists (S k), l1. split; [exact X|]. split; [exact I|].
    intros [|k'] l' q' Lk X' I'; [injection X' as <-; apply Hu; apply in_or_app; left; exact I'|]. eapply N; [|exact X'|exact I']. lia.
  - exists 0%nat, l. split; [reflexivity|]. split; [|intros; lia]. assert (X : nth_error (l ++ concat L) (List.length u) = Some q) by (rewrite E, nth_error_app2, Nat.sub_diag by lia; reflexivity).
    rewrite nth_error_app1 in X by exact H. eapply nth_error_In. exact X.
Qed.
Lemma last_first_list l0 L q : last_first P l0 (concat L) q ->
  P q /\ exists k l, nth_error (l0 :: L) k = Some l /\ In q l /\ forall k' l' q', (k' < k)%nat -> nth_error (l0 :: L) k' = Some l' -> In q' l' -> ~ P q'.
Proof.
  intros (Pq & [(u & v & -> & _)|(N & u & v & E & Hu)]); (split; [exact Pq|]).
  - exists 0%nat, (u ++ q :: v). split; [reflexivity|]. split; [apply in_elt|intros; lia].
  - destruct (first_list L u q v E Hu) as (k & l & X & I & F). exists (S k), l. split; [exact X|]. split; [exact I|]. intros [|k'] l' q' Lk X' I'; [injection X' as <-; apply N; exact I'|]. eapply F; [|exact X'|exact I']. lia.
Qed.
Lemma list_last_first (D : forall x : A, {P x} + {~ P x}) l0 L k l q : nth_error (l0 :: L) k = Some l -> In q l -> P q -> exists q', last_first P l0 (concat L) q'.
Proof.
  intros X I Pq. apply (last_first_ex P D _ _ q); [|exact Pq]. destruct k as [|k]; cbn in X; [injection X as <-; auto|]. right. apply in_concat. exists l. split; [eapply nth_error_In; exact X|exact I].
Qed.
End Lists.

Lemma flat_map_combine {A B C} (h : A -> B -> list C) (la : list A) (lb : list B) : flat_map (fun ab : A * B => h (fst ab) (snd ab)) (combine la lb) = concat (map (fun ab : A * B => h (fst ab) (snd ab)) (combine la lb)).
Proof. apply flat_map_concat_map. Qed.
Lemma nth_combine {A B} (la : list A) (lb : list B) k a b : nth_error la k = Some a -> nth_error lb k = Some b -> nth_error (combine la lb) k = Some (a, b).
Proof. revert lb k. induction la as [|x la IH]; intros [|y lb] [|k] E F; try discriminate; cbn in *; [congruence|]. apply IH; assumption. Qed.
Lemma nth_combine_inv {A B} (la : list A) (lb : list B) k a b : nth_error (combine la lb) k = Some (a, b) -> nth_error la k = Some a /\ nth_error lb k = Some b.
Proof. revert lb k. induction la as [|x la IH]; intros [|y lb] [|k] E; try discriminate; cbn in *; [injection E as -> ->; auto|]. apply IH; assumption. Qed.
Lemma Forall2_get {A B} (P : A -> B -> Prop) l r k x : Forall2 P l r -> nth_error l k = Some x -> exists y, nth_error r k = Some y /\ P x y.
Proof. intros F. revert k. induction F as [|a b l r H F IH]; intros [|k] E; try discriminate; cbn in *; [injection E as <-; eauto|]. apply IH; assumption. Qed.
Lemma Forall2_get_r {A B} (P : A -> B -> Prop) l r k y : Forall2 P l r -> nth_error r k = Some y -> exists x, nth_error l k = Some x /\ P x y.
Proof. intros F. revert k. induction F as [|a b l r H F IH]; intros [|k] E; try discriminate; cbn in *; [injection E as <-; eauto|]. apply IH; assumption. Qed.

Lemma lex_irr p : ~ lex p p.
Proof. unfold lex. lia. Qed.
Lemma lex_list_irr l : ~ lex_list l l.
Proof. induction l as [|x l IH]; intros H; inversion H; subst; [lia|auto]. Qed.
Lemma sorted_inj {A B} (R : B -> B -> Prop) (f : A -> B) l x y : (forall b, ~ R b b) -> StronglySorted R (map f l) -> In x l -> In y l -> f x = f y -> x = y.
Proof.
  intros Irr. induction l as [|z l IH]; intros Sd I J E; [destruct I|]. cbn in Sd. inversion Sd as [|? ? Sl Fl]; subst. rewrite Forall_forall in Fl.
  destruct I as [->|I], J as [->|J]; [reflexivity| | |apply IH; assumption]; exfalso.
  - apply (Irr (f y)). rewrite <- E at 1. apply Fl. apply in_map. exact J.
  - apply (Irr (f x)). rewrite E at 1. apply Fl. apply in_map. exact I.
Qed.

(* ---------------------------------------------------------------- joining *)
Section Join.
Variable shp : list nat -> list nat.
Variable shuffle : emap -> emap.
Hypothesis shuffled : forall l, Permutation (shuffle l) l.
Variable sh : container -> container.
Hypothesis shP : forall c, Permutation (sh c) c.
Variables (nd : nat) (target : geokind) (gs : list region) (ms : list (mesh R)) (m : mesh R).
Hypothesis Hnd : (nd = 2 \/ nd = 3)%nat.
Variables EM FM : region -> nat -> Z -> Prop.
Hypothesis RM : Forall2 (fun g mi => region_mesh nd target (EM g) (FM g) g mi) gs ms.
Hypothesis Run : join_meshes shp shuffle sh ms = Ok m.

(* where the points of each mesh are *)
Definition moved_by (fs : list (nat -> nat)) : Prop :=
  List.length fs = List.length ms /\
  (forall i f mi, nth_error fs i = Some f -> nth_error ms i = Some mi -> placed (if (i =? 0)%nat then 0 else tolR nd) mi m f /\ carries_cells (cells_before ms i) mi m f) /\
  (forall j, (j < List.length (points m))%nat -> exists k f mk p, nth_error fs k = Some f /\ nth_error ms k = Some mk /\ (p < List.length (points mk))%nat /\ f p = j) /\
  (forall mk x y, In (mk, x, y) (marked_edges m) -> (x <= y)%nat) /\
  (forall q, In q (marked_faces m) -> StronglySorted le (marked_face_points q)) /\
  StronglySorted lex (map (fun q => (snd (fst q), snd q)) (marked_edges m)) /\
  StronglySorted lex_list (map marked_face_points (marked_faces m)) /\
  (forall q, In q (marked_edges m) -> exists k f mk q', nth_error fs k = Some f /\ nth_error ms k = Some mk /\ In q' (marked_edges mk) /\ esame q (move_edge f q') /\ emk q' = emk q /\
     forall k' f' mk' q'', (k' < k)%nat -> nth_error fs k' = Some f' -> nth_error ms k' = Some mk' -> In q'' (marked_edges mk') -> ~ esame q (move_edge f' q'')) /\
  (forall k f mk q', nth_error fs k = Some f -> nth_error ms k = Some mk -> In q' (marked_edges mk) -> exists q, In q (marked_edges m) /\ esame q (move_edge f q')) /\
  (forall q, In q (marked_faces m) -> exists k f mk q', nth_error fs k = Some f /\ nth_error ms k = Some mk /\ In q' (marked_faces mk) /\ fsame q (move_face f q') /\ fmk q' = fmk q /\
     forall k' f' mk' q'', (k' < k)%nat -> nth_error fs k' = Some f' -> nth_error ms k' = Some mk' -> In q'' (marked_faces mk') -> ~ fsame q (move_face f' q'')) /\
  (forall k f mk q', nth_error fs k = Some f -> nth_error ms k = Some mk -> In q' (marked_faces mk) -> exists q, In q (marked_faces m) /\ fsame q (move_face f q')).

Lemma move_edge_id q : move_edge (fun p => p) q = q. Proof. destruct q as [[a b] c]. reflexivity. Qed.
Lemma move_face_id q : move_face (fun p => p) q = q. Proof. destruct q as [[[[a b] c] d] [e|]]; reflexivity. Qed.

Lemma edge_rep (q : Z * nat * nat) z : exists g, egood g /\ esame q g /\ emk g = z.
Proof.
  unfold esame, edge_at, same_pair, egood, emk. destruct q as [[a x] y]. cbn [fst snd]. destruct (le_lt_dec x y); [exists (z, x, y)|exists (z, y, x)]; cbn [fst snd]; repeat split; lia.
Qed.
Lemma face_rep (q : Z * nat * nat * nat * option nat) z : exists g, fgood g /\ fsame q g /\ fmk g = z.
Proof.
  unfold fsame, face_at, fgood, fmk. pose proof (isort_perm Nat.leb (marked_face_points q)) as P. pose proof (isort_sorted_le (marked_face_points q)) as St.
  assert (exists g, marked_face_points g = isort Nat.leb (marked_face_points q) /\ fst (fst (fst (fst g))) = z) as (g & Eg & Mg).
  { pose proof (isort_length Nat.leb (marked_face_points q)) as L. destruct q as [[[[a x1] x2] x3] [x4|]]; unfold marked_face_points in L at 2; cbn [app List.length] in L;
    destruct (isort Nat.leb _) as [|y1 [|y2 [|y3 [|y4 [|y5 t]]]]]; cbn in L; try discriminate L; [exists (z, y1, y2, y3, Some y4)|exists (z, y1, y2, y3, None)]; split; reflexivity. }
  exists g. rewrite Eg. split; [exact St|]. split; [apply Permutation_sym; exact P|exact Mg].
Qed.

Lemma chosen_lists {X} (same : X -> X -> Prop) (mark : X -> Z) (good : X -> Prop) (mv : (nat -> nat) -> X -> X) (marks : mesh R -> list X) m0 rest fs M
  (D : forall x y, {same x y} + {~ same x y}) (Sy : forall x y, same x y -> same y x) (Tr : forall x y z, same x y -> same y z -> same x z)
  (Rep : forall q z, exists g, good g /\ same q g /\ mark g = z) (Id : forall q, mv (fun p => p) q = q) (Mk : forall f q, mark (mv f q) = mark q) :
  List.length fs = List.length rest ->
  chosen same mark good M (marks m0) (flat_map (fun fm : (nat -> nat) * mesh R => map (mv (fst fm)) (marks (snd fm))) (combine fs rest)) ->
  (forall q, In q M -> exists k f mk q', nth_error ((fun p => p) :: fs) k = Some f /\ nth_error (m0 :: rest) k = Some mk /\ In q' (marks mk) /\ same q (mv f q') /\ mark q' = mark q /\
     forall k' f' mk' q'', (k' < k)%nat -> nth_error ((fun p => p) :: fs) k' = Some f' -> nth_error (m0 :: rest) k' = Some mk' -> In q'' (marks mk') -> ~ same q (mv f' q'')) /\
  (forall k f mk q', nth_error ((fun p => p) :: fs) k = Some f -> nth_error (m0 :: rest) k = Some mk -> In q' (marks mk) -> exists q, In q M /\ same q (mv f q')).
Proof.
  intros L C. set (h := fun fm : (nat -> nat) * mesh R => map (mv (fst fm)) (marks (snd fm))) in *.
  assert (Ls : forall k l, nth_error (marks m0 :: map h (combine fs rest)) k = Some l -> exists f mk, nth_error ((fun p => p) :: fs) k = Some f /\ nth_error (m0 :: rest) k = Some mk /\ l = map (mv f) (marks mk)).
  { intros [|k] l E; cbn in E; [injection E as <-; exists (fun p => p), m0; split; [reflexivity|]; split; [reflexivity|]; symmetry; rewrite (map_ext _ (fun q => q) Id); apply map_id|].
    rewrite nth_error_map in E. destruct (nth_error (combine fs rest) k) as [[f mk]|] eqn:E'; [|discriminate]. injection E as <-. apply nth_combine_inv in E' as (A & B). exists f, mk. auto. }
  assert (Ls' : forall k f mk, nth_error ((fun p => p) :: fs) k = Some f -> nth_error (m0 :: rest) k = Some mk -> nth_error (marks m0 :: map h (combine fs rest)) k = Some (map (mv f) (marks mk))).
  { intros [|k] f mk A B; cbn in A, B |- *; [injection A as <-; injection B as <-; f_equal; symmetry; rewrite (map_ext _ (fun q => q) Id); apply map_id|].
    rewrite nth_error_map, (nth_combine _ _ _ _ _ A B). reflexivity. }
  split.
  - intros q I. apply C in I as (G & q1 & LF & E). rewrite flat_map_concat_map in LF. apply last_first_list in LF as (Sq & k & l & X1 & Iq & N). destruct (Ls k l X1) as (f & mk & A & B & ->).
    apply in_map_iff in Iq as (q' & <- & Iq). exists k, f, mk, q'. split; [exact A|]. split; [exact B|]. split; [exact Iq|]. split; [exact Sq|]. split; [rewrite Mk in E; exact E|].
    intros k' f' mk' q'' Lk A' B' I'. eapply N; [exact Lk|apply Ls'; eassumption|]. apply in_map. exact I'.
  - intros k f mk q' A B I. destruct (list_last_first (same (mv f q')) (D _) (marks m0) (map h (combine fs rest)) k _ (mv f q') (Ls' k f mk A B)) as (r & LF).
    { apply in_map. exact I. } { destruct (Rep (mv f q') 0%Z) as (g & _ & Sg & _). eapply Tr; [exact Sg|apply Sy; exact Sg]. }
    destruct (Rep (mv f q') (mark r)) as (g & Gg & Sg & Mg). exists g. split; [|apply Sy; exact Sg]. apply C. split; [exact Gg|]. exists r. split; [|congruence]. rewrite flat_map_concat_map.
    eapply last_first_ext; [|exact LF]. intros x. split; intros Y; [eapply Tr; [apply Sy; exact Sg|exact Y]|eapply Tr; [exact Sg|exact Y]].
Qed.

Lemma region_meshes_ok : Forall (fun b => consistent b /\ coords_complete b) ms.
Proof. clear Run. induction RM as [|g mi gs' ms' H F IH]; constructor; auto. split; [exact (r_consistent _ _ _ _ _ _ H)|exact (r_complete _ _ _ _ _ _ H)]. Qed.
Lemma joined_maps : valid m /\ ndim m = nd /\ (2 <= List.length gs)%nat /\ List.length (cells m) = cells_before ms (List.length ms) /\ exists fs, moved_by fs.
Proof.
  pose proof region_meshes_ok as Ok'. assert (LL : List.length gs = List.length ms) by (apply Forall2_nth in RM; apply RM).
  unfold moved_by in *. destruct ms as [|m0 [|b rest]]; [discriminate Run|discriminate Run|].
  inversion Ok' as [|? ? (C0 & CC0) Ok'']; subst. destruct gs as [|g0 gs']; [discriminate LL|]. inversion RM as [|? ? ? ? R0 _]; subst.
  assert (N0 : ndim m0 = nd) by exact (r_ndim _ _ _ _ _ _ R0).
  assert (V0 : valid m0) by (split; [exact C0|split; [exact CC0|lia]]).
  destruct (join_marks shp shuffle shuffled sh shP m0 (b :: rest) m V0 Ok'' Run) as (fs & A1 & A2 & A3 & A4 & A5 & A6 & A7 & Au & A8 & A9 & A10 & A11).
  split; [exact A2|]. split; [congruence|]. split; [rewrite LL; cbn; lia|]. split; [exact A4|]. exists ((fun p => p) :: fs).
  split; [cbn; rewrite A1; reflexivity|]. split.
  { intros [|i] f mi Ef Em; cbn in Ef, Em.
    - injection Ef as <-. injection Em as <-. cbn [Nat.eqb]. split; [|intros i c E; exists c; split; [apply A6; exact E|]; rewrite map_id; auto].
      intros p pt E. exists pt. split; [apply A5; exact E|]. split; [reflexivity|]. rewrite euclid_refl. lra.
    - destruct (A7 i f mi Ef Em) as (B1 & B2). rewrite N0 in B1. split; [exact B1|exact B2]. }
  split. { intros j Hj. destruct (Au j Hj) as [H|(k & f & mk & p & E1 & E2 & E3 & E4)]; [exists 0%nat, (fun p => p), m0, j; auto|exists (S k), f, mk, p; auto]. }
  split; [intros mk x y I; apply A10 in I as (G & _); exact G|]. split; [intros q I; apply A11 in I as (G & _); exact G|]. split; [exact A8|]. split; [exact A9|].
  destruct (chosen_lists esame emk egood move_edge marked_edges m0 (b :: rest) fs (marked_edges m)) as (Y1 & Y2); auto using move_edge_id, edge_rep.
  { intros x y. apply same_pair_dec. } { unfold esame, edge_at, same_pair. intros x y. lia. } { unfold esame, edge_at, same_pair. intros x y z. lia. } { intros f [[x y] z]. reflexivity. }
  destruct (chosen_lists fsame fmk fgood move_face marked_faces m0 (b :: rest) fs (marked_faces m)) as (Z1 & Z2); auto using move_face_id, face_rep.
  { intros x y. apply perm_dec. } { intros x y. apply Permutation_sym. } { intros x y z. apply Permutation_trans. } { intros f [[[[x y] z] u] v]. reflexivity. }
Qed.
End Join.
