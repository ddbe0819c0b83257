(* Collections of blocks: the joined mesh and its marks; renumbering. *)
From Coq Require Import String Reals List Lia Lra Bool Arith ZArith Permutation Sorted.
From Verif Require Import Base BaseFacts Kind MeshModel MeshQuerySpec TopoModel TopoSpec TopoMaps TopoProof GeomModel GeomSpec GeomProof GridModel GridSpec GridProof SearchModel SearchSpec SearchProof SearchProof2
  JoinModel JoinSpec JoinProof JoinProof2 JoinProof3 ShapesModel ShapesSpec PadModel PadSpec BlockModel BlockSpec GraphModel GraphVocab PropGraph StructModel StructSpec StructProof StructProof4 RingSpec BlocksSpec BlocksProof BlocksProof2 BlocksProof3.
Import ListNotations.
Local Open Scope list_scope.
Local Open Scope R_scope.

Section Join.
Variable shp : list nat -> list nat.
Variable shuffle : emap -> emap.
Hypothesis shuffled : forall l, Permutation (shuffle l) l.
Variable sh : container -> container.
Hypothesis shP : forall c, Permutation (sh c) c.
Variables (nd : nat) (target : geokind) (gs : list region) (ms : list (mesh R)) (m : mesh R).
Hypothesis Hnd : (nd = 2 \/ nd = 3)%nat.
Variables EM FM : region -> nat -> Z -> Prop.
Hypothesis RM : Forall2 (fun g mi => region_mesh nd target (EM g) (FM g) g mi) gs ms.
Hypothesis Run : join_meshes shp shuffle sh ms = Ok m.

Lemma before_eq i : cells_before ms i = fold_right plus 0%nat (map ncells (firstn i gs)).
Proof.
  clear Run. unfold cells_before. revert i. induction RM as [|g mi gs' ms' H F IH]; intros [|i]; cbn [firstn map fold_right]; try reflexivity. rewrite (r_ncells _ _ _ _ _ _ H), (IH F i). reflexivity.
Qed.
Lemma total_eq : cells_before ms (List.length ms) = fold_right plus 0%nat (map ncells gs).
Proof. rewrite before_eq. rewrite firstn_all2; [reflexivity|]. apply Forall2_nth in RM. destruct RM as (L & _). lia. Qed.

Section Maps.
Variable fs : list (nat -> nat).
Hypothesis Mv : moved_by nd ms m fs.

Lemma maps_at i g : nth_error gs i = Some g -> exists f mi, nth_error fs i = Some f /\ nth_error ms i = Some mi /\ region_mesh nd target (EM g) (FM g) g mi.
Proof.
  intros E. destruct (Forall2_get _ _ _ _ _ RM E) as (mi & Em & R). destruct (nth_error fs i) as [f|] eqn:Ef; [exists f, mi; auto|]. exfalso. apply nth_error_None in Ef. destruct Mv as (L & _).
  assert (nth_error ms i <> None) by congruence. apply nth_error_Some in H. lia.
Qed.
Lemma cell_of i g f mi idx c : nth_error gs i = Some g -> nth_error fs i = Some f -> nth_error ms i = Some mi -> nth_error (cells mi) (rank (divs g) idx) = Some c ->
  exists c', nth_error (cells m) (cell_number gs i g idx) = Some c' /\ c_kind c' = c_kind c /\ c_marker c' = c_marker c /\ c_points c' = map f (c_points c).
Proof.
  intros Eg Ef Em Ec. destruct Mv as (_ & C & _). destruct (C i f mi Ef Em) as (_ & CC). unfold cell_number. rewrite <- before_eq. apply CC. exact Ec.
Qed.

Lemma maps_built : ndim m = nd -> List.length (cells m) = cells_before ms (List.length ms) -> built nd (tolR nd) target gs m.
Proof.
  intros N L. split; [exact N|]. split; [rewrite L; exact total_eq|]. intros i g idx Eg I. destruct (maps_at i g Eg) as (f & mi & Ef & Em & Rm).
  destruct (r_cells _ _ _ _ _ _ Rm idx I) as (c & Ec & K1 & K2 & K3 & K4). destruct (cell_of i g f mi idx c Eg Ef Em Ec) as (c' & Ec' & B1 & B2 & B3).
  exists c'. split; [exact Ec'|]. split; [congruence|]. split; [congruence|]. split; [rewrite B3, map_length; exact K3|].
  intros k p X. rewrite B3, nth_error_map in X. destruct (nth_error (c_points c) k) as [p0|] eqn:X0; [|discriminate]. injection X as <-. destruct (K4 k p0 X0) as (y & (pt & Ept & Ey) & Ly & Y).
  destruct Mv as (_ & C & _). destruct (C i f mi Ef Em) as (Pl & _). destruct (Pl p0 pt Ept) as (pt' & Ept' & Lc & D). exists (pt_coords pt'), y. split; [exists pt'; auto|]. split; [rewrite Lc, Ey; exact Ly|]. split; [exact Ly|]. split; [rewrite <- Ey; exact D|exact Y].
Qed.
Lemma maps_used : all_used m.
Proof.
  intros j Hj. destruct Mv as (_ & C & U & _). destruct (U j Hj) as (k & f & mi & p & Ef & Em & Hp & <-). destruct (Forall2_get_r _ _ _ _ _ RM Em) as (g & Eg & Rm).
  destruct (r_used _ _ _ _ _ _ Rm p Hp) as (c & Ic & Ip). apply In_nth_error in Ic as (n & Ec). destruct (C k f mi Ef Em) as (_ & CC). destruct (CC n c Ec) as (c' & Ec' & _ & _ & B3).
  exists c'. split; [eapply nth_error_In; exact Ec'|]. rewrite B3. apply in_map. exact Ip.
Qed.

(* edges *)
Definition e_marked (i : nat) (mk : Z) (x y : nat) : Prop := exists g e p q, nth_error gs i = Some g /\ EM g e mk /\ edge_on nd target gs m i e p q /\ same_pair x y p q.
Lemma edge_there i f mi q' x y : nth_error fs i = Some f -> nth_error ms i = Some mi -> In q' (marked_edges mi) -> edge_at x y (move_edge f q') -> e_marked i (emk q') x y.
Proof.
  intros Ef Em I S. destruct (Forall2_get_r _ _ _ _ _ RM Em) as (g & Eg & Rm). destruct q' as [[mk u] v]. apply (r_edges _ _ _ _ _ _ Rm) in I as (e & idx & c & e' & p & q & A1 & A2 & Ec & A3 & A4 & A5 & A6 & A7 & Eu & Ev).
  destruct (cell_of i g f mi idx c Eg Ef Em Ec) as (c' & Ec' & B1 & B2 & B3). exists g, e, (f p), (f q). split; [exact Eg|]. split; [exact A1|]. split.
  - exists g, idx, c', e'. rewrite B3, !nth_error_map, A4, A5. cbn. repeat (split; [first [assumption|reflexivity]|]). exact A7.
  - unfold edge_at, move_edge in S. cbn [fst snd] in S. destruct (Nat.min_spec p q) as [[L E]|[L E]], (Nat.max_spec p q) as [[L' E']|[L' E']]; try lia; rewrite E in Eu; rewrite E' in Ev; subst u v; unfold same_pair in *; try tauto.
Qed.
Lemma edge_back i mk x y : e_marked i mk x y -> exists f mi q', nth_error fs i = Some f /\ nth_error ms i = Some mi /\ In q' (marked_edges mi) /\ edge_at x y (move_edge f q') /\ emk q' = mk.
Proof.
  intros (g & e & p & q & Eg & A1 & (g' & idx & c & e' & Eg' & A2 & Ec & A3 & A4 & A5 & A6 & A7) & S). rewrite Eg in Eg'. injection Eg' as <-.
  destruct (maps_at i g Eg) as (f & mi & Ef & Em & Rm). destruct (r_cells _ _ _ _ _ _ Rm idx A2) as (c0 & Ec0 & _). destruct (cell_of i g f mi idx c0 Eg Ef Em Ec0) as (c' & Ec' & B1 & B2 & B3).
  rewrite Ec in Ec'. injection Ec' as <-. rewrite B3, nth_error_map in A4, A5. destruct (nth_error (c_points c0) (edge_node_id target e' 0)) as [p0|] eqn:X0; [|discriminate]. destruct (nth_error (c_points c0) (edge_node_id target e' 1)) as [q0|] eqn:X1; [|discriminate].
  injection A4 as <-. injection A5 as <-. exists f, mi, (mk, Nat.min p0 q0, Nat.max p0 q0). split; [exact Ef|]. split; [exact Em|]. split; [|split; [|reflexivity]].
  - apply (r_edges _ _ _ _ _ _ Rm). exists e, idx, c0, e', p0, q0. repeat (split; [assumption|]). auto.
  - unfold edge_at, move_edge. cbn [fst snd]. destruct (Nat.min_spec p0 q0) as [[L E]|[L E]], (Nat.max_spec p0 q0) as [[L' E']|[L' E']]; try lia; rewrite E, E'; unfold same_pair in *; try tauto.
Qed.
Lemma maps_edges : (forall mk x y, In (mk, x, y) (marked_edges m) -> (x <= y)%nat /\ exists i, e_marked i mk x y /\ forall i' mk', (i' < i)%nat -> ~ e_marked i' mk' x y) /\
  (forall i mk x y, e_marked i mk x y -> exists mk', In (mk', Nat.min x y, Nat.max x y) (marked_edges m)) /\
  (forall mk mk' x y, In (mk, x, y) (marked_edges m) -> In (mk', x, y) (marked_edges m) -> mk = mk').
Proof.
  pose proof Mv as (L & C & U & G1 & G2 & S1 & S2 & E1 & E2 & F1 & F2). split; [|split].
  - intros mk x y I. split; [apply (G1 _ _ _ I)|]. destruct (E1 _ I) as (k & f & mi & q' & Ef & Em & Iq & Sq & Mq & N). exists k. split; [change mk with (emk (mk, x, y)); rewrite <- Mq; eapply edge_there; [exact Ef|exact Em|exact Iq|exact Sq]|].
    intros i' mk' Li M. destruct (edge_back _ _ _ _ M) as (f' & mi' & q'' & Ef' & Em' & Iq' & Sq' & _). exact (N i' f' mi' q'' Li Ef' Em' Iq' Sq').
  - intros i mk x y M. destruct (edge_back _ _ _ _ M) as (f' & mi' & q'' & Ef' & Em' & Iq' & Sq' & _). destruct (E2 i f' mi' q'' Ef' Em' Iq') as ([[mk' u] v] & I & Sm). exists mk'.
    pose proof (G1 _ _ _ I) as Luv. unfold esame, edge_at in Sm, Sq'. cbn [fst snd] in Sm. assert (u = Nat.min x y /\ v = Nat.max x y) as [<- <-] by (unfold same_pair in *; lia). exact I.
  - intros mk mk' x y I J. pose proof (sorted_inj lex _ (marked_edges m) _ _ lex_irr S1 I J eq_refl) as E. congruence.
Qed.

(* faces *)
Definition f_marked (i : nat) (mk : Z) (ps : list nat) : Prop := exists g f qs, nth_error gs i = Some g /\ FM g f mk /\ face_on target gs m i f qs /\ Permutation ps qs.
Lemma move_face_points f q : marked_face_points (move_face f q) = map f (marked_face_points q).
Proof. destruct q as [[[[a b] c] d] [e|]]; reflexivity. Qed.
Lemma sort_four (ps : list nat) : List.length ps = 4%nat -> exists a1 a2 a3 a4, Permutation ps [a1; a2; a3; a4] /\ (a1 <= a2 <= a3)%nat /\ (a3 <= a4)%nat.
Proof.
  intros L. pose proof (isort_perm Nat.leb ps) as P. pose proof (isort_sorted_le ps) as St. pose proof (isort_length Nat.leb ps) as Ls. rewrite L in Ls. destruct (isort Nat.leb ps) as [|a1 [|a2 [|a3 [|a4 [|]]]]]; try discriminate Ls.
  exists a1, a2, a3, a4. split; [apply Permutation_sym; exact P|]. inversion St as [|? ? St1 F1]; subst. inversion St1 as [|? ? St2 F2]; subst. inversion St2 as [|? ? St3 F3]; subst.
  inversion F1; subst. inversion F2; subst. inversion F3; subst. lia.
Qed.
Lemma face_there i h mi q' ps : nth_error fs i = Some h -> nth_error ms i = Some mi -> In q' (marked_faces mi) -> face_at ps (move_face h q') -> f_marked i (fmk q') ps.
Proof.
  intros Ef Em I S. destruct (Forall2_get_r _ _ _ _ _ RM Em) as (g & Eg & Rm). apply (r_faces _ _ _ _ _ _ Rm) in I as (f & idx & c & f' & qs & a1 & a2 & a3 & a4 & mk & A1 & A2 & Ec & A3 & A4 & A5 & A6 & _ & _ & ->).
  destruct (cell_of i g h mi idx c Eg Ef Em Ec) as (c' & Ec' & B1 & B2 & B3). exists g, f, (map h qs). split; [exact Eg|]. split; [exact A1|]. split.
  - exists g, idx, c', f'. split; [exact Eg|]. split; [exact A2|]. split; [exact Ec'|]. split; [exact A3|]. split; [|exact A5]. rewrite B3. clear - A4. induction A4 as [|j p l r H A4 IH]; constructor; [|exact IH]. rewrite nth_error_map, H. reflexivity.
  - unfold face_at in S. rewrite move_face_points in S. cbn in S. eapply Permutation_trans; [exact S|]. apply Permutation_sym. exact (Permutation_map h A6).
Qed.
Lemma face_back i mk ps : f_marked i mk ps -> exists h mi q', nth_error fs i = Some h /\ nth_error ms i = Some mi /\ In q' (marked_faces mi) /\ face_at ps (move_face h q') /\ fmk q' = mk.
Proof.
  intros (g & f & qs & Eg & A1 & (g' & idx & c & f' & Eg' & A2 & Ec & A3 & A4 & A5) & S). rewrite Eg in Eg'. injection Eg' as <-.
  destruct (maps_at i g Eg) as (h & mi & Ef & Em & Rm). destruct (r_cells _ _ _ _ _ _ Rm idx A2) as (c0 & Ec0 & _). destruct (cell_of i g h mi idx c0 Eg Ef Em Ec0) as (c' & Ec' & B1 & B2 & B3).
  rewrite Ec in Ec'. injection Ec' as <-. rewrite B3 in A4.
  assert (exists ps0, Forall2 (fun j p => nth_error (c_points c0) (face_node_id target f' j) = Some p) (seq 0 4) ps0 /\ qs = map h ps0) as (ps0 & Q0 & ->).
  { clear - A4. induction A4 as [|j p l r H A4 (ps0 & Q0 & ->)]; [exists []; split; [constructor|reflexivity]|]. rewrite nth_error_map in H. destruct (nth_error (c_points c0) (face_node_id target f' j)) as [p0|] eqn:X; [|discriminate].
    injection H as <-. exists (p0 :: ps0). split; [constructor; assumption|reflexivity]. }
  assert (L0 : List.length ps0 = 4%nat) by (apply Forall2_nth in Q0 as (L0 & _); rewrite seq_length in L0; auto).
  destruct (sort_four ps0 L0) as (a1 & a2 & a3 & a4 & Pm & Le1 & Le2). exists h, mi, (mk, a1, a2, a3, Some a4). split; [exact Ef|]. split; [exact Em|]. split; [|split; [|reflexivity]].
  - apply (r_faces _ _ _ _ _ _ Rm). exists f, idx, c0, f', ps0, a1, a2, a3, a4, mk. repeat (split; [assumption|]). reflexivity.
  - unfold face_at. rewrite move_face_points. cbn. eapply Permutation_trans; [exact S|]. exact (Permutation_map h Pm).
Qed.
Lemma maps_faces : (forall q, In q (marked_faces m) -> StronglySorted le (marked_face_points q) /\ exists i, f_marked i (fmk q) (marked_face_points q) /\ forall i' mk', (i' < i)%nat -> ~ f_marked i' mk' (marked_face_points q)) /\
  (forall i mk ps, f_marked i mk ps -> exists q, In q (marked_faces m) /\ Permutation ps (marked_face_points q)) /\
  (forall q q', In q (marked_faces m) -> In q' (marked_faces m) -> Permutation (marked_face_points q) (marked_face_points q') -> q = q').
Proof.
  pose proof Mv as (L & C & U & G1 & G2 & S1 & S2 & E1 & E2 & F1 & F2). split; [|split].
  - intros q I. split; [exact (G2 _ I)|]. destruct (F1 _ I) as (k & f & mi & q' & Ef & Em & Iq & Sq & Mq & N). exists k. split; [rewrite <- Mq; eapply face_there; eassumption|].
    intros i' mk' Li M. destruct (face_back _ _ _ M) as (f' & mi' & q'' & Ef' & Em' & Iq' & Sq' & _). exact (N i' f' mi' q'' Li Ef' Em' Iq' Sq').
  - intros i mk ps M. destruct (face_back _ _ _ M) as (f' & mi' & q'' & Ef' & Em' & Iq' & Sq' & _). destruct (F2 i f' mi' q'' Ef' Em' Iq') as (q & I & Sm). exists q. split; [exact I|].
    unfold fsame, face_at in *. eapply Permutation_trans; [exact Sq'|]. apply Permutation_sym. exact Sm.
  - intros q q' I J P. apply (sorted_inj lex_list marked_face_points (marked_faces m) _ _ lex_list_irr S2 I J). apply sorted_perm_eq; auto.
Qed.
End Maps.
End Join.

(* ---------------------------------------------------------------- renumbering *)
Lemma renumber_built nd e target gs m m' : consistent m -> coords_complete m -> all_used m -> built nd e target gs m -> renumber_mesh m false = Ok m' ->
  consistent m' /\ coords_complete m' /\ all_used m' /\ built nd e target gs m'.
Proof.
  intros C1 C2 A (N & NC & B) H.
  assert (W : well_formed m). { split; [|exact C2]. intros c p Ic Ip. apply In_nth_error in Ic as (i & Ic). destruct C1 as (_ & C1). apply (proj2 (proj2 (C1 i c Ic))). exact Ip. }
  destruct (C08_renumber_mesh R m m' false W H) as (o & P & (R1 & R2 & R3 & R4) & M1 & M2).
  assert (Fw : forall p x, coords_of m p x -> coords_of m' (nth p o 0%nat) x). { intros p x (pt & X & <-). eexists. split; [apply R3; exact X|reflexivity]. }
  assert (Lo : List.length o = List.length (points m)) by (apply Permutation_length in P; rewrite seq_length in P; exact P).
  assert (Bw : forall q x, coords_of m' q x -> exists p, nth p o 0%nat = q /\ coords_of m p x).
  { intros q x X. destruct (perm_onto _ _ P q) as (p & Lp & E). { rewrite <- R2. eapply coords_range. exact X. }
    exists p. split; [exact E|]. destruct (coords_get m p Lp) as (y & Y). pose proof (Fw p y Y) as Z. rewrite E in Z. rewrite (coords_inj _ _ _ _ X Z). exact Y. }
  assert (Rng : forall p, (p < List.length (points m))%nat -> (nth p o 0 < List.length (points m'))%nat). { intros p Lp. destruct (coords_get m p Lp) as (y & Y). eapply coords_range. apply Fw. exact Y. }
  split; [split|].
  - intros q pt X. destruct (perm_onto _ _ P q) as (p & Lp & E). { rewrite <- R2. apply nth_error_Some. congruence. }
    destruct (nth_error (points m) p) as [pt0|] eqn:X0; [|apply nth_error_None in X0; lia]. apply R3 in X0. rewrite E in X0. rewrite X in X0. injection X0 as ->. reflexivity.
  - intros i c X. rewrite R4, nth_error_map in X. destruct (nth_error (cells m) i) as [c0|] eqn:X0; [|discriminate]. injection X as <-. cbn. destruct C1 as (_ & C1). destruct (C1 i c0 X0) as (Y1 & Y2 & Y3).
    split; [exact Y1|]. split; [rewrite map_length; exact Y2|]. intros q Iq. apply in_map_iff in Iq as (p & <- & Ip). apply Rng, Y3, Ip.
  - split. { intros pt I. apply In_nth_error in I as (q & X). destruct (Bw q (pt_coords pt)) as (p & _ & (pt0 & X0 & E)); [exists pt; auto|]. rewrite <- E, R1. apply C2. eapply nth_error_In. exact X0. }
    split. { intros q Lq. rewrite R2 in Lq. destruct (perm_onto _ _ P q Lq) as (p & Lp & E). destruct (A p Lp) as (c & Ic & Ip). rewrite R4. eexists. split; [apply in_map; exact Ic|]. cbn. rewrite <- E. apply (in_map (fun p => nth p o 0%nat)). exact Ip. }
    split; [congruence|]. split; [rewrite R4, map_length; exact NC|]. intros i g idx Eg I. destruct (B i g idx Eg I) as (c & Ec & K1 & K2 & K3 & K4). rewrite R4, nth_error_map, Ec. cbn [option_map].
    eexists. split; [reflexivity|]. cbn [c_kind c_marker c_points]. split; [exact K1|]. split; [exact K2|]. split; [rewrite map_length; exact K3|]. intros k p X. rewrite nth_error_map in X. destruct (nth_error (c_points c) k) as [p0|] eqn:X0; [|discriminate]. injection X as <-.
    destruct (K4 k p0 X0) as (x & y & Cx & Y). exists x, y. split; [apply Fw; exact Cx|exact Y].
Qed.
