(* Unstructured quarter rings in 3D: the resulting mesh. *)
From Coq Require Import String List Arith Bool ZArith Reals Lia Lra.
From Verif Require Import Base BaseFacts Kind MeshModel GraphModel TopoModel GeomModel MeshQuerySpec
  UnstrModel UnstrSpec UnstrProof UnstrProof2 UnstrProof3 UnstrProof4 UnstrProof6 UnstrProof7.
Import ListNotations.
Local Open Scope list_scope.
Local Open Scope nat_scope.

(* the points of the marked faces, with the marker of the face *)
Definition face_hits (k : nat) (faces : list (Z * list nat)) : list (Z * nat) := flat_map (fun f => map (fun p => (fst f, p)) (firstn k (snd f))) faces.
Definition on_face (k : nat) (faces : list (Z * list nat)) (mk : Z) (q : nat) : Prop := exists f, In f faces /\ fst f = mk /\ In q (firstn k (snd f)).
Lemma hits_in k faces mk q : In (mk, q) (face_hits k faces) <-> on_face k faces mk q.
Proof.
  unfold face_hits, on_face. rewrite in_flat_map. split.
  - intros (f & Hf & H). apply in_map_iff in H. destruct H as (p & E & Hp). injection E as <- <-. eauto.
  - intros (f & Hf & <- & Hq). exists f. split; [auto|]. apply in_map_iff. eauto.
Qed.
Definition mark1 (pts : list (point R)) (e : Z * nat) : res (list (point R)) :=
  let! pt := get pts (snd e) in
  if ((pt_marker pt =? 0) || (pt_marker pt <? fst e))%Z then set pts (snd e) (mkPoint (pt_id pt) (fst e) (pt_coords pt)) else Ok pts.
Lemma foldM_ext {A B} (f g : B -> A -> res B) l : (forall b a, In a l -> f b a = g b a) -> forall b, foldM f l b = foldM g l b.
Proof. induction l as [|a l IH]; intros H b; [reflexivity|]. cbn [foldM]. rewrite H by now left. destruct (g b a); cbn [bind]; auto. apply IH. intros. apply H. now right. Qed.
Lemma foldM_map {A B C} (f : B -> C -> res B) (g : A -> C) l : forall b, foldM f (map g l) b = foldM (fun b a => f b (g a)) l b.
Proof. induction l as [|a l IH]; intros b; [reflexivity|]. cbn [map foldM]. destruct (f b (g a)); cbn [bind]; auto. Qed.
Lemma foldM_flat {A B C} (f : B -> C -> res B) (g : A -> list C) l : forall b, foldM f (flat_map g l) b = foldM (fun b a => foldM f (g a) b) l b.
Proof. induction l as [|a l IH]; intros b; [reflexivity|]. cbn [flat_map foldM]. rewrite foldM_app. destruct (foldM f (g a) b); cbn [bind]; auto. Qed.
Lemma firstn_seq {A} (l : list A) d : forall k, k <= List.length l -> firstn k l = map (fun i => nth i l d) (seq 0 k).
Proof.
  induction l as [|a l IH]; intros [|k] H; try (simpl in H; lia); [reflexivity..|]. cbn [firstn seq map nth]. f_equal. rewrite <- seq_shift, map_map. apply IH. simpl in H. lia.
Qed.
Lemma mark_flat k faces pts : (forall f, In f faces -> k <= List.length (snd f)) -> mark_points k faces pts = foldM mark1 (face_hits k faces) pts.
Proof.
  intros H. unfold mark_points, face_hits. rewrite foldM_flat. apply foldM_ext. intros b f Hf. rewrite foldM_map. specialize (H f Hf).
  rewrite (firstn_seq (snd f) 0 k H), foldM_map. apply foldM_ext. intros b' i Hi. apply in_seq in Hi. rewrite (get_ok (snd f) i 0) by lia. reflexivity.
Qed.
Definition final (l : list (Z * nat)) (q : nat) (c : Z) : Z :=
  fold_left (fun c e => if snd e =? q then (if ((c =? 0) || (c <? fst e))%Z then fst e else c) else c) l c.
Lemma mark_run l : forall pts, (forall e, In e l -> snd e < List.length pts) ->
  exists pts', foldM mark1 l pts = Ok pts' /\ List.length pts' = List.length pts /\
    forall q pt, nth_error pts q = Some pt -> nth_error pts' q = Some (mkPoint (pt_id pt) (final l q (pt_marker pt)) (pt_coords pt)).
Proof.
  induction l as [|e l IH]; intros pts H.
  - exists pts. split; [reflexivity|]. split; [auto|]. intros q [? ? ?] Hq. exact Hq.
  - assert (He : snd e < List.length pts) by (apply H; now left). destruct (nth_error pts (snd e)) as [pe|] eqn:Ee; [|apply nth_error_None in Ee; lia].
    assert (exists pts1, mark1 pts e = Ok pts1 /\ List.length pts1 = List.length pts /\
      forall q pt, nth_error pts q = Some pt -> nth_error pts1 q = Some (mkPoint (pt_id pt) (final [e] q (pt_marker pt)) (pt_coords pt))) as (pts1 & E1 & L1 & N1).
    { unfold mark1. replace (get pts (snd e)) with (Ok pe) by (unfold get; now rewrite Ee). cbn [bind].
      destruct ((pt_marker pe =? 0) || (pt_marker pe <? fst e))%Z eqn:Ec.
      - rewrite set_ok by auto. eexists. split; [reflexivity|]. rewrite upd_length. split; [auto|]. intros q pt Hq. unfold final. cbn [fold_left].
        assert (Lq : q < List.length pts) by (apply nth_error_Some; congruence).
        rewrite (nth_error_nth' _ pt) by (rewrite upd_length; auto). rewrite nth_upd by auto. f_equal. destruct (Nat.eqb_spec (snd e) q) as [<-|N].
        + rewrite Ee in Hq. injection Hq as <-. rewrite Ec. reflexivity.
        + rewrite (nth_error_nth _ _ pt Hq). destruct pt; reflexivity.
      - exists pts. split; [reflexivity|]. split; [auto|]. intros q pt Hq. unfold final. cbn [fold_left]. destruct (Nat.eqb_spec (snd e) q) as [<-|N].
        + rewrite Ee in Hq. injection Hq as <-. rewrite Ec. rewrite Ee. destruct pe; reflexivity.
        + rewrite Hq. destruct pt; reflexivity. }
    destruct (IH pts1) as (pts2 & E2 & L2 & N2); [intros x Hx; rewrite L1; apply H; now right|].
    exists pts2. split; [cbn [foldM]; rewrite E1; exact E2|]. split; [congruence|]. intros q pt Hq. rewrite (N2 q _ (N1 q pt Hq)). reflexivity.
Qed.
Lemma final_spec q : forall l c, (forall e, In e l -> fst e <> 0%Z) -> let z := final l q c in
  (z = c \/ In (z, q) l) /\ (c <> 0%Z -> (c <= z)%Z /\ z <> 0%Z) /\ (forall mk, In (mk, q) l -> (mk <= z)%Z /\ z <> 0%Z).
Proof.
  induction l as [|e l IH]; intros c H; cbv zeta.
  - unfold final. cbn [fold_left]. split; [auto|]. split; [intros; split; [lia|auto]|intros mk []].
  - set (c1 := final [e] q c). assert (E : final (e :: l) q c = final l q c1) by reflexivity. rewrite E.
    destruct (IH c1) as (A & B & C); [intros x Hx; apply H; now right|]. cbv zeta in *. pose proof (H e (or_introl eq_refl)) as He.
    destruct e as [mk p]. cbn [fst] in He. unfold c1, final in *. cbn [fold_left fst snd] in *. destruct (Nat.eqb_spec p q) as [->|N].
    + destruct (Z.eqb_spec c 0) as [->|Nc]; cbn [orb] in *.
      * split; [destruct A as [A|A]; [right; left; congruence|right; now right]|]. split; [congruence|]. intros k [Ek|Hk]; [|auto]. injection Ek as <-. now apply B.
      * destruct (Z.ltb_spec c mk) as [L|L].
        -- split; [destruct A as [A|A]; [right; left; congruence|right; now right]|]. destruct (B He) as (B1 & B2). split; [intros; split; [lia|auto]|].
           intros k [Ek|Hk]; [injection Ek as <-; auto|auto].
        -- split; [destruct A as [A|A]; [auto|right; now right]|]. split; [auto|]. destruct (B Nc) as (B1 & B2). intros k [Ek|Hk]; [injection Ek as <-; split; [lia|auto]|auto].
    + split; [destruct A as [A|A]; [auto|right; now right]|]. split; [auto|]. intros k [Ek|Hk]; [congruence|auto].
Qed.

(* the mesh *)
Section Run3.
Variable gen3 : tet_in -> bool -> option R -> option R -> res tet_out.
Variables (rmin rmax thickness : R) (nr na : nat) (target : geokind) (gmv : option R).
Hypothesis Hr : 1 <= nr. Hypothesis Ha : 1 <= na. Hypothesis Ht : target = Tet4 \/ target = Tet10. Hypothesis Hz : (0 < thickness)%R.
Notation ring ren := (quarter_ring_3d gen3 rmin rmax thickness nr na target gmv ren).
Definition o2_of (k : geokind) : bool := (4 <? kind_nnode k).
Lemma ring3_unfold ren : ring ren =
  let! t := ring_input_3d rmin rmax thickness nr na in
  let! out := gen3 t (o2_of target) gmv None in
  let! m := from_tetgen out in
  let! pts := mark_points (if o2_of target then 6 else 3) (eo_faces out) (points m) in
  maybe_renumbered ren (apply_constraints (mkMesh (ndim m) pts (cells m) (marked_edges m) (marked_faces m)) rmin rmax).
Proof.
  unfold quarter_ring_3d. rewrite (proj2 (Nat.ltb_ge nr 1)), (proj2 (Nat.ltb_ge na 1)) by auto.
  unfold Rleb. destruct (Rle_dec thickness 0) as [Z|_]; [lra|]. destruct Ht as [-> | ->]; reflexivity.
Qed.
Lemma ring3_renumber : ring true = (let! m := ring false in renumber_mesh m false).
Proof.
  rewrite !ring3_unfold. destruct (ring_input_3d rmin rmax thickness nr na) as [t| | |]; cbn [bind]; auto.
  destruct (gen3 t (o2_of target) gmv None) as [out| | |]; cbn [bind]; auto. destruct (from_tetgen out) as [m| | |]; cbn [bind]; auto.
  destruct (mark_points _ _ _) as [pts| | |]; cbn [bind]; auto.
Qed.

Definition tet_in_range (out : tet_out) : Prop :=
  (forall o p, In o (eo_cells out) -> In p (snd o) -> p < List.length (eo_points out)) /\
  (forall f p, In f (eo_faces out) -> In p (snd f) -> p < List.length (eo_points out)).
Lemma tet_points_nth out i : nth_error (tet_points out) i = match nth_error (eo_points out) i with Some (mk, x, y, z) => Some (mkPoint i (tet_marker mk) [x; y; z]) | None => None end.
Proof.
  unfold tet_points. destruct (nth_error (eo_points out) i) as [[[[mk x] y] z]|] eqn:E.
  - assert (Hi : (i < List.length (eo_points out))%nat) by (apply nth_error_Some; congruence).
    erewrite map_nth_error; [|apply nth_error_nth' with (d := 0%nat); rewrite seq_length; auto]. rewrite seq_nth by auto.
    cbn [Nat.add]. now rewrite (nth_error_nth _ _ (0%Z, 0%R, 0%R, 0%R) E).
  - apply nth_error_None. rewrite map_length, seq_length. now apply nth_error_None.
Qed.
Lemma from_tetgen_valid t m : tet_fine t -> tet_in_range t -> from_tetgen t = Ok m -> consistent m /\ coords_complete m.
Proof.
  intros F (Rg & _) E. destruct (from_tetgen_ok t F) as (m' & E' & Dm & Pm & Hc & _). rewrite E' in E. injection E as ->. clear E'.
  destruct F as (_ & _ & Hn & Ho & _). split; [split|].
  - intros i p Hp. rewrite Pm, tet_points_nth in Hp. destruct (nth_error (eo_points t) i) as [[[[? ?] ?] ?]|]; [|discriminate]. injection Hp as <-. reflexivity.
  - intros i c Hi. destruct (holds_all _ _ _ Hc i c Hi) as (mk & ps & Eo & ->). cbn [c_id c_points c_kind]. apply nth_error_In in Eo. split; [auto|]. split.
    + specialize (Ho _ Eo). cbn [snd] in Ho. rewrite Ho. destruct Hn as [-> | ->]; reflexivity.
    + intros q Hq. rewrite Pm. unfold tet_points. rewrite map_length, seq_length. apply (Rg _ q Eo Hq).
  - intros p Hp. rewrite Pm in Hp. rewrite Dm. unfold tet_points in Hp. apply in_map_iff in Hp. destruct Hp as (i & <- & _).
    destruct (nth i (eo_points t) (0%Z, 0%R, 0%R, 0%R)) as [[[? ?] ?] ?]. reflexivity.
Qed.

Lemma ring3_result t out : (0 <= rmin)%R -> (0 <= rmax)%R -> ring_input_3d rmin rmax thickness nr na = Ok t -> gen3 t (o2_of target) gmv None = Ok out ->
  tet_fine out -> tet_in_range out -> (forall f, In f (eo_faces out) -> fst f <> 0%Z /\ (if o2_of target then 6 else 3) <= List.length (snd f)) ->
  exists m, ring false = Ok m /\ consistent m /\ coords_complete m /\ ndim m = 3 /\
    holds_cells (eo_cells out) (if (eo_nnode out =? 10) then Tet10 else Tet4) m /\ marked_edges m = [] /\
    marked_faces m = map tet_face (eo_faces out) /\ List.length (points m) = List.length (eo_points out) /\
    forall i mk x y z, nth_error (eo_points out) i = Some (mk, x, y, z) -> exists pt, nth_error (points m) i = Some pt /\
      let hit := on_face (if o2_of target then 6 else 3) (eo_faces out) in
      (pt_marker pt = tet_marker mk \/ hit (pt_marker pt) i) /\
      (tet_marker mk <> 0%Z -> (tet_marker mk <= pt_marker pt)%Z /\ pt_marker pt <> 0%Z) /\
      (forall f, hit f i -> (f <= pt_marker pt)%Z /\ pt_marker pt <> 0%Z) /\
      placed rmin rmax (mkPoint i (pt_marker pt) [x; y; z]) pt.
Proof.
  intros H0 H1 E1 E2 F Rg HF. destruct (from_tetgen_ok out F) as (m0 & E3 & D0 & P0 & C0 & ME & MF).
  destruct (from_tetgen_valid out m0 F Rg E3) as (V1 & V2).
  assert (LP : List.length (points m0) = List.length (eo_points out)) by (rewrite P0; unfold tet_points; now rewrite map_length, seq_length).
  set (k := if o2_of target then 6 else 3) in *.
  destruct (mark_run (face_hits k (eo_faces out)) (points m0)) as (pts & E4 & L4 & N4).
  { intros [mk q] He. apply hits_in in He. destruct He as (f & Hf & _ & Hq). cbn [snd]. rewrite LP. apply (proj2 Rg f q Hf). rewrite <- (firstn_skipn k (snd f)). apply in_or_app. now left. }
  rewrite <- (mark_flat k (eo_faces out)) in E4 by (intros; now apply HF).
  rewrite ring3_unfold, E1. cbn [bind]. rewrite E2. cbn [bind]. rewrite E3. cbn [bind]. fold k. rewrite E4. cbn [bind]. unfold maybe_renumbered.
  set (m1 := mkMesh _ _ _ _ _). assert (NZ : forall e, In e (face_hits k (eo_faces out)) -> fst e <> 0%Z).
  { intros [mk q] He. apply hits_in in He. destruct He as (f & Hf & <- & _). now apply HF. }
  assert (PT : forall q pt1, nth_error pts q = Some pt1 -> exists pt, nth_error (points m0) q = Some pt /\ pt1 = mkPoint (pt_id pt) (final (face_hits k (eo_faces out)) q (pt_marker pt)) (pt_coords pt)).
  { intros q pt1 Hq. destruct (nth_error (points m0) q) as [pt|] eqn:Eq.
    - exists pt. split; [auto|]. rewrite (N4 q pt Eq) in Hq. congruence.
    - apply nth_error_None in Eq. assert (q < List.length pts) by (apply nth_error_Some; congruence). lia. }
  assert (V : consistent m1 /\ coords_complete m1).
  { split; [split|].
    - intros i p Hp. cbn [m1 points] in Hp. destruct (PT i p Hp) as (pt & E & ->). cbn [pt_id]. exact (proj1 V1 i pt E).
    - intros i c Hc. cbn [m1 points cells] in *. rewrite L4. exact (proj2 V1 i c Hc).
    - intros p Hp. cbn [m1 points ndim] in *. apply In_nth_error in Hp. destruct Hp as (i & Hi). destruct (PT i p Hi) as (pt & E & ->). cbn [pt_coords]. apply V2. eapply nth_error_In; eauto. }
  destruct (constraints_valid m1 rmin rmax (proj1 V) (proj2 V)) as (W1 & W2).
  eexists. split; [reflexivity|]. split; [exact W1|]. split; [exact W2|]. split; [exact D0|]. split; [exact C0|]. split; [exact ME|].
  split; [|split].
  - cbn [apply_constraints marked_faces m1]. rewrite MF. f_equal. clear -HF. induction (eo_faces out) as [|f l IH]; [reflexivity|]. cbn [filter].
    destruct (Z.eqb_spec (fst f) 0) as [E|_]; [exfalso; now apply (HF f (or_introl eq_refl))|]. cbn [negb]. f_equal. apply IH. intros g Hg. apply HF. now right.
  - cbn [apply_constraints points m1]. rewrite map_length. congruence.
  - intros i mk x y z Hi. pose proof (tet_points_nth out i) as T. rewrite Hi, <- P0 in T. pose proof (N4 i _ T) as T1. cbn [pt_id pt_marker pt_coords] in T1.
    cbn [apply_constraints points m1]. rewrite nth_error_map, T1. cbn [option_map]. eexists. split; [reflexivity|]. cbv zeta.
    rewrite (proj1 (proj2 (constrain_basic _ _ _))). cbn [pt_marker]. destruct (final_spec i (face_hits k (eo_faces out)) (tet_marker mk) NZ) as (A & B & C). cbv zeta in *.
    split; [destruct A as [A|A]; [auto|right; now apply hits_in]|]. split; [exact B|]. split; [intros f Hf; apply C; now apply hits_in|].
    apply constrain_placed; auto. simpl. lia.
Qed.
End Run3.

(* a point of an inner or outer face is put on the cylinder *)
Lemma face_on_cylinder k faces i (base z mk : Z) : (forall f, In f faces -> (-10 <= fst f <= -5)%Z) ->
  (base = 0%Z \/ (base <= -5)%Z) -> (z = base \/ on_face k faces z i) -> (forall f, on_face k faces f i -> (f <= z)%Z /\ z <> 0%Z) ->
  on_face k faces mk i -> (mk = -5)%Z -> z = (-5)%Z.
Proof.
  intros HF HB HZ HM H E. destruct (HM mk H) as (A & B). destruct HZ as [->|(f & Hf & Ef & _)]; [lia|]. specialize (HF f Hf). lia.
Qed.
