(* Quarter disks and plates: the blocks. *)
From Coq Require Import String Reals List Lia Lra Bool Arith ZArith Permutation Sorted.
From Verif Require Import Base BaseFacts Kind MeshModel MeshQuerySpec TopoModel TopoSpec TopoMaps TopoProof GeomModel GeomSpec GeomProof GridModel GridSpec GridProof SearchModel SearchSpec SearchProof SearchProof2
  JoinModel JoinSpec JoinProof JoinProof2 JoinProof3 PropJoin ShapesModel ShapesSpec PadModel PadSpec BlockModel BlockSpec BlockProof BlockProof2 BlockProof3 BlockProof10 PropBlock GraphModel GraphVocab PropGraph StructModel StructSpec StructProof StructProof3 StructProof4 RingSpec RingProof2 BlocksSpec BlocksProof BlocksProof2 BlocksProof3 BlocksProof4 BlocksProof5 BlocksProof6 BlocksProof7 DiskModel DiskSpec.
Import ListNotations.
Local Open Scope list_scope.
Local Open Scope R_scope.

(* a block with equal divisions, under construction *)
Record part (zdet : R) (nd : nat) (cs : mat) (dv : list nat) (l : list (nat * condition)) (b : block) : Prop := {
  q_made : made zdet b;
  q_ndim : b_ndim b = nd;
  q_ring : b_ring b = false;
  q_marker : b_marker b = 1%Z;
  q_nodes : holds_nodes nd cs (b_pad b);
  q_ndiv : b_ndiv b = dv;
  q_delta : b_delta b = map uniform dv;
  q_em : b_em b = [];
  q_fm : b_fm b = [];
  q_edges : nd = 2%nat -> forall s c, mget Nat.eqb (b_ec b) s = Some c <-> In (s, In2d c) l;
  q_faces : nd = 3%nat -> forall s c, mget Nat.eqb (b_fc b) s = Some c <-> In (s, In3d c) l }.

Section Parts.
Variable zdet : R.
Hypothesis Hz : 0 <= zdet.

Definition flat (nd : nat) (cs : mat) : Prop := exists d, det_center nd cs d /\ d <= zdet.
Lemma part_new nd cs : good_size nd cs -> rect nd cs ->
  (exists b, block_new zdet nd cs = Ok b /\ part zdet nd cs (repeat 2%nat nd) [] b) \/ flat nd cs /\ exists msg, block_new zdet nd cs = Err msg.
Proof.
  intros G Rc. destruct (C62_new zdet nd cs Hz G Rc) as (d & D & A & B). destruct (Rle_or_lt d zdet) as [L|L]; [right; split; [exists d; auto|exact (B L)]|]. left.
  destruct (A L) as (b & E & F1 & F2 & F3 & F4 & F5 & F6 & F7 & F8 & F9 & _ & _ & _ & F10). exists b. split; [exact E|]. constructor; try assumption.
  - exact (made_new _ _ _ _ E).
  - rewrite F3. assert (U : uniform 2 = [1; 1]) by (unfold uniform; cbn; f_equal; [lra|f_equal; lra]). clear - U. induction nd as [|k IH]; [reflexivity|]. cbn [repeat map]. rewrite U, IH. reflexivity.
  - intros _ s c. rewrite F4. cbn. split; [discriminate|intros []].
  - intros _ s c. rewrite F5. cbn. split; [discriminate|intros []].
Qed.
Lemma part_div nd cs dv l b dv' : part zdet nd cs dv l b -> List.length dv' = nd ->
  ((forall n, In n dv' -> (1 <= n)%nat) -> exists b', call (set_ndiv b dv') = Ok b' /\ part zdet nd cs dv' l b') /\
  (In 0%nat dv' -> exists msg, call (set_ndiv b dv') = Err msg).
Proof.
  intros P L. destruct (C54_set_ndiv zdet b dv' Hz (q_made _ _ _ _ _ _ P)) as (I & A & _). pose proof (q_ndim _ _ _ _ _ _ P) as Nd. split.
  - intros H. destruct (A ltac:(congruence) H) as (b' & E & (S1 & S2 & S3 & S4 & S5 & S6 & S7 & S8 & S9) & D1 & D2). exists b'. rewrite E. split; [reflexivity|].
    assert (M : made zdet b'). { pose proof (made_ndiv zdet b dv' (q_made _ _ _ _ _ _ P)) as M. rewrite E in M. exact M. }
    destruct P. constructor; try congruence; try (rewrite S7; assumption).
    + intros Y. rewrite S3. auto.
    + intros Y. rewrite S4. auto.
  - intros H0. destruct (In_split _ _ H0) as (u & v & _). assert (X : exists i, nth_error dv' i = Some 0%nat /\ forall j n, (j < i)%nat -> nth_error dv' j = Some n -> (1 <= n)%nat).
    { clear - H0. induction dv' as [|n r IH]; [destruct H0|]. destruct n as [|n]; [exists 0%nat; split; [reflexivity|intros; lia]|]. destruct H0 as [X|X]; [discriminate X|]. destruct (IH X) as (i & E & F). exists (S i). split; [exact E|]. intros [|j] k Hj Ek; [injection Ek as <-; lia|]. apply (F j k); [lia|exact Ek]. }
    destruct X as (i & E & F). destruct (C54_partly zdet b dv' i Hz (q_made _ _ _ _ _ _ P) ltac:(congruence) E F) as (msg & b' & Er & _). exists msg. rewrite Er. reflexivity.
Qed.
Lemma part_edge cs dv l b e c : part zdet 2 cs dv l b -> (e < 4)%nat -> (forall c', ~ In (e, c') l) ->
  exists b', call (set_edge_constraint b e (Some c)) = Ok b' /\ part zdet 2 cs dv ((e, In2d c) :: l) b'.
Proof.
  intros P He Fr. destruct (C47_edge_setter b e (Some c)) as (A & _). destruct A as (b' & E & G & W); [split; [exact (q_ndim _ _ _ _ _ _ P)|exact He]|]. exists b'. rewrite E. split; [reflexivity|].
  assert (M : made zdet b'). { pose proof (made_ec zdet b e (Some c) (q_made _ _ _ _ _ _ P)) as M. rewrite E in M. exact M. }
  destruct P. constructor; try (rewrite W; assumption); try assumption; [|discriminate].
  intros _ s c'. rewrite G. destruct (Nat.eqb_spec s e) as [-> |Ne].
  - split; [intros X; injection X as ->; left; reflexivity|intros [X|X]; [injection X as ->; reflexivity|destruct (Fr _ X)]].
  - rewrite q_edges0 by reflexivity. split; [right; assumption|intros [X|X]; [injection X; congruence|exact X]].
Qed.
Lemma part_face cs dv l b e c : part zdet 3 cs dv l b -> (e < 6)%nat -> (forall c', ~ In (e, c') l) ->
  exists b', call (set_face_constraint b e (Some c)) = Ok b' /\ part zdet 3 cs dv ((e, In3d c) :: l) b'.
Proof.
  intros P He Fr. destruct (C47_face_setter b e (Some c)) as (A & _). destruct A as (b' & E & G & W); [split; [exact (q_ndim _ _ _ _ _ _ P)|exact He]|]. exists b'. rewrite E. split; [reflexivity|].
  assert (M : made zdet b'). { pose proof (made_fc zdet b e (Some c) (q_made _ _ _ _ _ _ P)) as M. rewrite E in M. exact M. }
  destruct P. constructor; try (rewrite W; assumption); try assumption; [discriminate|].
  intros _ s c'. rewrite G. destruct (Nat.eqb_spec s e) as [-> |Ne].
  - split; [intros X; injection X as ->; left; reflexivity|intros [X|X]; [injection X as ->; reflexivity|destruct (Fr _ X)]].
  - rewrite q_faces0 by reflexivity. split; [right; assumption|intros [X|X]; [injection X; congruence|exact X]].
Qed.

(* the conditions are of the right kind, on opposite sides *)
Definition fit_sides (nd : nat) (l : list (nat * condition)) : Prop :=
  (forall s c, In (s, c) l -> (s < nsides nd)%nat /\ if (nd =? 2)%nat then exists c', c = In2d c' else exists c', c = In3d c') /\
  forall s s' c c', In (s, c) l -> In (s', c') l -> s <> s' -> side_axis nd s = side_axis nd s'.
Definition nothing (_ : nat) (_ : Z) : Prop := False.
Lemma part_region nd cs dv l b : part zdet nd cs dv l b -> good_size nd cs -> List.length dv = nd -> (forall n, In n dv -> (1 <= n)%nat) -> fit_sides nd l ->
  of_region zdet nd nothing nothing (piece cs dv l) b.
Proof.
  intros P (Hnd & G) L Pos (F1 & F2). assert (Sd : side_facts nd (piece cs dv l) b).
  { destruct Hnd as [-> | ->].
    - apply sides_2d; cbn [g_sides piece]; [exact (q_ndim _ _ _ _ _ _ P)|exact (q_edges _ _ _ _ _ _ P eq_refl)|exact F1|exact F2].
    - apply sides_3d; cbn [g_sides piece]; [exact (q_ndim _ _ _ _ _ _ P)|exact (q_faces _ _ _ _ _ _ P eq_refl)|exact F1|exact F2]. }
  destruct P. constructor; cbn [g_marker g_weights g_nodes piece]; try assumption; try apply Sd.
  - rewrite map_length. exact L.
  - intros w Iw. apply in_map_iff in Iw as (n & <- & In_). rewrite sum_ones. specialize (Pos n In_). apply le_INR in Pos. exact Pos.
  - rewrite q_ndiv0. unfold divs. cbn [g_weights piece]. rewrite map_map. clear. induction dv as [|n r IH]; [reflexivity|]. cbn [map]. rewrite repeat_length, <- IH. reflexivity.
  - intros a Ha. unfold widths. rewrite q_delta0. assert (X : nth a (map (repeat 1) dv) [] = repeat 1 (nth a dv 0%nat)) by (rewrite <- (map_nth (repeat 1)); reflexivity). rewrite X.
    assert (Y : nth a (map uniform dv) [] = uniform (nth a dv 0%nat)) by (rewrite <- (map_nth uniform); reflexivity). rewrite Y. set (n := nth a dv 0%nat). unfold weighted, uniform. rewrite !repeat_length. split; [reflexivity|]. intros i Hi.
    rewrite !nth_repeat' by exact Hi. rewrite sum_ones. unfold Rdiv. lra.
  - destruct Hnd as [-> | ->]; exact G.
  - intros e mk. rewrite q_em0. cbn. split; [discriminate|intros []].
  - intros e mk. rewrite q_fm0. cbn. split; [discriminate|intros []].
Qed.
End Parts.

(* ---------------------------------------------------------------- the mesh of some blocks *)
Section Meshes.
Variables (zdet : R) (shp : list nat -> list nat) (shuffle : emap -> emap) (sh : container -> container) (shc : list (nat * nat) -> list (nat * nat)).
Hypothesis Hz : 0 <= zdet.
Hypothesis AO : any_order shp shuffle sh.
Hypothesis P2 : forall l, Permutation (shc l) l.
Variables (nd : nat) (target : geokind).
Hypothesis Hnd : (nd = 2 \/ nd = 3)%nat.
Variables (gs : list region) (bs : list block).
Hypothesis Of : Forall2 (of_region zdet nd nothing nothing) gs bs.
Hypothesis Fine : regions_fine (tolR nd) target gs.

Lemma block_fits g b mi : of_region zdet nd nothing nothing g b -> subdivide sh shc b target = Ok mi -> kind_class target = if (nd =? 2)%nat then CQua else CHex.
Proof.
  intros O E. assert (Dc : forall c1 c2 : geoclass, {c1 = c2} + {c1 <> c2}) by decide equality. destruct (Dc (kind_class target) (if (b_ndim b =? 2)%nat then CQua else CHex)) as [X|X]; [rewrite (o_ndim _ _ _ _ _ _ O) in X; exact X|].
  destruct (C45_wrong_class zdet sh shc b target Hz (o_made _ _ _ _ _ _ O) X) as (msg & Er). rewrite Er in E. discriminate E.
Qed.
Lemma blocks_meshed ms : mapM (fun b => subdivide sh shc b target) bs = Ok ms ->
  Forall2 (fun g mi => region_mesh nd target nothing nothing g mi) gs ms /\ (bs <> [] -> kind_class target = if (nd =? 2)%nat then CQua else CHex).
Proof.
  intros H. apply mapM_ok in H. revert ms H Fine. induction Of as [|g b gs' bs' O Os IH]; intros ms H Fi; inversion H as [|? mi ? ms' E H']; subst; [split; [constructor|congruence]|].
  pose proof (block_fits g b mi O E) as K. split; [|intros _; exact K]. constructor.
  - apply (region_meshed zdet sh shc Hz (proj2 (proj2 AO)) P2 nd _ _ g b target O); [|unfold fits; rewrite (o_ndim _ _ _ _ _ _ O); exact K|exact E]. intros w Iw. eapply Fi; [left; reflexivity|exact Iw].
  - apply IH; [exact Os|exact H'|intros g' w Ig; apply Fi; right; exact Ig].
Qed.

Lemma blocks_done m renumber : mesh_blocks shp shuffle sh shc bs target renumber = Ok m ->
  kind_class target = (if (nd =? 2)%nat then CQua else CHex) /\ consistent m /\ coords_complete m /\ all_used m /\ marked_edges m = [] /\ marked_faces m = [] /\ built nd (tolR nd) target gs m.
Proof.
  intros H. unfold mesh_blocks in H. apply bind_ok in H as (ms & H1 & H). apply bind_ok in H as (m' & H2 & H3). destruct (blocks_meshed ms H1) as (F & K).
  set (EM := fun (_ : region) (_ : nat) (_ : Z) => False).
  destruct (joined_maps shp shuffle (proj1 (proj2 AO)) sh (proj2 (proj2 AO)) nd target gs ms m' Hnd EM EM F H2) as (V & N & L2 & _ & fs & Mv).
  split. { apply K. intros ->. apply Forall2_nth in Of as (L & _). cbn in L. lia. }
  destruct (whole shp shuffle sh AO target nd EM EM gs ms m' m renumber Hnd F H2 H3) as (W1 & W2 & W3 & W4). split; [exact W1|]. split; [exact W2|]. split; [exact W3|].
  assert (X : marked_edges m' = [] /\ marked_faces m' = []).
  { destruct (maps_edges nd target gs ms m' Hnd EM EM F fs Mv) as (A & _). destruct (maps_faces nd target gs ms m' Hnd EM EM F fs Mv) as (B & _). split.
    - destruct (marked_edges m') as [|[[mk x] y] l]; [reflexivity|]. destruct (A mk x y (or_introl eq_refl)) as (_ & i & (g & e & p & q & _ & [] & _) & _).
    - destruct (marked_faces m') as [|q l]; [reflexivity|]. destruct (B q (or_introl eq_refl)) as (_ & i & (g & e & p & _ & [] & _) & _). }
  destruct X as (X1 & X2). assert (Y : marked_edges m = marked_edges m' /\ marked_faces m = marked_faces m').
  { destruct renumber; cbn in H3; [|injection H3 as <-; auto]. destruct V as (V1 & V2 & _).
    assert (Wf : well_formed m'). { split; [|exact V2]. intros c p Ic Ip. apply In_nth_error in Ic as (i & Ic). destruct V1 as (_ & V1). apply (proj2 (proj2 (V1 i c Ic))). exact Ip. }
    destruct (C08_renumber_mesh R m' m false Wf H3) as (o & _ & _ & M1 & M2). auto. }
  destruct Y as (-> & ->). split; [exact X1|]. split; [exact X2|exact W4].
Qed.

(* every block is subdivided *)
Lemma blocks_total : (forall g, In g gs -> off_center nd target g) -> kind_class target = (if (nd =? 2)%nat then CQua else CHex) ->
  exists ms, Forall2 (fun g mi => region_mesh nd target nothing nothing g mi) gs ms /\ mapM (fun b => subdivide sh shc b target) bs = Ok ms.
Proof.
  intros Off K. assert (X : exists ms, mapM (fun b => subdivide sh shc b target) bs = Ok ms).
  { apply mapM_all. intros b Ib. apply In_nth_error in Ib as (i & Ib). pose proof Of as Of'. apply Forall2_nth in Of' as (L & A).
    destruct (nth_error gs i) as [g|] eqn:Eg; [|apply nth_error_None in Eg; assert (i < List.length bs)%nat by (apply nth_error_Some; congruence); lia].
    eapply all_meshed; [exact Hz|apply AO|exact P2|exact (A i g b Eg Ib)|apply Off; eapply nth_error_In; exact Eg|exact K|]. intros w Iw. eapply Fine; [eapply nth_error_In; exact Eg|exact Iw]. }
  destruct X as (ms & E). exists ms. split; [apply blocks_meshed; exact E|exact E].
Qed.
Lemma blocks_class : bs <> [] -> kind_class target <> (if (nd =? 2)%nat then CQua else CHex) -> forall renumber, exists msg, mesh_blocks shp shuffle sh shc bs target renumber = Err msg.
Proof.
  clear Fine. intros Ne K renumber. destruct bs as [|b bs']; [congruence|]. inversion Of as [|g ? ? ? O]; subst. destruct (C45_wrong_class zdet sh shc b target Hz (o_made _ _ _ _ _ _ O)) as (msg & Er); [unfold fits; rewrite (o_ndim _ _ _ _ _ _ O); exact K|].
  exists msg. unfold mesh_blocks. cbn [mapM]. rewrite Er. reflexivity.
Qed.
End Meshes.
