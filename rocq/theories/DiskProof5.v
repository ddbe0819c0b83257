(* Outcomes of the quarter disks and plates with a hole. *)
From Coq Require Import String Reals List Lia Lra Bool Arith ZArith Permutation Sorted.
From Verif Require Import Base BaseFacts Kind GraphModel MeshModel MeshQuerySpec TopoModel TopoSpec TopoMaps TopoProof TopoFeat3 TopoFinal GeomModel GeomSpec GeomProof GridModel GridSpec GridProof SearchModel SearchSpec SearchProof SearchProof2
  JoinModel JoinSpec JoinProof JoinProof2 JoinProof3 PropJoin ShapesModel ShapesSpec PadModel PadSpec PadProof PadProof2 PadProof3 BlockModel BlockSpec BlockProof BlockProof2 BlockProof3 BlockProof10 PropBlock StructModel StructSpec StructProof StructProof4 RingSpec RingProof2 BlocksSpec BlocksProof BlocksProof2 BlocksProof3 BlocksProof4 BlocksProof5 BlocksProof6 BlocksProof7 BlocksProof8 BlocksProof9 ExactSpec ExactProof DiskModel DiskSpec DiskProof DiskProof2 DiskProof3 ShapesProof DiskProof4 PosSpec ExactProof2 StructProof6.
Import ListNotations.
Local Open Scope list_scope.
Local Open Scope R_scope.

Section Six.
Variables (zdet : R) (shp : list nat -> list nat) (shuffle : emap -> emap) (sh : container -> container) (shc : list (nat * nat) -> list (nat * nat)).
Hypothesis Hz : 0 <= zdet.
Variables (target : geokind) (renumber : bool).
Notation mo := (made_or_error zdet shp shuffle sh shc target renumber).

Lemma cases_2d_a r na nb : mo 2%nat [na; nb] (disk_2d (core_a r) (right_a r) (top_a r) r na nb) (quarter_disk_2d_a zdet shp shuffle sh shc r na nb target renumber).
Proof. rewrite fn_2d_a. apply disk_2d_cases; [exact Hz|..]; apply planar_2; [apply planar_core_a|apply planar_right_a|apply planar_top_a]. Qed.
Lemma cases_3d_a r h na nb nz : mo 3%nat [na; nb; nz] (disk_3d (core_a r) (right_a r) (top_a r) r h na nb nz) (quarter_disk_3d_a zdet shp shuffle sh shc r h na nb nz target renumber).
Proof. rewrite fn_3d_a. apply disk_3d_cases; [exact Hz|..]; apply planar_3; [apply planar_core_a|apply planar_right_a|apply planar_top_a]. Qed.
Lemma cases_2d_b a r na nb : a < r -> mo 2%nat [na; nb] (disk_2d (core_b a) (right_b a r) (top_b a r) r na nb) (quarter_disk_2d_b zdet shp shuffle sh shc a r na nb target renumber).
Proof. intros H. rewrite fn_2d_b by exact H. apply disk_2d_cases; [exact Hz|..]; apply planar_2; [apply planar_core_b|apply planar_part|apply planar_part']. Qed.
Lemma cases_3d_b a r h na nb nz : a < r -> mo 3%nat [na; nb; nz] (disk_3d (core_b a) (right_b a r) (top_b a r) r h na nb nz) (quarter_disk_3d_b zdet shp shuffle sh shc a r h na nb nz target renumber).
Proof. intros H. rewrite fn_3d_b by exact H. apply disk_3d_cases; [exact Hz|..]; apply planar_3; [apply planar_core_b|apply planar_part|apply planar_part']. Qed.
Lemma cases_plate_2d r a b na nb n : mo 2%nat [na; nb; n] (plate_2d r a b na nb n) (quarter_plate_hole_2d zdet shp shuffle sh shc r a b na nb n target renumber).
Proof. rewrite fn_plate_2d. apply plate_2d_cases; [exact Hz|..|reflexivity]; apply planar_2; [apply planar_part|apply planar_part|apply planar_far_1|apply planar_far_2]. Qed.
Lemma cases_plate_3d r a b h na nb n nz : mo 3%nat [na; nb; n; nz] (plate_3d r a b h na nb n nz) (quarter_plate_hole_3d zdet shp shuffle sh shc r a b h na nb n nz target renumber).
Proof. rewrite fn_plate_3d. apply plate_3d_cases; [exact Hz|..|reflexivity]; apply planar_3; [apply planar_part|apply planar_part|apply planar_far_1|apply planar_far_2]. Qed.
Lemma small_disk_2d a r na nb : r <= a -> exists msg, quarter_disk_2d_b zdet shp shuffle sh shc a r na nb target renumber = Err msg.
Proof. intros H. unfold quarter_disk_2d_b. destruct (Rleb r a) eqn:E; [|apply Rleb_not in E; lra]. eexists. reflexivity. Qed.
Lemma small_disk_3d a r h na nb nz : r <= a -> exists msg, quarter_disk_3d_b zdet shp shuffle sh shc a r h na nb nz target renumber = Err msg.
Proof. intros H. unfold quarter_disk_3d_b. destruct (Rleb r a) eqn:E; [|apply Rleb_not in E; lra]. eexists. reflexivity. Qed.
End Six.

Lemma dv_disk_2d c1 c2 c3 r na nb g : In g (disk_2d c1 c2 c3 r na nb) -> exists dv, g_weights g = map (repeat 1) dv /\ incl dv [na; nb].
Proof. unfold disk_2d. cbn [In]. intros [<-|[<-|[<-|[]]]]; eexists; (split; [reflexivity|]); intros n I; cbn in I |- *; tauto. Qed.
Lemma dv_disk_3d c1 c2 c3 r h na nb nz g : In g (disk_3d c1 c2 c3 r h na nb nz) -> exists dv, g_weights g = map (repeat 1) dv /\ incl dv [na; nb; nz].
Proof. unfold disk_3d. cbn [In]. intros [<-|[<-|[<-|[]]]]; eexists; (split; [reflexivity|]); intros n I; cbn in I |- *; tauto. Qed.
Lemma dv_plate_2d r a b na nb n g : In g (plate_2d r a b na nb n) -> exists dv, g_weights g = map (repeat 1) dv /\ incl dv [na; nb; n].
Proof. unfold plate_2d. cbv zeta. cbn [In]. intros [<-|[<-|[<-|[<-|[]]]]]; eexists; (split; [reflexivity|]); intros k I; cbn in I |- *; tauto. Qed.
Lemma dv_plate_3d r a b h na nb n nz g : In g (plate_3d r a b h na nb n nz) -> exists dv, g_weights g = map (repeat 1) dv /\ incl dv [na; nb; n; nz].
Proof. unfold plate_3d. cbv zeta. cbn [In]. intros [<-|[<-|[<-|[<-|[]]]]]; eexists; (split; [reflexivity|]); intros k I; cbn in I |- *; tauto. Qed.

Lemma divs_piece cs dv l : divs (piece cs dv l) = dv.
Proof. unfold divs, piece. cbn [g_weights]. rewrite map_map. rewrite (map_ext _ (fun n => n)) by (intros n; apply repeat_length). apply map_id. Qed.
Lemma cells_disk_2d c1 c2 c3 r na nb : fold_right plus 0%nat (map ncells (disk_2d c1 c2 c3 r na nb)) = (na * na + 2 * na * nb)%nat.
Proof. unfold disk_2d. cbn [map fold_right]. unfold ncells. rewrite !divs_piece. cbn [fold_right]. lia. Qed.
Lemma cells_disk_3d c1 c2 c3 r h na nb nz : fold_right plus 0%nat (map ncells (disk_3d c1 c2 c3 r h na nb nz)) = ((na * na + 2 * na * nb) * nz)%nat.
Proof. unfold disk_3d. cbn [map fold_right]. unfold ncells. rewrite !divs_piece. cbn [fold_right]. lia. Qed.
Lemma cells_plate_2d r a b na nb n : fold_right plus 0%nat (map ncells (plate_2d r a b na nb n)) = (2 * (na + nb) * n)%nat.
Proof. unfold plate_2d. cbv zeta. cbn [map fold_right]. unfold ncells. rewrite !divs_piece. cbn [fold_right]. lia. Qed.
Lemma cells_plate_3d r a b h na nb n nz : fold_right plus 0%nat (map ncells (plate_3d r a b h na nb n nz)) = (2 * (na + nb) * n * nz)%nat.
Proof. unfold plate_3d. cbv zeta. cbn [map fold_right]. unfold ncells. rewrite !divs_piece. cbn [fold_right]. lia. Qed.

(* ---- nodes on circles ---- *)
Lemma dist2_lip u v u' v' : Rabs (dist2 u v - dist2 u' v') <= dist2 (u - u') (v - v').
Proof.
  assert (T : forall a b c d, dist2 a b <= dist2 c d + dist2 (c - a) (d - b)).
  { intros a b c d. pose proof (triangle 0 0 a b c d) as T. unfold dist_euc, Rsqr in T. unfold dist2.
    replace (a ^ 2 + b ^ 2) with ((0 - a) * (0 - a) + (0 - b) * (0 - b)) by ring. replace (c ^ 2 + d ^ 2) with ((0 - c) * (0 - c) + (0 - d) * (0 - d)) by ring. replace ((c - a) ^ 2 + (d - b) ^ 2) with ((c - a) * (c - a) + (d - b) * (d - b)) by ring. exact T. }
  assert (Sy : dist2 (u' - u) (v' - v) = dist2 (u - u') (v - v')) by (unfold dist2; f_equal; ring).
  pose proof (T u v u' v') as A. pose proof (T u' v' u v) as B. rewrite Sy in A. unfold Rabs. destruct Rcase_abs; lra.
Qed.
Lemma dist2_euclid nd x y : (nd = 2 \/ nd = 3)%nat -> List.length x = nd -> List.length y = nd -> dist2 (nth 0 x 0 - nth 0 y 0) (nth 1 x 0 - nth 1 y 0) <= GeomSpec.euclid x y.
Proof.
  intros Hnd Lx Ly. unfold dist2, GeomSpec.euclid. apply sqrt_le_1_alt.
  destruct Hnd as [-> | ->]; destruct x as [|a [|b [|c [|? ?]]]]; try discriminate Lx; destruct y as [|a' [|b' [|c' [|? ?]]]]; try discriminate Ly; cbn [nth sqdist].
  - right. ring.
  - pose proof (Rle_0_sqr (c - c')) as P. unfold Rsqr in P. replace ((a - a') ^ 2) with ((a - a') * (a - a')) by ring. replace ((b - b') ^ 2) with ((b - b') * (b - b')) by ring. lra.
Qed.
Definition lone_sides (nd : nat) (gs : list region) : Prop := forall g s c s' c', In g gs -> In (s, c) (g_sides g) -> In (s', c') (g_sides g) -> forall x, at_side nd s x -> at_side nd s' x -> c = c'.
Lemma rim_node nd target g idx k y s c : frame_node nd target k -> region_at nd g target idx k y -> In (s, c) (g_sides g) -> at_side nd s (region_ksi g target idx k) ->
  exists s' c' x, In (s', c') (g_sides g) /\ at_side nd s' (region_ksi g target idx k) /\ moved c' x y.
Proof.
  intros Fn At I A. unfold region_at in At. destruct (g_sides g) as [|q l] eqn:Eg; [destruct I|]. rewrite <- Eg in *. clear Eg.
  assert (Nf : ~ free nd (fun s => exists c, In (s, c) (g_sides g)) (region_ksi g target idx k)) by (intros F; apply (F s); [exists c; exact I|exact A]).
  assert (St : settled nd (region_map nd g) (fun s => exists c, In (s, c) (g_sides g)) (fun s x y => exists c, In (s, c) (g_sides g) /\ moved c x y) (region_ksi g target idx k) y).
  { destruct At as ((F1 & F2) & _). destruct Fn as [Fn|(e & j & He & Hj & ->)]; [exact (F1 Fn)|]. destruct (F2 e j He Hj eq_refl) as (X & _). apply X. exact Nf. }
  destruct St as [(s' & _ & A' & c' & I' & Mv)|(F & _)]; [|destruct (Nf F)]. exists s', c', (region_map nd g (region_ksi g target idx k)). auto.
Qed.
Lemma built_rounded nd e target gs m : (nd = 2 \/ nd = 3)%nat -> 0 <= e -> lone_sides nd gs -> built nd e target gs m -> rounded nd e target gs m.
Proof.
  intros Hnd He Ls (_ & _ & B) i g idx c k p s r Eg I Ix Ec Ep Fn A. destruct (B i g idx Eg Ix) as (c' & Ec' & _ & _ & _ & N). rewrite Ec in Ec'. injection Ec' as <-.
  destruct (N k p Ep) as (x & y & X & Lx & Ly & D & At). exists x. split; [exact X|].
  destruct (rim_node nd target g idx k y s _ Fn At I A) as (s' & c' & z & I' & A' & Mv).
  rewrite <- (Ls g s _ s' c' (nth_error_In _ _ Eg) I I' _ A A') in Mv.
  assert (M : dist2 (nth 0 y 0) (nth 1 y 0) = Rabs r).
  { destruct Hnd as [-> | ->]; cbn in Mv; destruct Mv as (_ & Mv); cbn in Mv; rewrite !Rminus_0_r in Mv; exact Mv. }
  rewrite <- M. eapply Rle_trans; [apply dist2_lip|]. eapply Rle_trans; [apply (dist2_euclid nd); assumption|]. destruct (i =? 0)%nat; lra.
Qed.
Lemma lone_disk_2d c1 c2 c3 r na nb : lone_sides 2 (disk_2d c1 c2 c3 r na nb).
Proof. intros g s c s' c'. unfold disk_2d. cbn [In]. intros [<-|[<-|[<-|[]]]]; cbn [g_sides piece In]; intuition congruence. Qed.
Lemma lone_disk_3d c1 c2 c3 r h na nb nz : lone_sides 3 (disk_3d c1 c2 c3 r h na nb nz).
Proof. intros g s c s' c'. unfold disk_3d. cbn [In]. intros [<-|[<-|[<-|[]]]]; cbn [g_sides piece In]; intuition congruence. Qed.
Lemma lone_plate_2d r a b na nb n : lone_sides 2 (plate_2d r a b na nb n).
Proof.
  intros g s c s' c'. unfold plate_2d. cbv zeta. cbn [In]. intros [<-|[<-|[<-|[<-|[]]]]]; cbn [g_sides piece In]; [| |intuition congruence|intuition congruence].
  all: intros [E|[E|[]]] [E'|[E'|[]]]; injection E as <- <-; injection E' as <- <-; intros x; unfold at_side; cbn; try reflexivity; intros X Y; exfalso; lra.
Qed.
Lemma lone_plate_3d r a b h na nb n nz : lone_sides 3 (plate_3d r a b h na nb n nz).
Proof.
  intros g s c s' c'. unfold plate_3d. cbv zeta. cbn [In]. intros [<-|[<-|[<-|[<-|[]]]]]; cbn [g_sides piece In]; [| |intuition congruence|intuition congruence].
  all: intros [E|[E|[]]] [E'|[E'|[]]]; injection E as <- <-; injection E' as <- <-; intros x; unfold at_side; cbn; try reflexivity; intros X Y; exfalso; lra.
Qed.
