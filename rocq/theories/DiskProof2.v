(* Quarter disks and plates: what the functions do before the meshes are joined. *)
From Coq Require Import String Reals List Lia Lra Bool Arith ZArith Permutation Sorted.
From Verif Require Import Base BaseFacts Kind MeshModel MeshQuerySpec TopoModel GeomModel GridModel SearchModel JoinModel PadModel BlockModel BlockSpec
  StructModel StructSpec StructProof6 RingSpec BlocksSpec BlocksProof2 BlocksProof8 DiskModel DiskSpec DiskProof.
Import ListNotations.
Local Open Scope list_scope.
Local Open Scope R_scope.

Lemma polar_0 r : polar r 0 = [r; 0]. Proof. unfold polar. rewrite cos_0, sin_0. leq. Qed.
Lemma polar_2 r : polar r (PI / 2) = [0; r]. Proof. unfold polar. rewrite cos_PI2, sin_PI2. leq. Qed.
Lemma polar_4 r : polar r (PI / 4) = [r * / sqrt 2; r * / sqrt 2].
Proof. unfold polar. rewrite cos_PI4, sin_PI4. unfold Rdiv. leq. Qed.
Lemma polar_38 r : polar r (3 * PI / 8) = [r * sin (PI / 8); r * cos (PI / 8)].
Proof. unfold polar. replace (3 * PI / 8) with (PI / 2 - PI / 8) by field. rewrite cos_shift, sin_shift. reflexivity. Qed.
Lemma sqrt2_nz : sqrt 2 <> 0. Proof. apply Rgt_not_eq, sqrt_lt_R0. lra. Qed.

Ltac coords := rewrite ?polar_0, ?polar_2, ?polar_4, ?polar_38; unfold polar, halfway, SQRT_2, COS_PI_BY_4, ONE_BY_SQRT_2, SIN_PI_BY_8, COS_PI_BY_8; cbn [nth firstn skipn app map];
  pose proof sqrt2_nz; repeat (apply f_equal2; [repeat (apply f_equal2; [field; try assumption|]); reflexivity|]); reflexivity.
Lemma core_a_eq r : core_a r = [[0; 0]; [r / 2; 0]; [115 / 100 * (r / 2) / SQRT_2; 115 / 100 * (r / 2) / SQRT_2]; [0; r / 2]].
Proof. unfold core_a. coords. Qed.
Lemma right_a_eq r : right_a r = [[r / 2; 0]; [r; 0]; [r / SQRT_2; r / SQRT_2]; [115 / 100 * (r / 2) / SQRT_2; 115 / 100 * (r / 2) / SQRT_2]].
Proof. unfold right_a. coords. Qed.
Lemma top_a_eq r : top_a r = [[0; r / 2]; [115 / 100 * (r / 2) / SQRT_2; 115 / 100 * (r / 2) / SQRT_2]; [r / SQRT_2; r / SQRT_2]; [0; r]].
Proof. unfold top_a. coords. Qed.
Lemma core_b_eq a : core_b a = let c1 := a * SIN_PI_BY_8 in let c2 := a * COS_PI_BY_4 in let c3 := a * COS_PI_BY_8 in let m := a / 2 in
  [[0; 0]; [a; 0]; [c2; c2]; [0; a]; [m; 0]; [c3; c1]; [c1; c3]; [0; m]].
Proof. cbv zeta. unfold core_b. coords. Qed.
Lemma part_1_eq r s : ring_part r s 0 (PI / 4) = let c1 := r * SIN_PI_BY_8 in let c2 := r * COS_PI_BY_4 in let c3 := r * COS_PI_BY_8 in let d1 := s * SIN_PI_BY_8 in let d2 := s * COS_PI_BY_4 in let d3 := s * COS_PI_BY_8 in let e := (r + s) / 2 * COS_PI_BY_4 in
  [[r; 0]; [s; 0]; [d2; d2]; [c2; c2]; [(r + s) / 2; 0]; [d3; d1]; [e; e]; [c3; c1]].
Proof. cbv zeta. unfold ring_part. replace ((0 + PI / 4) / 2) with (PI / 8) by field. coords. Qed.
Lemma part_2_eq r s : ring_part r s (PI / 4) (PI / 2) = let c1 := r * SIN_PI_BY_8 in let c2 := r * COS_PI_BY_4 in let c3 := r * COS_PI_BY_8 in let d1 := s * SIN_PI_BY_8 in let d2 := s * COS_PI_BY_4 in let d3 := s * COS_PI_BY_8 in let e := (r + s) / 2 * COS_PI_BY_4 in
  [[c2; c2]; [d2; d2]; [0; s]; [0; r]; [e; e]; [d1; d3]; [0; (r + s) / 2]; [c1; c3]].
Proof. cbv zeta. unfold ring_part. replace ((PI / 4 + PI / 2) / 2) with (3 * PI / 8) by field. coords. Qed.
Lemma part_2'_eq r s : ring_part' r s (PI / 4) (PI / 2) = let c1 := r * SIN_PI_BY_8 in let c2 := r * COS_PI_BY_4 in let c3 := r * COS_PI_BY_8 in let d1 := s * SIN_PI_BY_8 in let d2 := s * COS_PI_BY_4 in let d3 := s * COS_PI_BY_8 in let e := (r + s) / 2 * COS_PI_BY_4 in
  [[0; r]; [c2; c2]; [d2; d2]; [0; s]; [c1; c3]; [e; e]; [d1; d3]; [0; (r + s) / 2]].
Proof. cbv zeta. unfold ring_part'. replace ((PI / 4 + PI / 2) / 2) with (3 * PI / 8) by field. coords. Qed.
Lemma far_1_eq r l : far_1 r l = let d1 := r * SIN_PI_BY_8 in let d2 := r * COS_PI_BY_4 in let d3 := r * COS_PI_BY_8 in
  [[r; 0]; [l; 0]; [l; l]; [d2; d2]; [(r + l) / 2; 0]; [l; l / 2]; [(d2 + l) / 2; (d2 + l) / 2]; [d3; d1]].
Proof. cbv zeta. unfold far_1. coords. Qed.
Lemma far_2_eq r l : far_2 r l = let d1 := r * SIN_PI_BY_8 in let d2 := r * COS_PI_BY_4 in let d3 := r * COS_PI_BY_8 in
  [[d2; d2]; [l; l]; [0; l]; [0; r]; [(d2 + l) / 2; (d2 + l) / 2]; [l / 2; l]; [0; (r + l) / 2]; [d1; d3]].
Proof. cbv zeta. unfold far_2. coords. Qed.

(* the blocks have the right form *)
Definition shaped (nd : nat) (cs : mat) : Prop := good_size nd cs /\ rect nd cs.
Lemma shaped_2d l : List.length l = 4%nat \/ List.length l = 8%nat -> (forall x, In x l -> List.length x = 2%nat) -> shaped 2 l.
Proof. intros L H. split; [split; [left; reflexivity|exact L]|]. intros m Hm. apply H. apply nth_In. exact Hm. Qed.
Lemma shaped_3d h l : List.length l = 4%nat \/ List.length l = 8%nat -> (forall x, In x l -> List.length x = 2%nat) -> shaped 3 (extrude h l).
Proof.
  intros L H. split.
  - split; [right; reflexivity|]. cbn [Nat.eqb]. destruct L as [L|L].
    + left. do 4 (destruct l as [|? l]; [discriminate L|]). destruct l; [reflexivity|discriminate L].
    + right. do 8 (destruct l as [|? l]; [discriminate L|]). destruct l; [reflexivity|discriminate L].
  - intros m Hm. assert (X : forall x, In x (extrude h l) -> List.length x = 3%nat); [|apply X; apply nth_In; exact Hm].
    assert (Z : forall z k, (forall x, In x k -> In x l) -> forall x, In x (map (fun x => x ++ [z]) k) -> List.length x = 3%nat).
    { intros z k Hk x Ix. apply in_map_iff in Ix as (y & <- & Iy). rewrite app_length, (H y (Hk y Iy)). reflexivity. }
    assert (A : forall x, In x (firstn 4 l) -> In x l) by (intros x I; rewrite <- (firstn_skipn 4 l); apply in_or_app; left; exact I).
    assert (B : forall x, In x (skipn 4 l) -> In x l) by (intros x I; rewrite <- (firstn_skipn 4 l); apply in_or_app; right; exact I).
    intros x Ix. unfold extrude in Ix. cbv zeta in Ix. apply in_app_or in Ix as [Ix|Ix]; [eapply Z; [exact A|exact Ix]|]. apply in_app_or in Ix as [Ix|Ix]; [eapply Z; [exact A|exact Ix]|].
    destruct (skipn 4 l) as [|e0 es] eqn:Es; [destruct Ix|]. rewrite <- Es in *. apply in_app_or in Ix as [Ix|Ix]; [eapply Z; [exact B|exact Ix]|]. apply in_app_or in Ix as [Ix|Ix]; [eapply Z; [exact B|exact Ix]|eapply Z; [exact A|exact Ix]].
Qed.

Lemma one_side_2d s c : (s < 4)%nat -> fit_sides 2 [(s, In2d c)].
Proof. intros H. split; [intros s' c' [X|[]]; injection X as <- <-; split; [exact H|eexists; reflexivity]|intros s1 s2 c1 c2 [X|[]] [Y|[]]; congruence]. Qed.
Lemma one_side_3d s c : (s < 6)%nat -> fit_sides 3 [(s, In3d c)].
Proof. intros H. split; [intros s' c' [X|[]]; injection X as <- <-; split; [exact H|eexists; reflexivity]|intros s1 s2 c1 c2 [X|[]] [Y|[]]; congruence]. Qed.
Lemma no_side nd : fit_sides nd []. Proof. split; [intros ? ? []|intros ? ? ? ? []]. Qed.
Lemma two_sides_2d s s' c c' : (s < 4)%nat -> (s' < 4)%nat -> side_axis 2 s = side_axis 2 s' -> fit_sides 2 [(s, In2d c); (s', In2d c')].
Proof. intros H H' A. split; [intros q k [X|[X|[]]]; injection X as <- <-; (split; [assumption|eexists; reflexivity])|intros s1 s2 c1 c2 [X|[X|[]]] [Y|[Y|[]]]; injection X as <- <-; injection Y as <- <-; congruence]. Qed.
Lemma two_sides_3d s s' c c' : (s < 6)%nat -> (s' < 6)%nat -> side_axis 3 s = side_axis 3 s' -> fit_sides 3 [(s, In3d c); (s', In3d c')].
Proof. intros H H' A. split; [intros q k [X|[X|[]]]; injection X as <- <-; (split; [assumption|eexists; reflexivity])|intros s1 s2 c1 c2 [X|[X|[]]] [Y|[Y|[]]]; injection X as <- <-; injection Y as <- <-; congruence]. Qed.

Section Bodies.
Variables (zdet : R) (shp : list nat -> list nat) (shuffle : emap -> emap) (sh : container -> container) (shc : list (nat * nat) -> list (nat * nat)).
Hypothesis Hz : 0 <= zdet.
Variables (target : geokind) (renumber : bool).
Let mesh_blocks bs := mesh_blocks shp shuffle sh shc bs target renumber.

Definition disk_body_2d (c1 c2 c3 : mat) (r : R) (na nb : nat) : res (mesh R) :=
  let! b1 := block_new zdet 2 c1 in
  let! b2 := block_new zdet 2 c2 in
  let! b3 := block_new zdet 2 c3 in
  let! b1 := call (set_ndiv b1 [na; na]) in
  let! b2 := call (set_ndiv b2 [nb; na]) in
  let! b3 := call (set_ndiv b3 [na; nb]) in
  let! b2 := call (set_edge_constraint b2 1 (Some (Circle 0 0 r))) in
  let! b3 := call (set_edge_constraint b3 2 (Some (Circle 0 0 r))) in
  mesh_blocks [b1; b2; b3].
Definition disk_body_3d (c1 c2 c3 : mat) (r : R) (na nb nz : nat) : res (mesh R) :=
  let! b1 := block_new zdet 3 c1 in
  let! b2 := block_new zdet 3 c2 in
  let! b3 := block_new zdet 3 c3 in
  let! b1 := call (set_ndiv b1 [na; na; nz]) in
  let! b2 := call (set_ndiv b2 [nb; na; nz]) in
  let! b3 := call (set_ndiv b3 [na; nb; nz]) in
  let! b2 := call (set_face_constraint b2 1 (Some (CylinderZ 0 0 r))) in
  let! b3 := call (set_face_constraint b3 3 (Some (CylinderZ 0 0 r))) in
  mesh_blocks [b1; b2; b3].
Definition plate_body_2d (c1 c2 c3 c4 : mat) (r ra : R) (na nb n45 : nat) : res (mesh R) :=
  let! b1 := block_new zdet 2 c1 in
  let! b2 := block_new zdet 2 c2 in
  let! b3 := block_new zdet 2 c3 in
  let! b4 := block_new zdet 2 c4 in
  let! b1 := call (set_edge_constraint b1 3 (Some (Circle 0 0 r))) in
  let! b1 := call (set_edge_constraint b1 1 (Some (Circle 0 0 ra))) in
  let! b1 := call (set_ndiv b1 [na; n45]) in
  let! b2 := call (set_edge_constraint b2 3 (Some (Circle 0 0 r))) in
  let! b2 := call (set_edge_constraint b2 1 (Some (Circle 0 0 ra))) in
  let! b2 := call (set_ndiv b2 [na; n45]) in
  let! b3 := call (set_edge_constraint b3 3 (Some (Circle 0 0 ra))) in
  let! b3 := call (set_ndiv b3 [nb; n45]) in
  let! b4 := call (set_edge_constraint b4 3 (Some (Circle 0 0 ra))) in
  let! b4 := call (set_ndiv b4 [nb; n45]) in
  mesh_blocks [b1; b2; b3; b4].
Definition plate_body_3d (c1 c2 c3 c4 : mat) (r ra : R) (na nb n45 nz : nat) : res (mesh R) :=
  let! b1 := block_new zdet 3 c1 in
  let! b2 := block_new zdet 3 c2 in
  let! b3 := block_new zdet 3 c3 in
  let! b4 := block_new zdet 3 c4 in
  let! b1 := call (set_face_constraint b1 0 (Some (CylinderZ 0 0 r))) in
  let! b1 := call (set_face_constraint b1 1 (Some (CylinderZ 0 0 ra))) in
  let! b1 := call (set_ndiv b1 [na; n45; nz]) in
  let! b2 := call (set_face_constraint b2 0 (Some (CylinderZ 0 0 r))) in
  let! b2 := call (set_face_constraint b2 1 (Some (CylinderZ 0 0 ra))) in
  let! b2 := call (set_ndiv b2 [na; n45; nz]) in
  let! b3 := call (set_face_constraint b3 0 (Some (CylinderZ 0 0 ra))) in
  let! b3 := call (set_ndiv b3 [nb; n45; nz]) in
  let! b4 := call (set_face_constraint b4 0 (Some (CylinderZ 0 0 ra))) in
  let! b4 := call (set_ndiv b4 [nb; n45; nz]) in
  mesh_blocks [b1; b2; b3; b4].

(* either the blocks are made, or there is an error *)
Definition made_or_error (nd : nat) (ns : list nat) (gs : list region) (run : res (mesh R)) : Prop :=
  (exists bs, (forall n, In n ns -> (1 <= n)%nat) /\ Forall2 (of_region zdet nd nothing nothing) gs bs /\ run = mesh_blocks bs) \/
  ((In 0%nat ns \/ exists cs, In cs (map g_nodes gs) /\ flat zdet nd cs) /\ exists msg, run = Err msg).

Ltac errs := right; split; [|eexists; reflexivity].
Ltac zero := left; cbn; tauto.
Ltac new_block S Q := let b := fresh "b" in let Fl := fresh "Fl" in let msg := fresh "msg" in
  destruct (part_new zdet Hz _ _ (proj1 S) (proj2 S)) as [(b & -> & Q)|(Fl & msg & ->)]; cbn [bind];
  [|errs; right; eexists; split; [|exact Fl]; cbn; tauto].
Ltac set_div Q l Pos := let A := fresh in let b := fresh "b" in let Q' := fresh in
  destruct (part_div zdet Hz _ _ _ _ _ l Q eq_refl) as (A & _); destruct A as (b & -> & Q'); cbn [bind]; [let i := fresh in let I := fresh in intros i I; apply Pos; cbn in I |- *; tauto|]; clear Q; rename Q' into Q.
Ltac set_edge Q e c := let b := fresh "b" in let Q' := fresh in
  destruct (part_edge zdet _ _ _ _ e c Q) as (b & -> & Q'); [lia|intros c' I; cbn in I; intuition congruence|]; cbn [bind]; clear Q; rename Q' into Q.
Ltac set_face Q e c := let b := fresh "b" in let Q' := fresh in
  destruct (part_face zdet _ _ _ _ e c Q) as (b & -> & Q'); [lia|intros c' I; cbn in I; intuition congruence|]; cbn [bind]; clear Q; rename Q' into Q.
Ltac bad_div Q l H := let A := fresh in let msg := fresh "msg" in
  destruct (part_div zdet Hz _ _ _ _ _ l Q eq_refl) as (_ & A); destruct A as (msg & ->); [cbn; intuition congruence|]; cbn [bind]; errs; zero.

Lemma disk_2d_cases c1 c2 c3 r na nb : shaped 2 c1 -> shaped 2 c2 -> shaped 2 c3 ->
  made_or_error 2 [na; nb] (disk_2d c1 c2 c3 r na nb) (disk_body_2d c1 c2 c3 r na nb).
Proof.
  intros S1 S2 S3. unfold made_or_error, disk_body_2d. new_block S1 Q1. new_block S2 Q2. new_block S3 Q3.
  destruct na as [|na]; [bad_div Q1 [0; 0]%nat I|]. set (k := S na) in *.
  destruct nb as [|nb]. { destruct (part_div zdet Hz _ _ _ _ _ [k; k] Q1 eq_refl) as (A & _). destruct A as (b' & -> & _); [intros n I; cbn in I; unfold k in I; lia|]. cbn [bind]. bad_div Q2 [0; k]%nat I. }
  set (l := S nb) in *. assert (Pos : forall n, In n [k; l] -> (1 <= n)%nat) by (intros n I; cbn in I; unfold k, l in I; lia).
  set_div Q1 [k; k] Pos. set_div Q2 [l; k] Pos. set_div Q3 [k; l] Pos. set_edge Q2 1%nat (Circle 0 0 r). set_edge Q3 2%nat (Circle 0 0 r).
  left. eexists. split; [exact Pos|]. split; [|reflexivity]. unfold disk_2d.
  repeat (apply Forall2_cons; [|try apply Forall2_nil]); apply (part_region zdet); try assumption; try (apply S1 || apply S2 || apply S3); try reflexivity; try (apply one_side_2d; lia); try apply no_side; intros n I; apply Pos; cbn in I |- *; tauto.
Qed.
Lemma disk_3d_cases c1 c2 c3 r h na nb nz : shaped 3 (extrude h c1) -> shaped 3 (extrude h c2) -> shaped 3 (extrude h c3) ->
  made_or_error 3 [na; nb; nz] (disk_3d c1 c2 c3 r h na nb nz) (disk_body_3d (extrude h c1) (extrude h c2) (extrude h c3) r na nb nz).
Proof.
  intros S1 S2 S3. unfold made_or_error, disk_body_3d. new_block S1 Q1. new_block S2 Q2. new_block S3 Q3.
  destruct na as [|na]; [bad_div Q1 [0; 0; nz]%nat I|]. set (k := S na) in *. destruct nz as [|nz]; [bad_div Q1 [k; k; 0]%nat I|]. set (o := S nz) in *.
  destruct nb as [|nb]. { destruct (part_div zdet Hz _ _ _ _ _ [k; k; o] Q1 eq_refl) as (A & _). destruct A as (b' & -> & _); [intros n I; cbn in I; unfold k, o in I; lia|]. cbn [bind]. bad_div Q2 [0; k; o]%nat I. }
  set (l := S nb) in *. assert (Pos : forall n, In n [k; l; o] -> (1 <= n)%nat) by (intros n I; cbn in I; unfold k, l, o in I; lia).
  set_div Q1 [k; k; o] Pos. set_div Q2 [l; k; o] Pos. set_div Q3 [k; l; o] Pos. set_face Q2 1%nat (CylinderZ 0 0 r). set_face Q3 3%nat (CylinderZ 0 0 r).
  left. eexists. split; [exact Pos|]. split; [|reflexivity]. unfold disk_3d.
  repeat (apply Forall2_cons; [|try apply Forall2_nil]); apply (part_region zdet); try assumption; try (apply S1 || apply S2 || apply S3); try reflexivity; try (apply one_side_3d; lia); try apply no_side; intros n I; apply Pos; cbn in I |- *; tauto.
Qed.
Lemma plate_2d_cases c1 c2 c3 c4 gs r ra na nb n : shaped 2 c1 -> shaped 2 c2 -> shaped 2 c3 -> shaped 2 c4 ->
  gs = [piece c1 [na; n] [(1%nat, circle ra); (3%nat, circle r)]; piece c2 [na; n] [(1%nat, circle ra); (3%nat, circle r)]; piece c3 [nb; n] [(3%nat, circle ra)]; piece c4 [nb; n] [(3%nat, circle ra)]] ->
  made_or_error 2 [na; nb; n] gs (plate_body_2d c1 c2 c3 c4 r ra na nb n).
Proof.
  intros S1 S2 S3 S4 ->. unfold made_or_error, plate_body_2d. new_block S1 Q1. new_block S2 Q2. new_block S3 Q3. new_block S4 Q4.
  set_edge Q1 3%nat (Circle 0 0 r). set_edge Q1 1%nat (Circle 0 0 ra).
  destruct na as [|na]; [bad_div Q1 [0; n]%nat I|]. set (k := S na) in *. destruct n as [|n]; [bad_div Q1 [k; 0]%nat I|]. set (o := S n) in *.
  assert (Pk : (1 <= k)%nat) by (unfold k; lia). assert (Po : (1 <= o)%nat) by (unfold o; lia).
  assert (Pos : forall n, In n [k; o] -> (1 <= n)%nat) by (intros i I; cbn in I; lia).
  set_div Q1 [k; o] Pos. set_edge Q2 3%nat (Circle 0 0 r). set_edge Q2 1%nat (Circle 0 0 ra). set_div Q2 [k; o] Pos. set_edge Q3 3%nat (Circle 0 0 ra).
  destruct nb as [|nb]; [bad_div Q3 [0; o]%nat I|]. clear Pos.
  set (l := S nb) in *. assert (Pos : forall n, In n [k; l; o] -> (1 <= n)%nat) by (intros i I; cbn in I; unfold l in I; lia).
  set_div Q3 [l; o] Pos. set_edge Q4 3%nat (Circle 0 0 ra). set_div Q4 [l; o] Pos.
  left. eexists. split; [exact Pos|]. split; [|reflexivity].
  repeat (apply Forall2_cons; [|try apply Forall2_nil]); apply (part_region zdet); try assumption; try (apply S1 || apply S2 || apply S3 || apply S4); try reflexivity; try (apply one_side_2d; lia); try (apply two_sides_2d; [lia|lia|reflexivity]); intros i I; apply Pos; cbn in I |- *; tauto.
Qed.
Lemma plate_3d_cases c1 c2 c3 c4 gs r ra na nb n nz : shaped 3 c1 -> shaped 3 c2 -> shaped 3 c3 -> shaped 3 c4 ->
  gs = [piece c1 [na; n; nz] [(1%nat, cylinder ra); (0%nat, cylinder r)]; piece c2 [na; n; nz] [(1%nat, cylinder ra); (0%nat, cylinder r)]; piece c3 [nb; n; nz] [(0%nat, cylinder ra)]; piece c4 [nb; n; nz] [(0%nat, cylinder ra)]] ->
  made_or_error 3 [na; nb; n; nz] gs (plate_body_3d c1 c2 c3 c4 r ra na nb n nz).
Proof.
  intros S1 S2 S3 S4 ->. unfold made_or_error, plate_body_3d. new_block S1 Q1. new_block S2 Q2. new_block S3 Q3. new_block S4 Q4.
  set_face Q1 0%nat (CylinderZ 0 0 r). set_face Q1 1%nat (CylinderZ 0 0 ra).
  destruct na as [|na]; [bad_div Q1 [0; n; nz]%nat I|]. set (k := S na) in *. destruct n as [|n]; [bad_div Q1 [k; 0; nz]%nat I|]. set (o := S n) in *. destruct nz as [|nz]; [bad_div Q1 [k; o; 0]%nat I|]. set (q := S nz) in *.
  assert (Pk : (1 <= k)%nat) by (unfold k; lia). assert (Po : (1 <= o)%nat) by (unfold o; lia). assert (Pq : (1 <= q)%nat) by (unfold q; lia).
  assert (Pos : forall n, In n [k; o; q] -> (1 <= n)%nat) by (intros i I; cbn in I; lia).
  set_div Q1 [k; o; q] Pos. set_face Q2 0%nat (CylinderZ 0 0 r). set_face Q2 1%nat (CylinderZ 0 0 ra). set_div Q2 [k; o; q] Pos. set_face Q3 0%nat (CylinderZ 0 0 ra).
  destruct nb as [|nb]; [bad_div Q3 [0; o; q]%nat I|]. clear Pos.
  set (l := S nb) in *. assert (Pos : forall n, In n [k; l; o; q] -> (1 <= n)%nat) by (intros i I; cbn in I; unfold l in I; lia).
  set_div Q3 [l; o; q] Pos. set_face Q4 0%nat (CylinderZ 0 0 ra). set_div Q4 [l; o; q] Pos.
  left. eexists. split; [exact Pos|]. split; [|reflexivity].
  repeat (apply Forall2_cons; [|try apply Forall2_nil]); apply (part_region zdet); try assumption; try (apply S1 || apply S2 || apply S3 || apply S4); try reflexivity; try (apply one_side_3d; lia); try (apply two_sides_3d; [lia|lia|reflexivity]); intros i I; apply Pos; cbn in I |- *; tauto.
Qed.
End Bodies.
