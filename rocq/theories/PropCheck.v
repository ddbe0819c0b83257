(* Properties of the check of overlapping points (mesh/check.rs). *)
From Coq Require Import String List Arith Bool Reals Lra Lia Permutation ZArith.
From Verif Require Import Base Kind MeshModel MeshQuerySpec TopoModel GeomSpec GridModel GridSpec JoinProof CheckModel CheckSpec CheckProof CheckProof2.
Import ListNotations.
Open Scope R_scope.

(* ---- the check ends with one of two results ---- *)
Theorem C75_total : forall (sh : option nat -> container -> container) (m : mesh R) (tol : R),
  (forall k c, Permutation (sh k c) c) -> valid m -> 0 < tol -> roomy m tol ->
  check_overlapping_points sh m tol = Ok tt \/ check_overlapping_points sh m tol = Err "found overlapping points"%string.
Proof. intros sh m tol P. exact (check_total sh P m tol). Qed.
Print Assumptions C75_total.
Example C75_total_ex : (forall (k : option nat) (c : container), Permutation ((fun _ c => rev c) k c) c) /\ valid (splitM (/ 10)) /\ 0 < / 1000 /\ roomy (splitM (/ 10)) (/ 1000) /\ ~ duplicated (splitM (/ 10)).
Proof.
  split; [intros k c; symmetry; apply Permutation_rev|]. split; [apply split_valid|]. split; [lra|]. split; [apply split_roomy|].
  intros (p & q & (i & j & N & Hi & Hj) & E).
  destruct i as [|[|[|[|[|[|i]]]]]]; cbn in Hi; try (destruct i; discriminate); injection Hi as <-;
  (destruct j as [|[|[|[|[|[|j]]]]]]; cbn in Hj; try (destruct j; discriminate); injection Hj as <-); try congruence; cbn in E; injection E as E1; intros; lra.
Qed.

(* ---- a reported overlap is there ---- *)
Theorem C75_sound : forall (sh : option nat -> container -> container) (m : mesh R) (tol : R),
  (forall k c, Permutation (sh k c) c) -> valid m -> 0 < tol -> roomy m tol ->
  check_overlapping_points sh m tol <> Ok tt -> near_pair m (sqrt (INR (ndim m)) * tol).
Proof. intros sh m tol P. exact (check_sound sh P m tol). Qed.
Print Assumptions C75_sound.
Example C75_sound_ex : check_overlapping_points (fun _ c => c) (splitM 0) (/ 1000) <> Ok tt /\ valid (splitM 0) /\ roomy (splitM 0) (/ 1000).
Proof.
  split; [|split; [apply split_valid|apply split_roomy]].
  rewrite (check_duplicates (fun _ c => c) (fun _ c => Permutation_refl c) (splitM 0) (/ 1000) (split_valid 0) ltac:(lra) (split_roomy 0)); [discriminate|].
  exists (mkPoint 4 0%Z [1/2 - 0; 505/1000]), (mkPoint 5 0%Z [1/2 + 0; 505/1000]). split; [exists 4%nat, 5%nat; split; [discriminate|split; reflexivity]|]. cbn. repeat f_equal; lra.
Qed.

(* ---- duplicated points are always reported ---- *)
Theorem C75_duplicates : forall (sh : option nat -> container -> container) (m : mesh R) (tol : R),
  (forall k c, Permutation (sh k c) c) -> valid m -> 0 < tol -> roomy m tol -> duplicated m ->
  check_overlapping_points sh m tol = Err "found overlapping points"%string.
Proof. intros sh m tol P. exact (check_duplicates sh P m tol). Qed.
Print Assumptions C75_duplicates.
Example C75_duplicates_ex : valid (splitM 0) /\ roomy (splitM 0) (/ 1000) /\ duplicated (splitM 0).
Proof.
  split; [apply split_valid|]. split; [apply split_roomy|].
  exists (mkPoint 4 0%Z [1/2 - 0; 505/1000]), (mkPoint 5 0%Z [1/2 + 0; 505/1000]). split; [exists 4%nat, 5%nat; split; [discriminate|split; reflexivity]|]. cbn. repeat f_equal; lra.
Qed.

(* ---- but distinct points may be missed, however near they are: false of the code that points within the
   tolerance are reported ---- *)
Theorem C75_complete_refuted : forall eps, 0 < eps -> exists sh m tol p q,
  (forall k c, Permutation (sh k c) c) /\ valid m /\ 0 < tol /\ roomy m tol /\
  two_points m p q /\ euclid (pt_coords p) (pt_coords q) <= eps /\ euclid (pt_coords p) (pt_coords q) <= tol /\
  check_overlapping_points sh m tol = Ok tt.
Proof. exact check_misses. Qed.
Print Assumptions C75_complete_refuted.

(* ---- a mesh without extent along an axis is always an error ---- *)
Theorem C75_flat : forall (sh : option nat -> container -> container) (m : mesh R) (tol : R) (i : nat),
  valid m -> (i < ndim m)%nat -> flat m i -> exists e, check_overlapping_points sh m tol = Err e.
Proof. exact check_flat. Qed.
Print Assumptions C75_flat.
Definition flatM : mesh R := mkMesh 3
  [mkPoint 0 0%Z [0; 0; 0]; mkPoint 1 0%Z [1; 0; 0]; mkPoint 2 0%Z [1; 1; 0]; mkPoint 3 0%Z [0; 1; 0]] [mkCell 0 1%Z Qua4 [0; 1; 2; 3]%nat] [] [].
Example C75_flat_ex : valid flatM /\ (2 < ndim flatM)%nat /\ flat flatM 2 /\ ~ near_pair flatM (1 / 2).
Proof.
  split; [split; [split|split; [|right; reflexivity]]|].
  - intros [|[|[|[|i]]]] p H; cbn in H; try (injection H as <-; reflexivity). destruct i; discriminate.
  - intros [|i] c H; cbn in H; [injection H as <-; split; [reflexivity|]; split; [reflexivity|]; cbn; intros q Hq; intuition lia|]. destruct i; discriminate.
  - intros p [<-|[<-|[<-|[<-|[]]]]]; reflexivity.
  - split; [cbn; lia|]. split; [intros p q [<-|[<-|[<-|[<-|[]]]]] [<-|[<-|[<-|[<-|[]]]]]; reflexivity|].
    intros (p & q & (i & j & N & Hi & Hj) & D). assert (D2 : sqdist (pt_coords p) (pt_coords q) <= 1/4).
    { rewrite <- GeomProof.euclid_sq. pose proof (GeomProof.euclid_nonneg (pt_coords p) (pt_coords q)). nra. }
    destruct i as [|[|[|[|i]]]]; cbn in Hi; try (destruct i; discriminate); injection Hi as <-;
    (destruct j as [|[|[|[|j]]]]; cbn in Hj; try (destruct j; discriminate); injection Hj as <-); try congruence; cbn in D2; lra.
Qed.
