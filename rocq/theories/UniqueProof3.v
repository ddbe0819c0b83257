(* Uniqueness of solutions: points that fix a rigid motion, chains of cells, the whole mesh *)
From Coquelicot Require Import Coquelicot.
From Coq Require Import String Reals List Lia Lra Bool Arith ZArith Permutation Relations.
From Verif Require Import Base BaseFacts Kind MeshModel GraphModel MeshQuerySpec TopoModel TopoSpec TopoProof
  ShapesModel ShapesSpec PadModel PadSpec PadProof GaussModel GaussSpec IntegModel IntegSpec
  BalanceSpec BalanceProof PatchSpec PatchProof PatchProof3 PatchProof4 PatchProof5 UniqueSpec UniqueProof UniqueProof2.
Import ListNotations.
Local Open Scope list_scope.
Local Open Scope R_scope.

Ltac dup N := exfalso; inversion N as [|? ? N1 N2]; inversion N2 as [|? ? N3 N4]; cbn in *; tauto.
Lemma sides2 m p q r x y : NoDup [x; y] -> incl [x; y] [p; q; r] ->
  exists a b, 2 * simplex_measure m [p; q; r] = from_to m x y 0 * b - a * from_to m x y 1.
Proof.
  intros N I. pose proof (I x (or_introl eq_refl)) as Ix. pose proof (I y (or_intror (or_introl eq_refl))) as Iy. clear I.
  unfold simplex_measure, from_to. cbn in Ix, Iy.
  destruct Ix as [<-|[<-|[<-|[]]]], Iy as [<-|[<-|[<-|[]]]]; try (dup N).
  all: match goal with |- exists a b, _ = (_ ?u 0%nat - _ ?v 0%nat) * b - _ => idtac end.
  - exists (xcoord m r 0 - xcoord m p 0), (xcoord m r 1 - xcoord m p 1). field.
  - exists (- (xcoord m q 0 - xcoord m p 0)), (- (xcoord m q 1 - xcoord m p 1)). field.
  - exists (- (xcoord m r 0 - xcoord m q 0)), (- (xcoord m r 1 - xcoord m q 1)). field.
  - exists (xcoord m p 0 - xcoord m q 0), (xcoord m p 1 - xcoord m q 1). field.
  - exists (xcoord m q 0 - xcoord m r 0), (xcoord m q 1 - xcoord m r 1). field.
  - exists (- (xcoord m p 0 - xcoord m r 0)), (- (xcoord m p 1 - xcoord m r 1)). field.
Qed.
Lemma sides3 m p q r s x y z : NoDup [x; y; z] -> incl [x; y; z] [p; q; r; s] ->
  exists v, 6 * simplex_measure m [p; q; r; s] = triple (from_to m x y) (from_to m x z) v.
Proof.
  intros N I. pose proof (I x (or_introl eq_refl)) as Ix. pose proof (I y (or_intror (or_introl eq_refl))) as Iy. pose proof (I z (or_intror (or_intror (or_introl eq_refl)))) as Iz. clear I.
  unfold simplex_measure, triple, sum_n, sum. cbn [seq map fold_right vector_product]. unfold from_to. cbn in Ix, Iy, Iz.
  destruct Ix as [<-|[<-|[<-|[<-|[]]]]], Iy as [<-|[<-|[<-|[<-|[]]]]]; try (dup N); destruct Iz as [<-|[<-|[<-|[<-|[]]]]]; try (dup N).
  all: match type of N with NoDup [?a; _; _] => first
    [exists (fun j => xcoord m p j - xcoord m a j); field|exists (fun j => - (xcoord m p j - xcoord m a j)); field
    |exists (fun j => xcoord m q j - xcoord m a j); field|exists (fun j => - (xcoord m q j - xcoord m a j)); field
    |exists (fun j => xcoord m r j - xcoord m a j); field|exists (fun j => - (xcoord m r j - xcoord m a j)); field
    |exists (fun j => xcoord m s j - xcoord m a j); field|exists (fun j => - (xcoord m s j - xcoord m a j)); field] end.
Qed.
Lemma zero_of_product a b : a * b = 0 -> b <> 0 -> a = 0.
Proof. intros H N. destruct (Rmult_integral _ _ H); tauto. Qed.
Lemma parallel_zero ok oi oj ai aj ak bi bj : ok * ai = oi * ak -> ok * aj = oj * ak -> oi * bj = oj * bi -> ok * (ai * bj - aj * bi) = 0.
Proof.
  intros H1 H2 H3. replace (ok * (ai * bj - aj * bi)) with (ok * ai * bj - ok * aj * bi) by ring. rewrite H1, H2.
  replace (oi * ak * bj - oj * ak * bi) with (ak * (oi * bj - oj * bi)) by ring. rewrite H3. ring.
Qed.
(* a skew-symmetric matrix with W a = 0 and W b = 0 is zero if a and b are not parallel *)
Lemma skew3_zero x y z a0 a1 a2 b0 b1 b2 v0 v1 v2 :
  x * a1 + y * a2 = 0 -> - x * a0 + z * a2 = 0 -> - y * a0 - z * a1 = 0 ->
  x * b1 + y * b2 = 0 -> - x * b0 + z * b2 = 0 -> - y * b0 - z * b1 = 0 ->
  (a1 * b2 - a2 * b1) * v0 + (a2 * b0 - a0 * b2) * v1 + (a0 * b1 - a1 * b0) * v2 <> 0 -> x = 0 /\ y = 0 /\ z = 0.
Proof.
  intros A1 A2 A3 B1 B2 B3 N.
  assert (G : forall ok, ok * (a1 * b2 - a2 * b1) = 0 -> ok * (a2 * b0 - a0 * b2) = 0 -> ok * (a0 * b1 - a1 * b0) = 0 -> ok = 0).
  { intros ok G0 G1 G2. apply (zero_of_product ok _) with (2 := N).
    replace (ok * _) with (ok * (a1 * b2 - a2 * b1) * v0 + ok * (a2 * b0 - a0 * b2) * v1 + ok * (a0 * b1 - a1 * b0) * v2) by ring. rewrite G0, G1, G2. ring. }
  (* the vector (z, - y, x) is parallel to a and b *)
  assert (X : x = 0).
  { apply G; [apply (parallel_zero x (- y) x a1 a2 a2 b1 b2)|apply (parallel_zero x x z a2 a0 a2 b2 b0)|apply (parallel_zero x z (- y) a0 a1 a2 b0 b1)]; lra. }
  assert (Z : z = 0).
  { apply G; [apply (parallel_zero z (- y) x a1 a2 a0 b1 b2)|apply (parallel_zero z x z a2 a0 a0 b2 b0)|apply (parallel_zero z z (- y) a0 a1 a0 b0 b1)]; lra. }
  assert (Y : - y = 0).
  { apply G; [apply (parallel_zero (- y) (- y) x a1 a2 a1 b1 b2)|apply (parallel_zero (- y) x z a2 a0 a1 b2 b0)|apply (parallel_zero (- y) z (- y) a0 a1 a1 b0 b1)]; lra. }
  repeat split; lra.
Qed.

(* a rigid motion that leaves nd distinct points of a cell in place is no motion *)
Lemma motion_fixed m ps l c0 w : (MeshModel.ndim m = 2 \/ MeshModel.ndim m = 3)%nat -> List.length ps = S (MeshModel.ndim m) -> simplex_measure m ps <> 0 ->
  NoDup l -> List.length l = MeshModel.ndim m -> incl l ps -> skew (MeshModel.ndim m) w ->
  (forall p i, In p l -> (i < MeshModel.ndim m)%nat -> linear m c0 w p i = 0) ->
  forall p i, (i < MeshModel.ndim m)%nat -> linear m c0 w p i = 0.
Proof.
  intros D Lp Nz N Ll I Sk Z. unfold linear in *. destruct D as [E|E]; rewrite E in *.
  - destruct ps as [|p [|q [|r [|? ?]]]]; try discriminate Lp. destruct l as [|x [|y [|? ?]]]; try discriminate Ll.
    destruct (sides2 m p q r x y N I) as (a & b & M). unfold from_to in M.
    pose proof (Z x 0%nat (or_introl eq_refl) ltac:(lia)) as X0. pose proof (Z x 1%nat (or_introl eq_refl) ltac:(lia)) as X1.
    pose proof (Z y 0%nat (or_intror (or_introl eq_refl)) ltac:(lia)) as Y0. pose proof (Z y 1%nat (or_intror (or_introl eq_refl)) ltac:(lia)) as Y1.
    pose proof (Sk 0%nat 0%nat ltac:(lia) ltac:(lia)) as S0. pose proof (Sk 1%nat 1%nat ltac:(lia) ltac:(lia)) as S1. pose proof (Sk 1%nat 0%nat ltac:(lia) ltac:(lia)) as S2.
    unfold sum_n, sum in *. cbn [seq map fold_right] in *. assert (W0 : w 0%nat 0%nat = 0) by lra. assert (W1 : w 1%nat 1%nat = 0) by lra. rewrite S2, W0, W1 in *.
    set (k := w 0%nat 1%nat) in *. assert (K0 : k = 0).
    { apply (zero_of_product k (2 * simplex_measure m [p; q; r])); [|lra]. rewrite M.
      replace (k * _) with ((k * xcoord m y 0 - k * xcoord m x 0) * b - a * (k * xcoord m y 1 - k * xcoord m x 1)) by ring.
      replace (k * xcoord m y 0 - k * xcoord m x 0) with 0 by lra. replace (k * xcoord m y 1 - k * xcoord m x 1) with 0 by lra. ring. }
    rewrite K0 in *. intros p' i Hi. destruct i as [|[|i]]; [| |lia]; [fold k|rewrite S2; fold k]; rewrite ?K0, ?W0, ?W1; lra.
  - destruct ps as [|p [|q [|r [|s [|? ?]]]]]; try discriminate Lp. destruct l as [|x [|y [|z [|? ?]]]]; try discriminate Ll.
    destruct (sides3 m p q r s x y z N I) as (v & M). unfold triple, from_to, sum_n, sum in M. cbn [seq map fold_right vector_product] in M.
    assert (Ix : In x [x; y; z]) by (cbn; tauto). assert (Iy : In y [x; y; z]) by (cbn; tauto). assert (Iz : In z [x; y; z]) by (cbn; tauto).
    pose proof (Z x 0%nat Ix ltac:(lia)) as X0. pose proof (Z x 1%nat Ix ltac:(lia)) as X1. pose proof (Z x 2%nat Ix ltac:(lia)) as X2.
    pose proof (Z y 0%nat Iy ltac:(lia)) as Y0. pose proof (Z y 1%nat Iy ltac:(lia)) as Y1. pose proof (Z y 2%nat Iy ltac:(lia)) as Y2.
    pose proof (Z z 0%nat Iz ltac:(lia)) as Z0. pose proof (Z z 1%nat Iz ltac:(lia)) as Z1. pose proof (Z z 2%nat Iz ltac:(lia)) as Z2.
    pose proof (Sk 0%nat 0%nat ltac:(lia) ltac:(lia)) as S0. pose proof (Sk 1%nat 1%nat ltac:(lia) ltac:(lia)) as S1. pose proof (Sk 2%nat 2%nat ltac:(lia) ltac:(lia)) as S2.
    pose proof (Sk 1%nat 0%nat ltac:(lia) ltac:(lia)) as S3. pose proof (Sk 2%nat 0%nat ltac:(lia) ltac:(lia)) as S4. pose proof (Sk 2%nat 1%nat ltac:(lia) ltac:(lia)) as S5.
    unfold sum_n, sum in *. cbn [seq map fold_right] in *.
    assert (W0 : w 0%nat 0%nat = 0) by lra. assert (W1 : w 1%nat 1%nat = 0) by lra. assert (W2 : w 2%nat 2%nat = 0) by lra.
    rewrite S3, S4, S5, W0, W1, W2 in *. set (k1 := w 0%nat 1%nat) in *. set (k2 := w 0%nat 2%nat) in *. set (k3 := w 1%nat 2%nat) in *.
    destruct (skew3_zero k1 k2 k3 (xcoord m y 0 - xcoord m x 0) (xcoord m y 1 - xcoord m x 1) (xcoord m y 2 - xcoord m x 2)
      (xcoord m z 0 - xcoord m x 0) (xcoord m z 1 - xcoord m x 1) (xcoord m z 2 - xcoord m x 2) (v 0%nat) (v 1%nat) (v 2%nat)) as (K1 & K2 & K3); try lra.
    rewrite K1, K2, K3 in *.
    intros p' i Hi. destruct i as [|[|[|i]]]; [| | |lia]; fold k1 k2 k3; rewrite ?S3, ?S4, ?S5; fold k1 k2 k3; rewrite ?K1, ?K2, ?K3, ?W0, ?W1, ?W2; lra.
Qed.
Lemma linear_sub m c0 w c0' w' p i : linear m c0 w p i - linear m c0' w' p i = linear m (fun j => c0 j - c0' j) (fun j l => w j l - w' j l) p i.
Proof.
  unfold linear. rewrite (sum_n_ext _ (fun l => (w i l - w' i l) * xcoord m p l) (fun l => w i l * xcoord m p l - w' i l * xcoord m p l)) by (intros; ring).
  rewrite sum_n_sub. ring.
Qed.

Section Mesh.
Variables (m : mesh R).
Hypothesis C : consistent m.
Hypothesis K : coords_complete m.
Hypothesis D : (MeshModel.ndim m = 2 \/ MeshModel.ndim m = 3)%nat.
Hypothesis Sm : simplex_mesh m.
Let nd := MeshModel.ndim m.
Let cs := of_dim nd m.
Lemma points_below c : In c cs -> forall p, In p (c_points c) -> (p < List.length (points m))%nat.
Proof. intros Hc. pose proof C as (_ & C2). destruct (in_dim m c nd Hc) as (Ic & _). exact (proj2 (proj2 (C2 _ _ (cell_by_id m c C Ic)))). Qed.

(* motions of linked cells are the same *)
Lemma chain_motion u c c' : linked m nd c c' -> In c cs ->
  (forall b, In b cs -> exists c0 w, skew nd w /\ forall p i, In p (c_points b) -> (i < nd)%nat -> u p i = linear m c0 w p i) ->
  forall c0 w, skew nd w -> (forall p i, In p (c_points c) -> (i < nd)%nat -> u p i = linear m c0 w p i) ->
  (forall p i, In p (c_points c') -> (i < nd)%nat -> u p i = linear m c0 w p i).
Proof.
  intros Lk Hc Ex c0 w Sk H. revert Hc H. induction Lk as [x y (Hx & Hy & l & N & Ll & Ix & Iy)|x|x y z L1 IH1 L2 IH2]; intros Hc H; [|exact H|].
  - destruct (Ex y Hy) as (c1 & w1 & Sk1 & H1). intros p i Hp Hi. rewrite (H1 p i Hp Hi).
    enough (linear m c0 w p i - linear m c1 w1 p i = 0) by lra. rewrite linear_sub.
    destruct (Sm x Hx) as (Kx & Mx). apply (motion_fixed m (c_points x) l); auto; [exact (cell_length m x C D Hx Kx)|lra| |].
    + intros a b Ha Hb. rewrite (Sk a b Ha Hb), (Sk1 a b Ha Hb). ring.
    + intros q j Hq Hj. rewrite <- linear_sub. rewrite <- (H q j (Ix q Hq) Hj), <- (H1 q j (Iy q Hq) Hj). ring.
  - intros p i Hp Hi. assert (Hy : In y cs).
    { clear - L1 Hc. induction L1 as [x y (_ & Hy & _)|x|x y z _ IH1 _ IH2]; auto. }
    apply IH2; auto.
Qed.
Lemma chain_value (phi : nat -> R) c c' : linked m 1 c c' -> (forall b, In b cs -> exists t, forall p, In p (c_points b) -> phi p = t) ->
  forall t, (forall p, In p (c_points c) -> phi p = t) -> (forall p, In p (c_points c') -> phi p = t).
Proof.
  intros Lk Ex t. induction Lk as [x y (Hx & Hy & l & N & Ll & Ix & Iy)|x|x y z L1 IH1 L2 IH2]; intros H; [|exact H|auto].
  destruct l as [|q l]; [discriminate Ll|]. destruct (Ex y Hy) as (t' & H'). intros p Hp. rewrite (H' p Hp), <- (H' q (Iy q (or_introl eq_refl))). apply H, Ix. now left.
Qed.

Variables (zdet th : R) (n : nat -> nat) (A : nat -> args) (kk kk' : nat -> mat) (q : nat -> pad).
Hypothesis Hz : 0 <= zdet.
Hypothesis Ht : 0 < th.

Lemma cells_rigid (DD : nat -> mat) u v :
  (forall c, In c cs -> let k := c_id c in firm nd (DD k) /\ stiffened zdet m c (DD k) th (n k) (A k) (kk k) (kk' k) (q k)) ->
  (forall P i, (P < List.length (points m))%nat -> (i < nd)%nat -> u P i = v P i \/ nodal_force m A kk kk' u P i = nodal_force m A kk kk' v P i) ->
  forall c, In c cs -> exists c0 w, skew nd w /\ forall p i, In p (c_points c) -> (i < nd)%nat -> u p i - v p i = linear m c0 w p i.
Proof.
  intros St H. set (d := fun p i => u p i - v p i).
  assert (Lin : forall k ps a i, stiffness_times (A k) (kk k) (kk' k) ps d a i = stiffness_times (A k) (kk k) (kk' k) ps u a i - stiffness_times (A k) (kk k) (kk' k) ps v a i).
  { intros k ps a i. unfold stiffness_times. rewrite <- sum_n_sub. apply sum_n_ext. intros b _. rewrite <- sum_n_sub. apply sum_n_ext. intros j _. unfold d. ring. }
  pose proof (energy_zero cs (List.length (points m)) nd d (fun c a i => stiffness_times (A (c_id c)) (kk (c_id c)) (kk' (c_id c)) (c_points c) d a i) points_below) as En.
  intros c Hc. destruct (St c Hc) as (Fc & Sc). destruct (Sm c Hc) as (Kc & Mc).
  apply (work_zero zdet m c th (n (c_id c)) (A (c_id c)) Hz C K D Hc Kc Mc Ht (DD (c_id c)) (kk (c_id c)) (kk' (c_id c)) (q (c_id c)) d Fc Sc).
  apply En; auto.
  - intros P i HP Hi. destruct (H P i HP Hi) as [E|E]; [left; unfold d; lra|right].
    rewrite (sum_over_ext _ (fun c => at_point (c_points c) P (fun a => stiffness_times (A (c_id c)) (kk (c_id c)) (kk' (c_id c)) (c_points c) u a i)
      + -1 * at_point (c_points c) P (fun a => stiffness_times (A (c_id c)) (kk (c_id c)) (kk' (c_id c)) (c_points c) v a i))).
    + assert (Ad : forall (f g : cell -> R) l, sum_over (fun x => f x + g x) l = sum_over f l + sum_over g l).
      { intros f g l. unfold sum_over. induction l as [|x l IH]; cbn; [ring|]. rewrite IH. ring. }
      rewrite Ad, sum_over_scal. unfold nodal_force in E. cbv zeta in E. fold nd in E. fold cs in E. rewrite E. ring.
    + intros b _. rewrite <- at_point_scal. unfold at_point. rewrite <- sum_n_plus. apply sum_n_ext. intros a _. rewrite Lin. destruct (_ =? _)%nat; ring.
  - intros b Hb. destruct (St b Hb) as (Fb & Sb). destruct (Sm b Hb) as (Kb & Mb).
    exact (work_nonneg zdet m b th (n (c_id b)) (A (c_id b)) Hz C K D Hb Kb Mb Ht (DD (c_id b)) (kk (c_id b)) (kk' (c_id b)) (q (c_id b)) d Fb Sb).
Qed.
Lemma cells_uniform (tt : nat -> list R) u v :
  (forall c, In c cs -> let k := c_id c in dissipative nd (tt k) /\ conducting zdet m c (tt k) th (n k) (A k) (kk k) (kk' k) (q k)) ->
  (forall P, (P < List.length (points m))%nat -> u P = v P \/ nodal_heat m A kk kk' u P = nodal_heat m A kk kk' v P) ->
  forall c, In c cs -> exists t, forall p, In p (c_points c) -> u p - v p = t.
Proof.
  intros St H. set (d := fun p => u p - v p).
  assert (Lin : forall k ps a, conductivity_times (A k) (kk k) (kk' k) ps d a = conductivity_times (A k) (kk k) (kk' k) ps u a - conductivity_times (A k) (kk k) (kk' k) ps v a).
  { intros k ps a. unfold conductivity_times. rewrite <- sum_n_sub. apply sum_n_ext. intros b _. unfold d. ring. }
  pose proof (energy_zero cs (List.length (points m)) 1 (fun p _ => d p) (fun c a _ => conductivity_times (A (c_id c)) (kk (c_id c)) (kk' (c_id c)) (c_points c) d a) points_below) as En.
  assert (One : forall f, sum_n 1 (fun _ => f) = f) by (intros f; unfold sum_n, sum; cbn; ring).
  intros c Hc. destruct (St c Hc) as (Fc & Sc). destruct (Sm c Hc) as (Kc & Mc).
  apply (loss_zero zdet m c th (n (c_id c)) (A (c_id c)) Hz C K D Hc Kc Mc Ht (tt (c_id c)) (kk (c_id c)) (kk' (c_id c)) (q (c_id c)) d Fc Sc).
  unfold loss. rewrite <- (One (sum_n _ _)). apply En; auto.
  - intros P i HP _. destruct (H P HP) as [E|E]; [left; unfold d; lra|right].
    rewrite (sum_over_ext _ (fun c => at_point (c_points c) P (fun a => conductivity_times (A (c_id c)) (kk (c_id c)) (kk' (c_id c)) (c_points c) u a)
      + -1 * at_point (c_points c) P (fun a => conductivity_times (A (c_id c)) (kk (c_id c)) (kk' (c_id c)) (c_points c) v a))).
    + assert (Ad : forall (f g : cell -> R) l, sum_over (fun x => f x + g x) l = sum_over f l + sum_over g l).
      { intros f g l. unfold sum_over. induction l as [|x l IH]; cbn; [ring|]. rewrite IH. ring. }
      rewrite Ad, sum_over_scal. unfold nodal_heat in E. cbv zeta in E. fold nd in E. fold cs in E. rewrite E. ring.
    + intros b _. rewrite <- at_point_scal. unfold at_point. rewrite <- sum_n_plus. apply sum_n_ext. intros a _. rewrite Lin. destruct (_ =? _)%nat; ring.
  - intros b Hb. destruct (St b Hb) as (Fb & Sb). destruct (Sm b Hb) as (Kb & Mb). rewrite One.
    exact (loss_nonneg zdet m b th (n (c_id b)) (A (c_id b)) Hz C K D Hb Kb Mb Ht (tt (c_id b)) (kk (c_id b)) (kk' (c_id b)) (q (c_id b)) d Fb Sb).
Qed.
(* the other way: rigid motions cause no forces *)
Lemma rigid_forces (DD : nat -> mat) u :
  (forall c, In c cs -> let k := c_id c in stiffened zdet m c (DD k) th (n k) (A k) (kk k) (kk' k) (q k)) ->
  (forall c, In c cs -> exists c0 w, skew nd w /\ forall p i, In p (c_points c) -> (i < nd)%nat -> u p i = linear m c0 w p i) ->
  forall P i, (i < nd)%nat -> nodal_force m A kk kk' u P i = 0.
Proof.
  intros St H P i Hi. unfold nodal_force. apply sum_over_zero. intros c Hc. destruct (H c Hc) as (c0 & w & Sk & E). pose proof (St c Hc) as Sc. destruct (Sm c Hc) as (Kc & Mc). cbv zeta in *. set (k := c_id c) in *.
  rewrite (at_point_ext _ _ _ (fun _ => 0 * 0)); [rewrite at_point_scal; ring|]. intros a Ha. rewrite Rmult_0_l.
  transitivity (stiffness_times (A k) (kk k) (kk' k) (c_points c) (linear m c0 w) a i).
  - pose proof Sc as (Ep & _). destruct (cell_pad m c (A k) C K D (proj1 (in_dim m c nd Hc)) ltac:(apply cell_simple; auto) Ep) as (_ & _ & Es & En & _).
    unfold stiffness_times. apply sum_n_ext. intros b Hb. apply sum_n_ext. intros j Hj. f_equal. apply E; [apply nth_In; now rewrite <- En|]. unfold nd. now rewrite <- Es.
  - etransitivity; [exact (stiffened_value zdet m c th (n k) (A k) Hz C K D (proj1 (in_dim m c nd Hc)) ltac:(apply cell_simple; auto) (DD k) (kk k) (kk' k) (q k) c0 w a i Sc Ha Hi)|].
    rewrite sum_n_zero; [ring|]. intros j Hj. unfold linear_stress. rewrite sum_n_zero; [ring|]. intros x Hx. apply sum_n_zero. intros y Hy. rewrite (Sk x y Hx Hy). field.
Qed.
End Mesh.
