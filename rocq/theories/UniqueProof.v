(* Uniqueness of solutions: one cell *)
From Coquelicot Require Import Coquelicot.
From Coq Require Import String Reals List Lia Lra Bool Arith ZArith Permutation Relations.
From Verif Require Import Base BaseFacts Kind MeshModel GraphModel MeshQuerySpec TopoModel TopoSpec TopoProof
  ShapesModel ShapesSpec PadModel PadSpec PadProof GaussModel GaussSpec IntegModel IntegSpec
  BalanceSpec BalanceProof PatchSpec PatchProof PatchProof3 PatchProof4 PatchProof5 UniqueSpec.
Import ListNotations.
Local Open Scope list_scope.
Local Open Scope R_scope.

(** ** a sum of energies that vanishes *)
Lemma sum_over_zero_each {X} (w : X -> R) l : (forall x, In x l -> 0 <= w x) -> sum_over w l = 0 -> forall x, In x l -> w x = 0.
Proof.
  induction l as [|y l IH]; intros Hn E x Hx; [destruct Hx|]. change (sum_over w (y :: l)) with (w y + sum_over w l) in E.
  assert (0 <= sum_over w l).
  { clear - Hn. induction l as [|z l IH]; [unfold sum_over; cbn; lra|]. change (sum_over w (z :: l)) with (w z + sum_over w l).
    pose proof (Hn z (or_intror (or_introl eq_refl))). assert (0 <= sum_over w l) by (apply IH; intros x [->|Hx]; apply Hn; cbn; auto). lra. }
  pose proof (Hn y (or_introl eq_refl)). destruct Hx as [<-|Hx]; [lra|]. apply IH; auto; [|lra]. intros z Hz. apply Hn. now right.
Qed.
Lemma at_point_all np ps (f v : nat -> R) : (forall p, In p ps -> (p < np)%nat) ->
  sum_n np (fun P => f P * at_point ps P v) = sum_n (List.length ps) (fun a => f (nth a ps 0%nat) * v a).
Proof.
  intros B. unfold at_point. rewrite (sum_n_ext _ _ (fun P => sum_n (List.length ps) (fun a => f P * (if (nth a ps 0 =? P)%nat then v a else 0)))) by (intros; symmetry; apply sum_n_scal).
  rewrite sum_n_swap. apply sum_n_ext. intros a Ha. rewrite (IntegProof.sum_n_single np _ (nth a ps 0%nat)).
  - now rewrite Nat.eqb_refl.
  - apply B. now apply nth_In.
  - intros P _ Ne. apply Nat.neq_sym, Nat.eqb_neq in Ne. rewrite Ne. ring.
Qed.
Lemma energy_zero (l : list cell) np nc (f : nat -> nat -> R) (V : cell -> nat -> nat -> R) :
  (forall c, In c l -> forall p, In p (c_points c) -> (p < np)%nat) ->
  (forall P i, (P < np)%nat -> (i < nc)%nat -> f P i = 0 \/ sum_over (fun c => at_point (c_points c) P (fun a => V c a i)) l = 0) ->
  let E := fun c => sum_n nc (fun i => sum_n (List.length (c_points c)) (fun a => f (nth a (c_points c) 0%nat) i * V c a i)) in
  (forall c, In c l -> 0 <= E c) -> forall c, In c l -> E c = 0.
Proof.
  intros B Z E Hn. apply sum_over_zero_each; auto. unfold E. rewrite sum_over_sum. apply sum_n_zero. intros i Hi.
  rewrite (sum_over_ext _ (fun c => sum_n np (fun P => f P i * at_point (c_points c) P (fun a => V c a i)))) by (intros c Hc; symmetry; apply at_point_all, B, Hc).
  rewrite sum_over_sum. apply sum_n_zero. intros P HP. rewrite sum_over_scal. destruct (Z P i HP Hi) as [-> | ->]; ring.
Qed.

(** ** the nodal values of a triangle or tetrahedron are those of a linear function *)
Definition slope (m : mesh R) (c : cell) (phi : nat -> R) (j : nat) : R :=
  sum_n (List.length (c_points c)) (fun a => phi (nth a (c_points c) 0%nat) * Ncell m c a j) / simplex_measure m (c_points c).
Lemma linear2 m c p q r phi : MeshModel.ndim m = 2%nat -> c_kind c = Tri3 -> c_points c = [p; q; r] -> simplex_measure m (c_points c) <> 0 ->
  exists t0, forall x, In x (c_points c) -> phi x = t0 + sum_n 2 (fun l => slope m c phi l * xcoord m x l).
Proof.
  intros E Kc Ec Nz. exists (phi p - sum_n 2 (fun l => slope m c phi l * xcoord m p l)).
  assert (X : forall x, In x (c_points c) -> phi x - phi p = sum_n 2 (fun l => slope m c phi l * (xcoord m x l - xcoord m p l))).
  { unfold slope, Ncell. rewrite E, Kc, Ec in *. cbn [List.length nth] in *. unfold simplex_measure, from_to in *.
    unfold nrm2, next2, prev2, sum_n, sum. cbn [seq map fold_right nth]. intros x [<-|[<-|[<-|[]]]]; [field|field|field].
    all: intros Z; apply Nz; lra. }
  intros x Hx. specialize (X x Hx). unfold sum_n, sum in *. cbn [seq map fold_right] in *. lra.
Qed.
Lemma linear3 m c p q r s phi : MeshModel.ndim m = 3%nat -> c_points c = [p; q; r; s] -> simplex_measure m (c_points c) <> 0 ->
  exists t0, forall x, In x (c_points c) -> phi x = t0 + sum_n 3 (fun l => slope m c phi l * xcoord m x l).
Proof.
  intros E Ec Nz. exists (phi p - sum_n 3 (fun l => slope m c phi l * xcoord m p l)).
  assert (X : forall x, In x (c_points c) -> phi x - phi p = sum_n 3 (fun l => slope m c phi l * (xcoord m x l - xcoord m p l))).
  { unfold slope, Ncell. rewrite E, Ec in *. cbn [List.length nth] in *. unfold simplex_measure, triple, from_to, vector_product in *.
    unfold nrm3, sum_n, sum in *. cbn [seq map fold_right nth vector_product] in *.
    intros x [<-|[<-|[<-|[<-|[]]]]]; [field|field|field|field].
    all: intros Z; apply Nz; lra. }
  intros x Hx. specialize (X x Hx). unfold sum_n, sum in *. cbn [seq map fold_right] in *. lra.
Qed.
