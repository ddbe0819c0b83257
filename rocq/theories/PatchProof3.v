(* The patch test in a mesh: sums over the cells at a point *)
From Coquelicot Require Import Coquelicot.
From Coq Require Import String Reals QArith Qreals List Lia Lra Bool Arith ZArith Permutation Sorted.
From Verif Require Import Base BaseFacts Expr ExprProof ShapesData Kind MeshModel GraphModel MeshQuerySpec TopoModel TopoSpec TopoMaps TopoProof TopoFeat3 TopoFinal
  ShapesModel ShapesSpec ShapesProof GeomModel GeomProof PadModel PadSpec PadProof PadProof2 PadProof3 PadProof4 GaussModel GaussSpec GaussProof GaussProof2 GaussProof3 IntegModel IntegSpec IntegProof IntegProof2 IntegProof3 IntegProof6 IntegProof7 PropInteg AnaProof AnaProof2
  NormalSpec NormalProof NormalProof2 NormalProof3 NormalModel NormalProof4 NormalProof5 PropNormal BalanceSpec BalanceProof BalanceProof2 BalanceProof3 BalanceProof4 PressureSpec PressureProof PatchSpec PatchProof PatchProof2.
Import ListNotations.
Local Open Scope list_scope.
Local Open Scope R_scope.

Lemma at_point_ext ps P v v' : (forall a, (a < List.length ps)%nat -> v a = v' a) -> at_point ps P v = at_point ps P v'.
Proof. intros H. apply sum_n_ext. intros a Ha. now rewrite H. Qed.
Lemma at_point_scal ps P k v : at_point ps P (fun a => k * v a) = k * at_point ps P v.
Proof. unfold at_point. rewrite <- sum_n_scal. apply sum_n_ext. intros a _. destruct (_ =? _)%nat; ring. Qed.
Lemma at_point_sum ps P n v : at_point ps P (fun a => sum_n n (fun j => v a j)) = sum_n n (fun j => at_point ps P (fun a => v a j)).
Proof.
  unfold at_point. rewrite <- sum_n_swap. apply sum_n_ext. intros a _. destruct (_ =? _)%nat; [reflexivity|]. symmetry. apply sum_n_zero. auto.
Qed.
Lemma at_point_none ps P v : ~ In P ps -> at_point ps P v = 0.
Proof. intros H. apply sum_n_zero. intros a Ha. destruct (Nat.eqb_spec (nth a ps 0%nat) P) as [E|]; auto. exfalso. apply H. rewrite <- E. now apply nth_In. Qed.
Lemma sum_over_sum {X} (w : X -> nat -> R) n l : sum_over (fun x => sum_n n (w x)) l = sum_n n (fun j => sum_over (fun x => w x j) l).
Proof.
  induction l as [|x l IH]; [symmetry; apply sum_n_zero; auto|]. change (sum_over ?w (x :: l)) with (w x + sum_over w l). cbn beta. rewrite IH, <- sum_n_plus. apply sum_n_ext. reflexivity.
Qed.

(** ** odd quantities *)
Lemma half_odd m P j : odd (half_edge m P j).
Proof.
  intros l. revert l. apply len_cases.
  - apply long_zero. intros l L. unfold half_edge. destruct l as [|? [|? [|? l]]]; cbn in L; try lia. cbn [turned]. unfold at_point. apply sum_n_zero. intros a _. destruct (_ =? _)%nat; [lra|reflexivity].
  - unfold half_edge, at_point, sum_n, sum. cbn. lra.
  - intros a. unfold half_edge, at_point, sum_n, sum. cbn. destruct (a =? P)%nat; lra.
  - intros a b. unfold half_edge, at_point, sum_n, sum. cbn. destruct (a =? P)%nat, (b =? P)%nat, j; cbn; lra.
  - intros a b c. unfold half_edge, at_point, sum_n, sum. cbn. destruct (a =? P)%nat, (b =? P)%nat, (c =? P)%nat; lra.
  - intros a b c d. unfold half_edge, at_point, sum_n, sum. cbn. destruct (a =? P)%nat, (b =? P)%nat, (c =? P)%nat, (d =? P)%nat; lra.
Qed.
Lemma third_odd m P j : odd (third_face m P j).
Proof.
  intros l. revert l. apply len_cases; [|cbn; intros; lra|cbn; intros; lra|cbn; intros; lra| |cbn; intros; lra].
  - apply long_zero. intros l L. unfold third_face. destruct l as [|? [|? [|? [|? l]]]]; cbn in L; try lia. reflexivity.
  - intros a b c. pose proof (area_odd m j [a; b; c]) as O. cbn [rev app] in O. unfold third_face, at_point, sum_n, sum. cbn [rev app List.length seq map fold_right nth]. rewrite O.
    destruct (a =? P)%nat, (b =? P)%nat, (c =? P)%nat; lra.
Qed.
Lemma third_cyclic m P j : cyclic (third_face m P j).
Proof.
  apply cyclic_step; [intros l L; unfold third_face; destruct l as [|? [|? [|? [|? l]]]]; cbn in L; try lia; reflexivity|reflexivity| |reflexivity].
  intros a b c. pose proof (area_cyclic m j [a] [b; c]) as O. cbn [app] in O. unfold third_face, at_point, sum_n, sum. cbn [List.length seq map fold_right nth]. rewrite O.
  destruct (a =? P)%nat, (b =? P)%nat, (c =? P)%nat; lra.
Qed.

(** ** a cell of the mesh *)
Definition Ncell (m : mesh R) (c : cell) (a j : nat) : R :=
  match MeshModel.ndim m with
  | 2%nat => nrm2 (c_kind c) (fun i a => xcoord m (nth a (c_points c) 0%nat) i) a j
  | _ => nrm3 (fun i a => xcoord m (nth a (c_points c) 0%nat) i) a j
  end.

Section Cell.
Variables (m : mesh R) (c : cell) (A : args) (n : nat).
Hypothesis C : consistent m.
Hypothesis K : coords_complete m.
Hypothesis D : (MeshModel.ndim m = 2 \/ MeshModel.ndim m = 3)%nat.
Hypothesis Hc : In c (cells m).
Hypothesis Sk : simple_kind (MeshModel.ndim m) (c_kind c).
Hypothesis Ep : get_pad m (c_id c) = Ok (a_pad A).
Hypothesis G : gauss_new_sized (kind_class (c_kind c)) n = Ok (a_gauss A).

Lemma cell_pad : pad_wf (a_pad A) /\ p_kind (a_pad A) = c_kind c /\ p_space (a_pad A) = MeshModel.ndim m /\ a_nnode A = List.length (c_points c) /\
  forall i a, (a < List.length (c_points c))%nat -> (i < MeshModel.ndim m)%nat -> node_x (a_pad A) i a = xcoord m (nth a (c_points c) 0%nat) i.
Proof.
  pose proof C as (_ & C2). pose proof (cell_by_id m c C Hc) as Hn. destruct (C2 _ _ Hn) as (_ & Ln & B).
  destruct (get_pad_ok m (c_id c) c C K D Hn) as (p' & Ep' & El & _).
  { unfold simple_kind in Sk. destruct D as [E|E]; rewrite E in *; [destruct Sk as [-> | ->]|rewrite Sk]; vm_compute; lia. }
  rewrite Ep in Ep'. injection Ep' as <-. pose proof El as (W & Ek & Es & _). split; auto. split; auto. split; auto. split; [unfold a_nnode; now rewrite Ek, Ln|].
  intros i a Ha Hi. now apply (element_x m c (a_pad A) a i El).
Qed.
Lemma cell_grad d B : (forall p, (p < npoint (a_gauss A))%nat -> gradient_at (a_pad A) (ksi_at A p) (d p) (B p)) ->
  forall a j, (a < a_nnode A)%nat -> (j < p_space (a_pad A))%nat ->
  sum_n (npoint (a_gauss A)) (fun p => wt (a_gauss A) p * (d p * ent (B p) a j)) = weight_ratio (c_kind c) (a_gauss A) * Ncell m c a j.
Proof.
  intros Gr a j Ha Hj. destruct cell_pad as (W & Ek & Es & En & X). unfold Ncell, simple_kind in *. rewrite Es in Hj. rewrite En in Ha.
  assert (Ln : List.length (c_points c) = kind_nnode (c_kind c)) by (rewrite <- En; unfold a_nnode; now rewrite Ek).
  destruct D as [E|E]; rewrite E in *.
  - rewrite (grad_rule_2d A n d B a j W Es); [|rewrite Ek; exact Sk|rewrite Ek; exact G|exact Gr|rewrite En; exact Ha|exact Hj]. rewrite Ek. f_equal.
    assert (Hx : forall a, (a < kind_nnode (c_kind c))%nat -> (next2 (c_kind c) a < kind_nnode (c_kind c))%nat /\ (prev2 (c_kind c) a < kind_nnode (c_kind c))%nat).
    { clear - Sk. intros a. destruct Sk as [-> | ->]; [change (kind_nnode Tri3) with 3%nat|change (kind_nnode Qua4) with 4%nat]; intros H; destruct a as [|[|[|[|a]]]]; cbn; lia. }
    rewrite <- Ln in Hx. destruct (Hx a Ha) as (H1 & H2). unfold nrm2. destruct j; rewrite !X by (auto; lia); reflexivity.
  - rewrite (grad_rule_3d A n d B a j W Es); [|rewrite Ek; exact Sk|rewrite Ek; exact G|exact Gr|rewrite En; exact Ha|exact Hj]. rewrite Ek. f_equal.
    rewrite Sk in Ln. change (kind_nnode Tet4) with 4%nat in Ln. rewrite Ln in *. unfold nrm3, vector_product.
    destruct a as [|[|[|[|a]]]]; try lia; destruct j as [|[|[|j]]]; try lia; rewrite !X by lia; reflexivity.
Qed.
Lemma cell_round_2d P j : MeshModel.ndim m = 2%nat -> (j < 2)%nat -> at_point (c_points c) P (fun a => Ncell m c a j) = round_edges (half_edge m P j) c.
Proof.
  intros E Hj. destruct cell_pad as (W & Ek & Es & En & X). unfold a_nnode in En. rewrite Ek in En. unfold at_point. rewrite <- En. unfold Ncell, simple_kind, round_edges, sum_over, half_edge, at_point, sum_n, sum in *. rewrite E in *.
  clear - Sk Hj En. destruct c as [ci cm ck ps]. cbn [c_kind c_points] in *.
  destruct Sk as [-> | ->]; [change (kind_nnode Tri3) with 3%nat in *; destruct ps as [|x0 [|x1 [|x2 [|x3 ps]]]]; try discriminate En
    |change (kind_nnode Qua4) with 4%nat in *; destruct ps as [|x0 [|x1 [|x2 [|x3 [|x4 ps]]]]]; try discriminate En];
    cbn -[Nat.eqb]; repeat match goal with |- context [Nat.eqb ?a P] => destruct (Nat.eqb a P) end; destruct j as [|[|j]]; try lia; cbn; lra.
Qed.
Lemma cell_round_3d P j : MeshModel.ndim m = 3%nat -> (j < 3)%nat -> at_point (c_points c) P (fun a => Ncell m c a j) = round_faces (third_face m P j) c.
Proof.
  intros E Hj. destruct cell_pad as (W & Ek & Es & En & X). unfold a_nnode in En. rewrite Ek in En. unfold at_point. rewrite <- En. unfold Ncell, simple_kind, round_faces, sum_over, third_face, at_point, sum_n, sum in *. rewrite E in *.
  clear - Sk Hj En. destruct c as [ci cm ck ps]. cbn [c_kind c_points] in *. rewrite Sk in *.
  change (kind_nnode Tet4) with 4%nat in *; destruct ps as [|x0 [|x1 [|x2 [|x3 [|x4 ps]]]]]; try discriminate En.
  cbn -[Nat.eqb]. unfold vector_product, from_to. repeat match goal with |- context [Nat.eqb ?a P] => destruct (Nat.eqb a P) end; destruct j as [|[|[|j]]]; try lia; cbn; lra.
Qed.
End Cell.
