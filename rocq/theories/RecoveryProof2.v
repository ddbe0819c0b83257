(* Proofs about the recovery functions: the tables and the extrapolation matrix *)
From Coq Require Import String Reals List Arith Lia Lra Bool ZArith QArith Qreals.
From Verif Require Import Base BaseFacts Kind ShapesModel ShapesSpec ShapesProof GeomModel PadModel PadSpec PadProof PadProof2 GaussModel GaussSpec GaussProof2 GaussProof3
  TopoModel IntegModel IntegSpec IntegProof IntegProof2 IntegProof5 ConvertProof2 RecoveryData RecoveryModel RecoverySpec RecoveryProof RecoveryRank RecoveryRank2.
Import ListNotations.
Local Open Scope list_scope.
Local Open Scope R_scope.

(** ** the tables *)
Definition comp (r : Z * Z * Z * Z) (i : nat) : Z :=
  let '(x, y, z, w) := r in match i with 0%nat => x | 1%nat => y | 2%nat => z | _ => w end.
(* coordinates of the points followed by one *)
Definition zhat (geo : nat) (r : Z * Z * Z * Z) (l : nat) : Z := if (l <? geo)%nat then comp r l else f64_scale.
Definition hat_scale : Z := Eval vm_compute in (hxi_scale * f64_scale)%Z.
Definition table_ok (c : geoclass) (n : nat) : bool :=
  let geo := class_ndim c in
  match gauss_new_sized c n, get_tr_pinv_hxi c n with
  | Ok g, Ok tab =>
      ((List.length tab =? n)%nat && (npoint g =? n)%nat && forallb row_small (g_data g) &&
       forallb (fun k => forallb (fun l =>
         (1000000000000000 * Z.abs (zsum (map (fun bh => comp (fst bh) k * zhat geo (snd bh) l) (combine tab (g_data g))) - (if (k =? l)%nat then hat_scale else 0)) <=? 3 * hat_scale)%Z)
         (seq 0 (S geo))) (seq 0 (S geo)))%bool
  | _, _ => false
  end.
Lemma tables_checked : forallb (fun c => forallb (fun n => (n =? 1)%nat || table_ok c n) (rule_sizes c)) [CLin; CTri; CQua; CTet; CHex] = true.
Proof. vm_compute. reflexivity. Qed.

(* coordinate l of x, the last one being 1 *)
Definition ext (geo : nat) (x : nat -> R) (l : nat) : R := if (l <? geo)%nat then x l else 1.
Lemma hx_ext geo x b : hx geo x b = sum_n (S geo) (fun l => ext geo x l * vat b l).
Proof.
  unfold hx. rewrite sum_n_S. unfold ext at 2. rewrite Nat.ltb_irrefl, Rmult_1_l. f_equal. apply sum_n_ext. intros i Hi. unfold ext. now rewrite (proj2 (Nat.ltb_lt _ _) Hi).
Qed.
Lemma class_geo k : class_ndim (kind_class k) = kind_ndim k. Proof. destruct k; reflexivity. Qed.
Lemma class_geo3 c : (class_ndim c <= 3)%nat. Proof. destruct c; simpl; lia. Qed.

Lemma sum_map_combine {A B} (f : A * B -> R) (a : list A) (b : list B) da db n : List.length a = n -> List.length b = n ->
  sum (map f (combine a b)) = sum_n n (fun i => f (nth i a da, nth i b db)).
Proof.
  revert b n. induction a as [|x a IH]; intros [|y b] n; cbn [List.length]; intros <- H; try discriminate; [reflexivity|].
  injection H as H. cbn [combine map sum]. rewrite (IH b _ eq_refl H), sum_n_head. reflexivity.
Qed.
Lemma table_near c n g : gauss_new_sized c n = Ok g -> n <> 1%nat ->
  exists tab, get_tr_pinv_hxi c n = Ok tab /\ List.length tab = n /\
    forall k l, (k <= class_ndim c)%nat -> (l <= class_ndim c)%nat ->
      Rabs (sum_n n (fun j => vat (nth j (map hxi_row tab) []) k * ext (class_ndim c) (pt g j) l) - delta k l) <= hxi_eps.
Proof.
  intros G N. destruct (sized_in _ _ _ G) as [I _]. pose proof tables_checked as H. rewrite forallb_forall in H.
  specialize (H c ltac:(destruct c; simpl; tauto)). cbv beta in H. rewrite forallb_forall in H. specialize (H n I). apply orb_true_iff in H as [H|H].
  { apply Nat.eqb_eq in H. contradiction. }
  unfold table_ok in H. rewrite G in H. destruct (get_tr_pinv_hxi c n) as [tab| | |]; try discriminate.
  rewrite !andb_true_iff, !Nat.eqb_eq in H. destruct H as (((L & Np) & F) & T). exists tab. split; [reflexivity|]. split; auto.
  intros k l Hk Hl. rewrite forallb_forall in T. specialize (T k ltac:(apply in_seq; lia)). rewrite forallb_forall in T. specialize (T l ltac:(apply in_seq; lia)).
  apply Z.leb_le, IZR_le in T. rewrite !mult_IZR, abs_IZR, minus_IZR, IZR_zsum, map_map in T.
  rewrite (sum_map_combine _ tab (g_data g) row0 row0 n) in T by (auto; unfold npoint in Np; lia). cbn [fst snd] in T.
  assert (HS : IZR hat_scale = IZR hxi_scale * IZR f64_scale) by (rewrite <- mult_IZR; reflexivity).
  assert (P1 : 0 < IZR hxi_scale) by (apply (IZR_lt 0); reflexivity). assert (P2 : 0 < IZR f64_scale) by (apply (IZR_lt 0); reflexivity).
  set (G1 := class_ndim c) in *. pose proof (class_geo3 c) as G3. fold G1 in G3.
  assert (E : sum_n n (fun j => IZR (comp (nth j tab row0) k * zhat G1 (nth j (g_data g) row0) l)) =
              sum_n n (fun j => vat (nth j (map hxi_row tab) []) k * ext G1 (pt g j) l) * IZR hat_scale).
  { rewrite <- sum_n_scal_r. apply sum_n_ext. intros j Hj. rewrite (nth_map_in hxi_row tab j row0) by lia. rewrite mult_IZR.
    pose proof (pt_row g j ltac:(lia)) as Pt. rewrite HS.
    destruct (nth j tab row0) as [[[b0 b1] b2] b3]. destruct (nth j (g_data g) row0) as [[[x y] z] w]. destruct Pt as (Px & Py & Pz).
    assert (Eb : vat (hxi_row (b0, b1, b2, b3)) k * IZR hxi_scale = IZR (comp (b0, b1, b2, b3) k)).
    { unfold vat, hxi_row, comp. destruct k as [|[|[|[|k]]]]; [| | | |lia]; cbn [nth]; unfold hxi; field; lra. }
    assert (Ex : ext G1 (pt g j) l * IZR f64_scale = IZR (zhat G1 (x, y, z, w) l)).
    { unfold ext, zhat. destruct (l <? G1)%nat eqn:El; [|ring]. apply Nat.ltb_lt in El. unfold comp.
      destruct l as [|[|[|l]]]; [| | |lia]; rewrite ?Px, ?Py, ?Pz; unfold f64; field; lra. }
    rewrite <- Eb, <- Ex. ring. }
  rewrite E in T. set (s := sum_n n _) in *.
  replace (IZR (if (k =? l)%nat then hat_scale else 0%Z)) with (delta k l * IZR hat_scale) in T by (unfold delta; destruct (k =? l)%nat; ring).
  assert (P3 : 0 < IZR hat_scale) by (apply (IZR_lt 0); reflexivity). clearbody s.
  replace (s * IZR hat_scale - delta k l * IZR hat_scale) with ((s - delta k l) * IZR hat_scale) in T by ring.
  rewrite Rabs_mult, (Rabs_right (IZR hat_scale)) in T by lra. unfold hxi_eps.
  apply (Rmult_le_reg_r (IZR hat_scale)); auto. clear - T. set (X := Rabs (s - delta k l) * IZR hat_scale) in *. set (H := IZR hat_scale) in *. clearbody H.
  assert (1000000000000000 = 10 ^ 15) by lra. lra.
Qed.
