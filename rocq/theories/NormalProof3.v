(* Faces of solids. *)
From Coq Require Import String Reals QArith Qreals List Lia Lra Bool Arith ZArith.
From Verif Require Import Base BaseFacts Expr ExprProof ShapesData Kind MeshModel ShapesModel ShapesSpec ShapesProof ShapesShared
  GeomModel GeomProof PadModel PadSpec PadProof PadProof2 PadProof3 NormalSpec NormalProof.
Import ListNotations.
Local Open Scope list_scope.
Local Open Scope R_scope.

Lemma face_nnode_kind k fk : kind_face_kind k = Some fk -> kind_face_nnode k = kind_nnode fk.
Proof. destruct k; intros [= <-]; reflexivity. Qed.
Lemma face_kind_dim k fk : kind_face_kind k = Some fk -> kind_ndim fk = 2%nat /\ kind_ndim k = 3%nat.
Proof. destruct k; intros [= <-]; split; reflexivity. Qed.

Lemma face_pos p s f r t i : pad_wf p -> kind_face_kind (p_kind p) = Some (p_kind s) -> (f < kind_nface (p_kind p))%nat ->
  side_pad p s (face_node_id (p_kind p) f) -> (i < p_space p)%nat ->
  pos s [r; t] i = pos p (face_point (p_kind p) f r t) i.
Proof.
  intros W Ek He (Ws & Es & X) Hi. rewrite !pos_dot by (auto; congruence).
  rewrite (dot_comm (nth i (p_xxt p) [])), (face_conform _ _ _ _ _ _ Ek He) by now apply wf_row.
  rewrite dot_comm. f_equal.
  apply (nth_ext _ _ 0 0).
  - rewrite map_length, seq_length. apply wf_row; auto; congruence.
  - intros j Hj. rewrite wf_row in Hj by (auto; congruence).
    rewrite (nth_map_in _ _ _ 0%nat) by now rewrite seq_length.
    rewrite seq_nth by auto. cbn [Nat.add]. apply (X i j Hi Hj).
Qed.

(* the tangents of the face in the reference coordinates of the cell *)
Definition face_a (k : geokind) (f j : nat) : R :=
  let p i := nth j (ref_coords k (face_node_id k f i)) 0 in
  match kind_class k with CTet => p 1%nat - p 0%nat | _ => (p 1%nat - p 0%nat) / 2 end.
Definition face_b (k : geokind) (f j : nat) : R :=
  let p i := nth j (ref_coords k (face_node_id k f i)) 0 in
  match kind_class k with CTet => p 2%nat - p 0%nat | _ => (p 3%nat - p 0%nat) / 2 end.

Lemma face_curve k fk f r s : kind_face_kind k = Some fk -> (f < kind_nface k)%nat ->
  curve_at 3 (fun t => face_point k f t s) r (face_point k f r s) (face_a k f) /\
  curve_at 3 (fun t => face_point k f r t) s (face_point k f r s) (face_b k f).
Proof.
  intros E Hf. split; (split; [reflexivity|]); intros j Hj.
  - apply (dlim_ext (fun t => nth j (face_point k f 0 s) 0 + t * face_a k f j)); [|apply dlim_lin]. intros t.
    destruct k; try discriminate E; clear E; vm_compute in Hf;
      do 6 (try (destruct f as [|f]; [destruct j as [|[|[|j]]]; [cbn; unfold Q2R; simpl; field..|lia]|])); lia.
  - apply (dlim_ext (fun t => nth j (face_point k f r 0) 0 + t * face_b k f j)); [|apply dlim_lin]. intros t.
    destruct k; try discriminate E; clear E; vm_compute in Hf;
      do 6 (try (destruct f as [|f]; [destruct j as [|[|[|j]]]; [cbn; unfold Q2R; simpl; field..|lia]|])); lia.
Qed.

Lemma face_point_length k fk f r s : kind_face_kind k = Some fk -> (f < kind_nface k)%nat -> List.length (face_point k f r s) = 3%nat.
Proof. intros E Hf. destruct k; try discriminate E; clear E; vm_compute in Hf; do 6 (try (destruct f as [|f]; [reflexivity|])); lia. Qed.

(* the interior is behind the face *)
Lemma face_interior k fk f r s eta : kind_face_kind k = Some fk -> (f < kind_nface k)%nat -> strictly_inside (kind_class k) eta ->
  det 3 (fun i j => match j with 0%nat => face_a k f i | 1%nat => face_b k f i | _ => nth i eta 0 - nth i (face_point k f r s) 0 end) < 0.
Proof.
  intros E Hf. destruct k; try discriminate E; clear E; cbn [kind_class strictly_inside];
    (destruct eta as [|x [|y [|z [|]]]]; try contradiction); intros I;
    vm_compute in Hf; do 6 (try (destruct f as [|f]; [cbn; unfold Q2R; simpl; lra|])); lia.
Qed.

(* normal vector times its magnitude *)
Definition cross (t s : nat -> R) (i : nat) : R :=
  match i with
  | 0%nat => t 1%nat * s 2%nat - t 2%nat * s 1%nat
  | 1%nat => t 2%nat * s 0%nat - t 0%nat * s 2%nat
  | _ => t 0%nat * s 1%nat - t 1%nat * s 0%nat
  end.
Lemma normal_cross p n ksi mag un q : pad_wf p -> p_space p = 3%nat ->
  calc_normal_vector p n ksi = Ok (mag, un, q) ->
  kind_ndim (p_kind p) = 2%nat /\
  let c := cross (fun i => JJ p ksi i 0%nat) (fun i => JJ p ksi i 1%nat) in
  mag = sqrt (c 0%nat ^ 2 + c 1%nat ^ 2 + c 2%nat ^ 2) /\
  (0 < mag -> forall i, (i < 3)%nat -> nth i un 0 = c i / mag).
Proof.
  intros W S3. unfold calc_normal_vector, p_geo. rewrite S3. cbn [Nat.eqb andb].
  destruct (Nat.eqb_spec (kind_ndim (p_kind p)) 2) as [G|]; [|discriminate]. cbn [negb andb].
  destruct (Nat.eqb_spec n 3) as [->|]; [|discriminate]. cbn [negb].
  set (J := mat_mul _ _ _). cbv zeta. set (m := sqrt _). intros [= <- <- <-]. split; auto. cbn [cross].
  assert (G1 : m = sqrt ((ent J 1 0 * ent J 2 1 - ent J 2 0 * ent J 1 1) ^ 2 + (ent J 2 0 * ent J 0 1 - ent J 0 0 * ent J 2 1) ^ 2 +
      (ent J 0 0 * ent J 1 1 - ent J 1 0 * ent J 0 1) ^ 2)) by (subst m; f_equal; ring).
  split; [exact G1|]. intros Hm. rewrite (proj2 (Rltb_iff 0 m) Hm). intros i Hi.
  destruct i as [|[|[|i]]]; [reflexivity..|lia].
Qed.

Lemma face_tangents p s f r t i : pad_wf p -> kind_face_kind (p_kind p) = Some (p_kind s) -> (f < kind_nface (p_kind p))%nat ->
  side_pad p s (face_node_id (p_kind p) f) -> (i < p_space p)%nat ->
  JJ s [r; t] i 0%nat = sum_n 3 (fun j => JJ p (face_point (p_kind p) f r t) i j * face_a (p_kind p) f j) /\
  JJ s [r; t] i 1%nat = sum_n 3 (fun j => JJ p (face_point (p_kind p) f r t) i j * face_b (p_kind p) f j).
Proof.
  intros W Ek He Sp Hi. pose proof Sp as (Ws & Es & _). destruct (face_kind_dim _ _ Ek) as (D2 & D3).
  assert (J : jacobian_of s [r; t] (JJ s [r; t])) by (apply jj_partial; auto; rewrite D2; auto).
  destruct (face_curve _ _ f r t Ek He) as (Ca & Cb). split.
  - pose proof (pos_curve p _ r _ _ i W Hi ltac:(rewrite D3; exact Ca)) as B. rewrite D3 in B.
    assert (A := J i 0%nat ltac:(congruence) ltac:(lia)). unfold partial in A. cbn [nth set_coord] in A.
    eapply uniqueness_limite; [exact A|]. eapply dlim_ext; [|exact B]. intros x. cbn beta. symmetry. now apply face_pos.
  - pose proof (pos_curve p _ t _ _ i W Hi ltac:(rewrite D3; exact Cb)) as B. rewrite D3 in B.
    assert (A := J i 1%nat ltac:(congruence) ltac:(lia)). unfold partial in A. cbn [nth set_coord] in A.
    eapply uniqueness_limite; [exact A|]. eapply dlim_ext; [|exact B]. intros x. cbn beta. symmetry. now apply face_pos.
Qed.

Lemma face_normal p s f r t mag un q : pad_wf p -> p_space p = 3%nat ->
  kind_face_kind (p_kind p) = Some (p_kind s) -> (f < kind_nface (p_kind p))%nat ->
  side_pad p s (face_node_id (p_kind p) f) ->
  calc_normal_vector s 3 [r; t] = Ok (mag, un, q) ->
  forall a, jacobian_of p (face_point (p_kind p) f r t) a ->
  (0 < det 3 a -> 0 < mag /\ points_out p (face_point (p_kind p) f r t) un) /\
  (det 3 a < 0 -> 0 < mag /\ points_in p (face_point (p_kind p) f r t) un).
Proof.
  intros W Sp Ek He Sd H a Ja. pose proof Sd as (Ws & Es & _). destruct (face_kind_dim _ _ Ek) as (D2 & D3).
  pose proof (fun i => face_tangents p s f r t i W Ek He Sd) as T. rewrite Sp in T.
  pose proof (fun eta => face_interior _ _ f r t eta Ek He) as In3.
  assert (Lx : List.length (face_point (p_kind p) f r t) = 3%nat) by (eapply face_point_length; eauto).
  set (xi := face_point (p_kind p) f r t) in *.
  assert (Da : det 3 a = det 3 (JJ p xi)).
  { apply det_ext. intros i j Hi Hj. apply (jacobian_unique p xi); auto; try lia. apply jj_partial; auto. lia. }
  destruct (normal_cross s 3 [r; t] mag un q Ws ltac:(congruence) H) as (_ & M & U). cbv zeta in *.
  destruct (T 0%nat ltac:(lia)) as (A0 & B0). destruct (T 1%nat ltac:(lia)) as (A1 & B1). destruct (T 2%nat ltac:(lia)) as (A2 & B2). clear T.
  set (J := JJ p xi) in *. set (c := cross _ _) in *.
  unfold sum_n in A0, B0, A1, B1, A2, B2. cbn [seq map sum] in A0, B0, A1, B1, A2, B2.
  set (a_ := face_a (p_kind p) f) in *. set (b_ := face_b (p_kind p) f) in *.
  assert (G : forall eta, sum_n 3 (fun i => c i * sum_n 3 (fun j => J i j * (nth j eta 0 - nth j xi 0))) =
    det 3 J * det 3 (fun i j => match j with 0%nat => a_ i | 1%nat => b_ i | _ => nth i eta 0 - nth i xi 0 end)).
  { intros eta. subst c. unfold sum_n. cbn [seq map sum det cross]. rewrite A0, B0, A1, B1, A2, B2. ring. }
  assert (Mp : det 3 J <> 0 -> 0 < mag).
  { intros N. rewrite M. apply sqrt_lt_R0.
    destruct (Req_dec (c 0%nat) 0) as [Z0|Z0]; [|nra]. destruct (Req_dec (c 1%nat) 0) as [Z1|Z1]; [|nra].
    destruct (Req_dec (c 2%nat) 0) as [Z2|Z2]; [|nra]. exfalso.
    assert (exists eta, strictly_inside (kind_class (p_kind p)) eta) as (eta & I).
    { destruct (kind_class (p_kind p)) eqn:Kc; [| | | |].
      - exists [0]. cbn. lra. - exists [1/4; 1/4]. cbn. lra. - exists [0; 0]. cbn. lra. - exists [1/4; 1/4; 1/4]. cbn. lra. - exists [0;0;0]. cbn. lra. }
    specialize (In3 eta I). specialize (G eta). set (dd := det 3 (fun i j => _)) in *. set (dj := det 3 J) in *. clearbody dd dj.
    unfold sum_n at 1 in G. cbn [seq map sum] in G. rewrite Z0, Z1, Z2 in G. nra. }
  assert (S0 : forall eta, 0 < mag -> sum_n (p_space p) (fun i => nth i un 0 * sum_n (kind_ndim (p_kind p)) (fun j => J i j * (nth j eta 0 - nth j xi 0)))
    = det 3 J / mag * det 3 (fun i j => match j with 0%nat => a_ i | 1%nat => b_ i | _ => nth i eta 0 - nth i xi 0 end)).
  { intros eta Hm. specialize (U Hm). specialize (G eta). rewrite Sp, D3.
    set (dd := det 3 (fun i j => _)) in *. set (dj := det 3 J) in *. clearbody dd dj.
    replace (dj / mag * dd) with (dj * dd / mag) by (field; lra). rewrite <- G.
    unfold sum_n at 1 3. cbn [seq map sum]. rewrite !U by lia. field. lra. }
  rewrite Da. split; intros Hd.
  - specialize (Mp ltac:(lra)). split; auto. apply slope_out; auto; try lia. intros eta I. fold J. rewrite (S0 eta Mp).
    specialize (In3 eta I). assert (0 < det 3 J / mag) by (apply Rdiv_lt_0_compat; auto).
    set (dd := det 3 (fun i j => _)) in *. clearbody dd. nra.
  - specialize (Mp ltac:(lra)). split; auto. apply slope_in; auto; try lia. intros eta I. fold J. rewrite (S0 eta Mp).
    specialize (In3 eta I). assert (K : 0 < (- det 3 J) / mag) by (apply Rdiv_lt_0_compat; lra).
    replace ((- det 3 J) / mag) with (- (det 3 J / mag)) in K by (field; lra).
    set (dd := det 3 (fun i j => _)) in *. clearbody dd. nra.
Qed.
