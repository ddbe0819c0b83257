(* Euclidean geometry on lists of coordinates; distances of the model. *)
From Coq Require Import String List Arith Bool Reals Lra Lia Psatz.
From Verif Require Import Base BaseFacts GeomModel GeomSpec.
Import ListNotations.
Open Scope R_scope.

Lemma Rleb_iff a b : Rleb a b = true <-> a <= b.
Proof. unfold Rleb. destruct (Rle_dec a b); split; intros; congruence || tauto. Qed.
Lemma Rleb_false a b : Rleb a b = false <-> b < a.
Proof. unfold Rleb. destruct (Rle_dec a b); split; intros; try congruence; lra. Qed.
Lemma Rltb_iff a b : Rltb a b = true <-> a < b.
Proof. unfold Rltb. destruct (Rlt_dec a b); split; intros; congruence || tauto. Qed.
Lemma Rltb_false a b : Rltb a b = false <-> b <= a.
Proof. unfold Rltb. destruct (Rlt_dec a b); split; intros; try congruence; lra. Qed.

Lemma sq0 (x : R) : 0 <= x * x.
Proof. pose proof (Rle_0_sqr x). unfold Rsqr in *. lra. Qed.
Lemma sqdist_nonneg a : forall b, 0 <= sqdist a b.
Proof. induction a as [|x a IH]; intros [|y b]; simpl; try lra. specialize (IH b). pose proof (sq0 (x - y)). lra. Qed.
Lemma sqdist_sym a : forall b, sqdist a b = sqdist b a.
Proof. induction a as [|x a IH]; intros [|y b]; simpl; auto. rewrite IH. ring. Qed.
Lemma sqdist_refl a : sqdist a a = 0.
Proof. induction a as [|x a IH]; simpl; auto. rewrite IH. ring. Qed.
Lemma euclid_nonneg a b : 0 <= euclid a b.
Proof. apply sqrt_pos. Qed.
Lemma euclid_sym a b : euclid a b = euclid b a.
Proof. unfold euclid. now rewrite sqdist_sym. Qed.
Lemma euclid_sq a b : euclid a b * euclid a b = sqdist a b.
Proof. apply sqrt_sqrt, sqdist_nonneg. Qed.

Lemma minkowski x y A B C : 0 <= A -> 0 <= B -> 0 <= C -> C <= A + B ->
  sqrt ((x + y) * (x + y) + C * C) <= sqrt (x * x + A * A) + sqrt (y * y + B * B).
Proof.
  intros HA HB HC H.
  assert (P : 0 <= x * x + A * A) by nra. assert (Q : 0 <= y * y + B * B) by nra.
  set (p := sqrt (x * x + A * A)). set (q := sqrt (y * y + B * B)).
  assert (Hp : p * p = x * x + A * A) by (apply sqrt_sqrt; auto).
  assert (Hq : q * q = y * y + B * B) by (apply sqrt_sqrt; auto).
  assert (p0 : 0 <= p) by apply sqrt_pos. assert (q0 : 0 <= q) by apply sqrt_pos.
  assert (K : x * y + A * B <= p * q).
  { destruct (Rle_lt_dec (x * y + A * B) 0) as [L|L]; [nra|].
    apply Rsqr_incr_0; [|lra|nra]. unfold Rsqr.
    replace (p * q * (p * q)) with ((p * p) * (q * q)) by ring. rewrite Hp, Hq.
    pose proof (sq0 (x * B - y * A)). lra. }
  rewrite <- (sqrt_square (p + q)) by lra.
  assert (M : C * C <= (A + B) * (A + B)) by (apply Rmult_le_compat; lra).
  apply sqrt_le_1; [pose proof (sq0 (x + y)); pose proof (sq0 C); lra|apply sq0|]. lra.
Qed.

Lemma euclid_cons x y a b : euclid (x :: a) (y :: b) = sqrt ((x - y) * (x - y) + euclid a b * euclid a b).
Proof. rewrite euclid_sq. reflexivity. Qed.
Lemma euclid_tri a : forall b c, List.length a = List.length b -> List.length b = List.length c ->
  euclid a c <= euclid a b + euclid b c.
Proof.
  induction a as [|x a IH]; intros [|y b] [|z c] L1 L2; try discriminate.
  - unfold euclid. simpl. rewrite sqrt_0. lra.
  - rewrite !euclid_cons. replace (x - z) with ((x - y) + (y - z)) by ring.
    apply minkowski; try apply euclid_nonneg. apply IH; auto.
Qed.
Lemma coord_le_euclid a : forall b i x y, nth_error a i = Some x -> nth_error b i = Some y -> Rabs (x - y) <= euclid a b.
Proof.
  induction a as [|u a IH]; intros [|v b] [|i] x y Ha Hb; try discriminate.
  - injection Ha as ->. injection Hb as ->. rewrite <- (sqrt_square (Rabs (x - y))) by apply Rabs_pos.
    apply sqrt_le_1; [apply sq0|apply (sqdist_nonneg (x :: a) (y :: b))|]. simpl.
    pose proof (sqdist_nonneg a b). rewrite <- Rabs_mult, Rabs_right; [lra|]. pose proof (sq0 (x - y)). lra.
  - eapply Rle_trans; [apply (IH b i x y Ha Hb)|]. unfold euclid. apply sqrt_le_1; [apply sqdist_nonneg|apply (sqdist_nonneg (u :: a) (v :: b))|].
    simpl. pose proof (sq0 (u - v)). lra.
Qed.

Lemma euclid_bound a : forall b e, 0 <= e -> List.length a = List.length b ->
  (forall i x y, nth_error a i = Some x -> nth_error b i = Some y -> Rabs (x - y) <= e) ->
  sqdist a b <= INR (List.length a) * (e * e).
Proof.
  induction a as [|x a IH]; intros [|y b] e E L H; try discriminate.
  - simpl. lra.
  - cbn [List.length]. rewrite S_INR. cbn [sqdist].
    assert (X : Rabs (x - y) <= e) by (apply (H 0%nat); reflexivity).
    assert (Y : sqdist a b <= INR (List.length a) * (e * e)).
    { apply IH; auto. intros i u v Hu Hv. apply (H (S i)); auto. }
    assert (Z : (x - y) * (x - y) <= e * e).
    { pose proof (Rabs_pos (x - y)). replace ((x - y) * (x - y)) with (Rabs (x - y) * Rabs (x - y)); [nra|].
      rewrite <- Rabs_mult. apply Rabs_right. pose proof (sq0 (x - y)). lra. }
    lra.
Qed.

(* ---- points with 2 or 3 coordinates ---- *)
Lemma len2 (a : list R) : List.length a = 2%nat -> exists x y, a = [x; y].
Proof. destruct a as [|x [|y [|]]]; try discriminate. eauto. Qed.
Lemma len3 (a : list R) : List.length a = 3%nat -> exists x y z, a = [x; y; z].
Proof. destruct a as [|x [|y [|z [|]]]]; try discriminate. eauto. Qed.

Lemma ppd_ok a b : (List.length a = 2 \/ List.length a = 3)%nat -> List.length b = List.length a ->
  point_point_distance a b = Ok (euclid a b).
Proof.
  intros [L|L] M; rewrite L in M.
  - apply len2 in L as (a0 & a1 & ->). apply len2 in M as (b0 & b1 & ->). unfold point_point_distance, euclid. simpl. f_equal. f_equal. ring.
  - apply len3 in L as (a0 & a1 & a2 & ->). apply len3 in M as (b0 & b1 & b2 & ->). unfold point_point_distance, euclid. simpl. f_equal. f_equal. ring.
Qed.

Lemma bad_len n : ((n <? 2) || (3 <? n))%nat = true <-> ~ (n = 2 \/ n = 3)%nat.
Proof. destruct n as [|[|[|[|n]]]]; simpl; split; intros; try lia; try discriminate; auto. Qed.
Lemma ppd_err a b : ~ ((List.length a = 2 \/ List.length a = 3)%nat /\ List.length b = List.length a) ->
  exists m, point_point_distance a b = Err m.
Proof.
  intros H. unfold point_point_distance. destruct (((List.length a <? 2) || (3 <? List.length a))%nat) eqn:E; [eauto|].
  destruct (List.length b =? List.length a)%nat eqn:F; [|simpl; eauto].
  exfalso. apply H. apply Nat.eqb_eq in F. split; auto.
  destruct (List.length a) as [|[|[|[|n]]]]; simpl in E; try discriminate; auto.
Qed.

(* the foot of the perpendicular from c to the line a-b *)
Definition dotd (a b c : list R) : R := fold_right Rplus 0 (map (fun t => (snd t - fst (fst t)) * (snd (fst t) - fst (fst t))) (combine (combine a b) c)).
Definition line_pt (a b : list R) (t : R) : list R := map (fun xy => fst xy + t * (snd xy - fst xy)) (combine a b).
Lemma line_pt_len a b t : List.length b = List.length a -> List.length (line_pt a b t) = List.length a.
Proof. intros L. unfold line_pt. rewrite map_length, combine_length, L. apply Nat.min_id. Qed.
Definition foot_t (a b c : list R) : R := dotd a b c / sqdist b a.

Lemma pld_ok a b c : (List.length a = 2 \/ List.length a = 3)%nat -> List.length b = List.length a -> List.length c = List.length a ->
  EPSILON < sqdist b a -> point_line_distance a b c = Ok (euclid c (line_pt a b (foot_t a b c))).
Proof.
  intros HL M N H.
  assert (E0 : 0 < EPSILON) by (unfold EPSILON; apply Rinv_0_lt_compat, pow_lt; lra).
  assert (NZ : sqdist b a <> 0) by lra.
  destruct HL as [L|L]; rewrite L in M, N.
  - apply len2 in L as (a0 & a1 & ->). apply len2 in M as (b0 & b1 & ->). apply len2 in N as (c0 & c1 & ->).
    simpl in H, NZ. unfold point_line_distance. simpl.
    rewrite (proj2 (Rleb_false _ _)) by lra. f_equal. unfold euclid. f_equal. unfold foot_t, dotd. simpl. field. lra.
  - apply len3 in L as (a0 & a1 & a2 & ->). apply len3 in M as (b0 & b1 & b2 & ->). apply len3 in N as (c0 & c1 & c2 & ->).
    simpl in H, NZ. unfold point_line_distance. simpl.
    rewrite (proj2 (Rleb_false _ _)) by lra. f_equal. unfold euclid. f_equal. unfold foot_t, dotd. simpl. field. lra.
Qed.

Lemma pld_err a b c : ~ ((List.length a = 2 \/ List.length a = 3)%nat /\ List.length b = List.length a /\ List.length c = List.length a /\ EPSILON < sqdist b a) ->
  exists m, point_line_distance a b c = Err m.
Proof.
  intros H. unfold point_line_distance. destruct (((List.length a <? 2) || (3 <? List.length a))%nat) eqn:E; [eauto|].
  destruct (List.length b =? List.length a)%nat eqn:F; [|simpl; eauto].
  destruct (List.length c =? List.length a)%nat eqn:G; [|simpl; eauto].
  apply Nat.eqb_eq in F, G.
  assert (L : (List.length a = 2 \/ List.length a = 3)%nat) by (destruct (List.length a) as [|[|[|[|n]]]]; simpl in E; try discriminate; auto).
  assert (D : sqdist b a <= EPSILON) by (destruct (Rle_lt_dec (sqdist b a) EPSILON); auto; exfalso; apply H; auto).
  clear H E. destruct L as [L|L]; rewrite L in F, G.
  - apply len2 in L as (a0 & a1 & ->). apply len2 in F as (b0 & b1 & ->). apply len2 in G as (c0 & c1 & ->).
    simpl in *. rewrite (proj2 (Rleb_iff _ _)) by lra. eauto.
  - apply len3 in L as (a0 & a1 & a2 & ->). apply len3 in F as (b0 & b1 & b2 & ->). apply len3 in G as (c0 & c1 & c2 & ->).
    simpl in *. rewrite (proj2 (Rleb_iff _ _)) by lra. eauto.
Qed.

(* Pythagoras: |c - p(t)|^2 = |c - p(t0)|^2 + (t - t0)^2 |b - a|^2 *)
Lemma sq_line_pt a : forall b c t, List.length b = List.length a -> List.length c = List.length a ->
  sqdist c (line_pt a b t) = sqdist c a - 2 * t * dotd a b c + t * t * sqdist b a.
Proof.
  induction a as [|x a IH]; intros [|y b] [|z c] t L M; try discriminate; simpl.
  - unfold dotd. simpl. ring.
  - specialize (IH b c t ltac:(auto) ltac:(auto)). unfold line_pt in IH. rewrite IH.
    unfold dotd. simpl. ring.
Qed.
Lemma dotd_line_pt a : forall b f e s, List.length b = List.length a -> List.length f = List.length a -> List.length e = List.length a ->
  dotd a b (line_pt f e s) = (1 - s) * dotd a b f + s * dotd a b e.
Proof.
  induction a as [|x a IH]; intros [|y b] [|u f] [|v e] s L M N; try discriminate; unfold dotd; simpl; [ring|].
  specialize (IH b f e s ltac:(auto) ltac:(auto) ltac:(auto)). unfold dotd, line_pt in IH. rewrite IH. ring.
Qed.
Lemma line_pt_line_pt a : forall b k s, List.length b = List.length a -> line_pt a (line_pt a b k) s = line_pt a b (s * k).
Proof.
  induction a as [|x a IH]; intros [|y b] k s L; try discriminate; auto.
  unfold line_pt. simpl. f_equal; [ring|]. apply IH. auto.
Qed.
Lemma foot_nearest a b c t : List.length b = List.length a -> List.length c = List.length a -> 0 < sqdist b a ->
  sqdist c (line_pt a b (foot_t a b c)) <= sqdist c (line_pt a b t).
Proof.
  intros L M H. rewrite !sq_line_pt by auto. unfold foot_t. set (d := dotd a b c). set (n := sqdist b a) in *.
  assert (X : (t * n - d) * (t * n - d) / n >= 0) by (apply Rle_ge, Rmult_le_pos; [apply sq0|left; now apply Rinv_0_lt_compat]).
  assert (Y : t * t * n - 2 * t * d - (- (2) * (d / n) * d + d / n * (d / n) * n) = (t * n - d) * (t * n - d) / n) by (field; lra).
  lra.
Qed.
Lemma foot_distance a b c : List.length b = List.length a -> List.length c = List.length a -> 0 < sqdist b a ->
  distance_to (on_line a b) c (euclid c (line_pt a b (foot_t a b c))).
Proof.
  intros L M H. split.
  - intros p (t & ->). unfold euclid. apply sqrt_le_1; try apply sqdist_nonneg. apply foot_nearest; auto.
  - eexists. split; [exists (foot_t a b c)|]; reflexivity.
Qed.
Lemma distance_unique S c d d' : distance_to S c d -> distance_to S c d' -> d = d'.
Proof. intros (A & p & P & E) (B & q & Q & F). apply A in Q. apply B in P. lra. Qed.

(* the distance to a set is 1-Lipschitz *)
Lemma distance_lip (S : list R -> Prop) (c c' : list R) (d d' : R) : (forall p, S p -> List.length p = List.length c) -> List.length c' = List.length c ->
  distance_to S c d -> distance_to S c' d' -> d' <= d + euclid c c'.
Proof.
  intros HS L (A & p & P & E) (B & q & Q & F). specialize (B _ P).
  pose proof (euclid_tri c' c p L (eq_sym (HS _ P))). rewrite (euclid_sym c' c) in H. lra.
Qed.
Lemma on_line_len a b p : List.length b = List.length a -> on_line a b p -> List.length p = List.length a.
Proof. intros L (t & ->). rewrite map_length, combine_length, L. apply Nat.min_id. Qed.
Lemma EPS_pos : 0 < EPSILON.
Proof. unfold EPSILON. apply Rinv_0_lt_compat, pow_lt. lra. Qed.

Lemma line_distance a b c : (List.length a = 2 \/ List.length a = 3)%nat -> List.length b = List.length a -> List.length c = List.length a ->
  EPSILON < sqdist b a -> exists d, point_line_distance a b c = Ok d /\ distance_to (on_line a b) c d.
Proof.
  intros HL L M H. rewrite pld_ok by auto. eexists. split; [reflexivity|]. apply foot_distance; auto. pose proof EPS_pos. lra.
Qed.

(* ---- circle ---- *)
Lemma reverse_tri a b c : List.length a = List.length b -> List.length b = List.length c ->
  Rabs (euclid a b - euclid a c) <= euclid b c.
Proof.
  intros L M. apply Rabs_le.
  pose proof (euclid_tri a b c L M). pose proof (euclid_tri a c b ltac:(congruence) ltac:(congruence)). rewrite (euclid_sym c b) in H0. lra.
Qed.
Lemma sqdist_zero a : forall b, List.length a = List.length b -> sqdist a b = 0 -> a = b.
Proof.
  induction a as [|x a IH]; intros [|y b] L H; try discriminate; auto. simpl in H.
  pose proof (sqdist_nonneg a b). pose proof (sq0 (x - y)). assert (Q : (x - y) * (x - y) = 0) by lra. apply Rmult_integral in Q. f_equal; [lra|]. apply IH; auto. lra.
Qed.
Lemma sq_line_ends a : forall b t, List.length b = List.length a ->
  sqdist a (line_pt a b t) = t * t * sqdist a b /\ sqdist b (line_pt a b t) = (1 - t) * (1 - t) * sqdist a b.
Proof.
  induction a as [|x a IH]; intros [|y b] t L; try discriminate; simpl.
  - split; ring.
  - destruct (IH b t ltac:(auto)) as (I & J). unfold line_pt in I, J. rewrite I, J. split; ring.
Qed.
Lemma euclid_line_ends a b t : List.length b = List.length a ->
  euclid a (line_pt a b t) = Rabs t * euclid a b /\ euclid b (line_pt a b t) = Rabs (1 - t) * euclid a b.
Proof.
  intros L. destruct (sq_line_ends a b t L) as (I & J). unfold euclid. rewrite I, J.
  rewrite (sqrt_mult_alt (t * t)), (sqrt_mult_alt ((1 - t) * (1 - t))) by apply sq0. rewrite <- (sqrt_Rsqr_abs t), <- (sqrt_Rsqr_abs (1 - t)). split; reflexivity.
Qed.
Lemma circle_distance center radius p : List.length center = 2%nat -> List.length p = 2%nat -> 0 <= radius ->
  exists d, point_circle_distance center radius p = Ok d /\
    distance_to (on_circle center radius) p (Rabs d) /\ (d < 0 <-> euclid center p < radius).
Proof.
  intros L M HR. exists (euclid center p - radius). split; [|split].
  - unfold point_circle_distance. rewrite L, M. simpl. rewrite ppd_ok by (auto; congruence). reflexivity.
  - split.
    + intros q (Lq & Eq). rewrite <- Eq. eapply Rle_trans; [apply (reverse_tri center p q); congruence|lra].
    + destruct (Req_dec (euclid center p) 0) as [Z|NZ].
      * assert (p = center) as ->.
        { symmetry. apply sqdist_zero; [congruence|]. rewrite <- euclid_sq, Z. ring. }
        apply len2 in L as (x & y & ->).
        assert (E : euclid [x; y] [x + radius; y] = radius).
        { transitivity (sqrt (radius * radius)); [|now apply sqrt_square]. unfold euclid. simpl. f_equal. ring. }
        exists [x + radius; y]. split; [split; [reflexivity|exact E]|]. rewrite E, Z.
        replace (0 - radius) with (- radius) by ring. rewrite Rabs_Ropp, Rabs_right; lra.
      * pose proof (euclid_nonneg center p) as NN.
        assert (P : 0 < euclid center p) by lra.
        destruct (euclid_line_ends center p (radius / euclid center p)) as (I & J); [congruence|].
        assert (K : 0 <= radius / euclid center p) by (apply Rmult_le_pos; [auto|left; now apply Rinv_0_lt_compat]).
        exists (line_pt center p (radius / euclid center p)). split.
        -- split; [apply line_pt_len; congruence|]. rewrite I, Rabs_right by lra. field. lra.
        -- rewrite J. rewrite <- (Rabs_right (euclid center p)) at 2 by lra. rewrite <- Rabs_mult. f_equal. field. lra.
  - split; intros; lra.
Qed.
Lemma circle_err center radius p : ~ (List.length center = 2%nat /\ List.length p = 2%nat) ->
  exists m, point_circle_distance center radius p = Err m.
Proof.
  intros H. unfold point_circle_distance. destruct (List.length center =? 2)%nat eqn:E; [|simpl; eauto].
  apply Nat.eqb_eq in E. rewrite E in *. destruct (List.length p =? 2)%nat eqn:F; [|simpl; eauto].
  apply Nat.eqb_eq in F. tauto.
Qed.

(* ---- cylinder ---- *)
Lemma perp_exists u v w : 0 < u * u + v * v + w * w -> exists x y z, x * x + y * y + z * z = 1 /\ x * u + y * v + z * w = 0.
Proof.
  intros H.
  assert (K : exists x y z, 0 < x * x + y * y + z * z /\ x * u + y * v + z * w = 0).
  { destruct (Req_dec u 0) as [->|NU].
    - exists 1, 0, 0. split; [lra|ring].
    - exists v, (- u), 0. split; [nra|ring]. }
  destruct K as (x & y & z & P & Q). set (n := sqrt (x * x + y * y + z * z)).
  assert (N : n * n = x * x + y * y + z * z) by (apply sqrt_sqrt; lra).
  assert (N0 : 0 < n) by (apply sqrt_lt_R0; auto).
  exists (x / n), (y / n), (z / n). split.
  - replace (x / n * (x / n) + y / n * (y / n) + z / n * (z / n)) with ((x * x + y * y + z * z) / (n * n)) by (field; lra).
    rewrite N. field. lra.
  - replace (x / n * u + y / n * v + z / n * w) with ((x * u + y * v + z * w) / n) by (field; lra). rewrite Q. field. lra.
Qed.

Lemma cylinder_distance a b radius p : List.length a = 3%nat -> List.length b = 3%nat -> List.length p = 3%nat -> 0 <= radius ->
  EPSILON < sqdist b a -> exists d0 d, point_cylinder_distance a b radius p = Ok d /\ distance_to (on_line a b) p d0 /\
    distance_to (on_cylinder a b radius) p (Rabs d) /\ (d < 0 <-> d0 < radius).
Proof.
  intros La Lb Lp HR HE. pose proof EPS_pos as HP.
  assert (P0 : 0 < sqdist b a) by lra.
  set (f := line_pt a b (foot_t a b p)).
  assert (D0 : distance_to (on_line a b) p (euclid p f)) by (apply foot_distance; congruence || auto).
  exists (euclid p f), (euclid p f - radius). split; [|split; [exact D0|split; [|split; intros; lra]]].
  - unfold point_cylinder_distance. rewrite La, Lb, Lp. simpl. rewrite pld_ok by (auto; congruence). reflexivity.
  - assert (LL : forall q, on_line a b q -> List.length q = 3%nat) by (intros q Hq; rewrite (on_line_len a b q) by (auto; congruence); auto).
    split.
    + intros q (Lq & Dq). apply Rabs_le.
      assert (X : radius <= euclid p f + euclid p q) by (eapply (distance_lip (on_line a b)); eauto; [intros; rewrite LL by auto|]; congruence).
      assert (Y : euclid p f <= radius + euclid q p) by (eapply (distance_lip (on_line a b)); eauto; [intros; rewrite LL by auto|]; congruence).
      rewrite (euclid_sym q p) in Y. lra.
    + (* move from the foot towards p, or in any perpendicular direction if p is on the axis *)
      assert (Lf : List.length f = 3%nat) by (unfold f; rewrite line_pt_len by congruence; auto).
      assert (K : exists e, List.length e = 3%nat /\ sqdist e f = 1 /\ dotd a b e = dotd a b f /\
                  (forall s, euclid p (line_pt f e s) = Rabs (euclid p f - s))).
      { destruct (Req_dec (euclid p f) 0) as [Z|NZ].
        - assert (p = f) as Epf by (apply sqdist_zero; [congruence|]; rewrite <- euclid_sq, Z; ring).
          apply len3 in La as (a0 & a1 & a2 & ->). apply len3 in Lb as (b0 & b1 & b2 & ->). apply len3 in Lf as (f0 & f1 & f2 & Ef).
          simpl in P0. destruct (perp_exists (b0 - a0) (b1 - a1) (b2 - a2)) as (x & y & z & U & V); [lra|].
          exists [f0 + x; f1 + y; f2 + z]. rewrite Epf, Ef. split; [reflexivity|]. split; [simpl; lra|]. split; [unfold dotd; simpl; lra|].
          intros s. rewrite Epf, Ef in Z. rewrite Z. replace (0 - s) with (- s) by ring. rewrite Rabs_Ropp.
          destruct (euclid_line_ends [f0; f1; f2] [f0 + x; f1 + y; f2 + z] s) as (I & _); [reflexivity|]. rewrite I.
          replace (euclid [f0; f1; f2] [f0 + x; f1 + y; f2 + z]) with 1; [ring|].
          unfold euclid. rewrite <- sqrt_1 at 1. f_equal. simpl. lra.
        - pose proof (euclid_nonneg p f) as NN. assert (PP : 0 < euclid p f) by lra.
          set (k := / euclid p f). exists (line_pt f p k). rewrite line_pt_len by congruence. split; [auto|].
          destruct (sq_line_ends f p k) as (I & J); [congruence|].
          split; [|split].
          + rewrite sqdist_sym, I. rewrite (sqdist_sym f p), <- euclid_sq. unfold k. field. lra.
          + (* p - f is perpendicular to the axis *)
            assert (DF : dotd a b p = dotd a b f).
            { unfold f. clear - La Lb Lp P0. unfold foot_t. set (d := dotd a b p). set (n := sqdist b a) in *.
              apply len3 in La as (a0 & a1 & a2 & ->). apply len3 in Lb as (b0 & b1 & b2 & ->). apply len3 in Lp as (p0 & p1 & p2 & ->).
              assert (Nn : n = (b0 - a0) * (b0 - a0) + ((b1 - a1) * (b1 - a1) + ((b2 - a2) * (b2 - a2) + 0))) by reflexivity.
              unfold dotd at 1. unfold line_pt. simpl.
              replace ((a0 + d / n * (b0 - a0) - a0) * (b0 - a0) + ((a1 + d / n * (b1 - a1) - a1) * (b1 - a1) + ((a2 + d / n * (b2 - a2) - a2) * (b2 - a2) + 0)))
                with (d / n * n) by (rewrite Nn; ring). field. lra. }
            rewrite dotd_line_pt by congruence. rewrite DF. ring.
          + intros s.
            assert (E : line_pt f (line_pt f p k) s = line_pt f p (s * k)).
            { apply line_pt_line_pt. congruence. }
            rewrite E. destruct (euclid_line_ends f p (s * k)) as (_ & J'); [congruence|]. rewrite J', (euclid_sym f p).
            rewrite <- (Rabs_right (euclid p f)) at 1 by lra. rewrite <- Rabs_mult. f_equal. unfold k. field. lra. }
      destruct K as (e & Le & E1 & E2 & E3).
      exists (line_pt f e radius).
      assert (Lq : List.length (line_pt f e radius) = 3%nat) by (rewrite line_pt_len by congruence; auto).
      split; [|apply E3].
      split; [congruence|].
      assert (FD : foot_t a b (line_pt f e radius) = foot_t a b p).
      { unfold foot_t at 1. assert (Q : dotd a b (line_pt f e radius) = foot_t a b p * sqdist b a).
        { unfold f. clear - La Lb Lp Le E2 P0. fold f in E2.
          assert (X : dotd a b (line_pt f e radius) = dotd a b f).
          { assert (Lf : List.length f = 3%nat) by (unfold f; rewrite line_pt_len by congruence; auto).
            rewrite dotd_line_pt by congruence. rewrite E2. ring. }
          fold f. rewrite X. unfold f. set (t := foot_t a b p).
          clear - La Lb. apply len3 in La as (a0 & a1 & a2 & ->). apply len3 in Lb as (b0 & b1 & b2 & ->). unfold dotd, line_pt. simpl. ring. }
        rewrite Q. field. lra. }
      pose proof (foot_distance a b (line_pt f e radius) ltac:(congruence) ltac:(congruence) P0) as DD. rewrite FD in DD. fold f in DD.
      replace radius with (euclid (line_pt f e radius) f) at 2; auto.
      rewrite euclid_sym. destruct (euclid_line_ends f e radius) as (I & _); [congruence|]. rewrite I, Rabs_right by lra.
      replace (euclid f e) with 1; [ring|]. unfold euclid. rewrite sqdist_sym, E1. symmetry. apply sqrt_1.
Qed.
Lemma cylinder_err a b radius p : ~ (List.length a = 3%nat /\ List.length b = 3%nat /\ List.length p = 3%nat /\ EPSILON < sqdist b a) ->
  exists m, point_cylinder_distance a b radius p = Err m.
Proof.
  intros H. unfold point_cylinder_distance. destruct (List.length a =? 3)%nat eqn:E; [|simpl; eauto].
  apply Nat.eqb_eq in E. rewrite E in *. destruct (List.length b =? 3)%nat eqn:F; [|simpl; eauto].
  destruct (List.length p =? 3)%nat eqn:G; [|simpl; eauto]. apply Nat.eqb_eq in F, G.
  destruct (pld_err a b p) as (m & ->); [|simpl; eauto]. intros (_ & _ & _ & X). tauto.
Qed.
