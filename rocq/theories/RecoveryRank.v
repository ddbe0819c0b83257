(* The interpolation matrices have full rank: certificates and their soundness.  The entries are evaluated in
   fixed-point arithmetic with 24 fractional bits; the accumulated rounding error is accounted for. *)
From Coq Require Import Reals List Arith Lia Lra Bool ZArith QArith Qreals.
From Verif Require Import Base BaseFacts Kind Expr ExprProof ShapesModel ShapesSpec ShapesProof PadModel PadSpec PadProof GaussModel GaussSpec GaussProof GaussProof2 GaussProof3 IntegProof.
Import ListNotations.
Local Open Scope list_scope.
Local Open Scope R_scope.

(** ** a matrix with an approximate left inverse has a trivial kernel *)
Lemma largest n (u : nat -> R) : (0 < n)%nat -> exists i, (i < n)%nat /\ forall j, (j < n)%nat -> Rabs (u j) <= Rabs (u i).
Proof.
  induction n as [|n IH]; [lia|]. intros _. destruct n as [|n].
  - exists 0%nat. split; [lia|]. intros j Hj. replace j with 0%nat by lia. lra.
  - destruct IH as (i & Hi & M); [lia|]. destruct (Rle_dec (Rabs (u i)) (Rabs (u (S n)))) as [L|L].
    + exists (S n). split; [lia|]. intros j Hj. destruct (Nat.eq_dec j (S n)) as [->|]; [lra|]. specialize (M j ltac:(lia)). lra.
    + exists i. split; [lia|]. intros j Hj. destruct (Nat.eq_dec j (S n)) as [->|]; [lra|]. apply M. lia.
Qed.
Lemma sum_n_abs n f : Rabs (sum_n n f) <= sum_n n (fun i => Rabs (f i)).
Proof.
  induction n as [|n IH]; [rewrite !sum_n_0, Rabs_R0; lra|]. rewrite !sum_n_S. eapply Rle_trans; [apply Rabs_triang|lra].
Qed.
Lemma sum_n_le n f g : (forall i, (i < n)%nat -> f i <= g i) -> sum_n n f <= sum_n n g.
Proof.
  induction n as [|n IH]; intros H; [rewrite !sum_n_0; lra|]. rewrite !sum_n_S. specialize (IH ltac:(intros; apply H; lia)). specialize (H n ltac:(lia)). lra.
Qed.
Lemma contraction n K (d : nat -> nat -> R) (u : nat -> R) : 0 < K ->
  (forall i, (i < n)%nat -> K * u i = sum_n n (fun j => d i j * u j)) ->
  (forall i, (i < n)%nat -> 2 * sum_n n (fun j => Rabs (d i j)) <= K) -> forall i, (i < n)%nat -> u i = 0.
Proof.
  intros HK E B i Hi. destruct (largest n u ltac:(lia)) as (m & Hm & M). specialize (E m Hm). specialize (B m Hm).
  assert (A : K * Rabs (u m) <= sum_n n (fun j => Rabs (d m j)) * Rabs (u m)).
  { rewrite <- (Rabs_right K) at 1 by lra. rewrite <- Rabs_mult, E, <- sum_n_scal_r. eapply Rle_trans; [apply sum_n_abs|].
    apply sum_n_le. intros j Hj. rewrite Rabs_mult. apply Rmult_le_compat_l; auto using Rabs_pos. }
  pose proof (Rabs_pos (u m)) as P. assert (Z0 : Rabs (u m) = 0).
  { apply Rle_antisym; auto. apply (Rmult_le_reg_l (K / 2)); [lra|].
    assert (sum_n n (fun j => Rabs (d m j)) * Rabs (u m) <= K / 2 * Rabs (u m)) by (apply Rmult_le_compat_r; auto; lra). lra. }
  specialize (M i Hi). pose proof (Rabs_pos (u i)). destruct (Req_dec (u i) 0) as [|N]; auto. apply Rabs_pos_lt in N. lra.
Qed.

Fixpoint zdot (a b : list Z) : Z := match a, b with x :: a', y :: b' => (x * y + zdot a' b')%Z | _, _ => 0%Z end.
Definition zabs (l : list Z) : Z := fold_right (fun x s => (Z.abs x + s)%Z) 0%Z l.
Definition kd (K : Z) (i j : nat) : Z := if (i =? j)%nat then K else 0%Z.
(* l: row i of the approximate inverse, cols: the columns of the matrix, entries within e, K: the scale *)
Definition row_check (K e : Z) (r : nat) (cols : list (list Z)) (i : nat) (l : list Z) : bool :=
  ((List.length l =? r)%nat &&
   (2 * (zabs (map (fun jc => zdot l (snd jc) - kd K i (fst jc)) (combine (seq 0 r) cols)) + Z.of_nat r * (e * zabs l)) <=? K))%Z.
Definition mat_check (K e : Z) (r : nat) (cols ls : list (list Z)) : bool :=
  ((List.length cols =? r)%nat && forallb (fun c => List.length c =? r)%nat cols && (List.length ls =? r)%nat &&
   forallb (fun il => row_check K e r cols (fst il) (snd il)) (combine (seq 0 r) ls) && (0 <? K)%Z && (0 <=? e)%Z)%bool.

Lemma zdot_sum a : forall b n, List.length a = n -> List.length b = n -> IZR (zdot a b) = sum_n n (fun i => IZR (nth i a 0%Z) * IZR (nth i b 0%Z)).
Proof.
  induction a as [|x a IH]; intros [|y b] n; cbn [List.length]; intros <- H; try discriminate; [reflexivity|].
  injection H as H. cbn [zdot]. rewrite plus_IZR, mult_IZR, (IH b _ eq_refl H), sum_n_head. reflexivity.
Qed.
Lemma zabs_sum l : forall n, List.length l = n -> IZR (zabs l) = sum_n n (fun i => Rabs (IZR (nth i l 0%Z))).
Proof.
  induction l as [|x l IH]; cbn [List.length]; intros n <-; [reflexivity|]. cbn [zabs fold_right]. rewrite plus_IZR, abs_IZR. fold (zabs l). rewrite (IH _ eq_refl), sum_n_head. reflexivity.
Qed.
Lemma nth_combine_seq {A} (l : list A) d : forall s i, (i < List.length l)%nat -> nth i (combine (seq s (List.length l)) l) (0%nat, d) = ((s + i)%nat, nth i l d).
Proof.
  induction l as [|a l IH]; intros s i H; cbn [List.length] in *; [lia|]. cbn [seq combine]. destruct i as [|i]; cbn [nth]; [f_equal; lia|].
  rewrite (IH (S s) i ltac:(lia)). f_equal. lia.
Qed.

Lemma cert_trivial K D e r cols ls (C : nat -> nat -> R) (u : nat -> R) : mat_check K e r cols ls = true ->
  (forall l j, (l < r)%nat -> (j < r)%nat -> Rabs (IZR (nth l (nth j cols []) 0%Z) - C l j * D) <= IZR e) ->
  (forall l, (l < r)%nat -> sum_n r (fun j => C l j * u j) = 0) -> forall j, (j < r)%nat -> u j = 0.
Proof.
  unfold mat_check. rewrite !andb_true_iff, !forallb_forall, !Nat.eqb_eq, Z.ltb_lt, Z.leb_le. intros (((((Lc & Fc) & Ll) & Fl) & HK) & He) NC Z0.
  apply (IZR_lt 0) in HK. apply (IZR_le 0) in He.
  set (X := fun i l => IZR (nth l (nth i ls []) 0%Z)).
  assert (Lcol : forall j, (j < r)%nat -> List.length (nth j cols []) = r) by (intros j Hj; apply Nat.eqb_eq, Fc, nth_In; lia).
  apply (contraction r (IZR K) (fun i j => IZR K * delta i j - sum_n r (fun l => X i l * (C l j * D)))); auto.
  - intros i Hi. symmetry.
    rewrite (sum_n_ext _ _ (fun j => delta i j * (IZR K * u j) + (- 1) * sum_n r (fun l => (X i l * D) * (C l j * u j)))).
    2:{ intros j Hj. rewrite <- sum_n_scal. rewrite Rmult_minus_distr_r. unfold Rminus. f_equal; [ring|].
        rewrite <- sum_n_scal_r. rewrite Ropp_mult_distr_l_reverse || idtac.
        replace (- sum_n r (fun i0 => X i i0 * (C i0 j * D) * u j)) with (-1 * sum_n r (fun i0 => X i i0 * (C i0 j * D) * u j)) by ring.
        rewrite <- sum_n_scal. apply sum_n_ext. intros; ring. }
    rewrite sum_n_plus, sum_n_delta by auto. rewrite sum_n_scal, sum_n_swap.
    rewrite (sum_n_zero r (fun i0 => sum_n r (fun j => X i i0 * D * (C i0 j * u j)))); [ring|].
    intros l Hl. rewrite sum_n_scal, Z0 by auto. ring.
  - intros i Hi.
    assert (J : In (i, nth i ls []) (combine (seq 0 r) ls)).
    { pose proof (nth_combine_seq ls [] 0 i ltac:(lia)) as E. rewrite Ll in E. cbn [Nat.add] in E. rewrite <- E. apply nth_In. rewrite combine_length, seq_length. lia. }
    specialize (Fl _ J). cbn [fst snd] in Fl. unfold row_check in Fl. rewrite andb_true_iff, Nat.eqb_eq, Z.leb_le in Fl. destruct Fl as [Lr Fl].
    set (row := nth i ls []) in *. apply IZR_le in Fl. rewrite !mult_IZR, plus_IZR, !mult_IZR, <- INR_IZR_INZ in Fl.
    rewrite (zabs_sum _ r) in Fl by (rewrite map_length, combine_length, seq_length; lia).
    rewrite (zabs_sum row r Lr) in Fl.
    eapply Rle_trans; [apply Rmult_le_compat_l; [lra|]|exact Fl].
    replace (INR r * (IZR e * sum_n r (fun i0 => Rabs (IZR (nth i0 row 0%Z))))) with (sum_n r (fun j : nat => IZR e * sum_n r (fun i0 => Rabs (IZR (nth i0 row 0%Z))))).
    2:{ clear. generalize (IZR e * sum_n r (fun i0 => Rabs (IZR (nth i0 row 0%Z)))). intros c. induction r as [|n IH]; [rewrite sum_n_0; simpl; ring|]. rewrite sum_n_S, IH, S_INR. ring. }
    rewrite <- sum_n_plus. apply sum_n_le. intros j Hj.
    rewrite (nth_map_in (fun jc : nat * list Z => (zdot row (snd jc) - kd K i (fst jc))%Z) (combine (seq 0 r) cols) j (0%nat, []) 0%Z) by (rewrite combine_length, seq_length; lia).
    pose proof (nth_combine_seq cols [] 0 j ltac:(lia)) as E. rewrite Lc in E. rewrite E. cbn [fst snd Nat.add].
    rewrite minus_IZR, (zdot_sum row _ r) by auto.
    assert (Ek : IZR (kd K i j) = IZR K * delta i j) by (unfold kd, delta; destruct (i =? j)%nat; ring). rewrite Ek.
    replace (IZR K * delta i j - sum_n r (fun l => X i l * (C l j * D))) with
      (- (sum_n r (fun l => IZR (nth l row 0%Z) * IZR (nth l (nth j cols []) 0%Z)) - IZR K * delta i j) + sum_n r (fun l => X i l * (IZR (nth l (nth j cols []) 0%Z) - C l j * D))).
    2:{ rewrite (sum_n_ext r (fun l => X i l * (IZR (nth l (nth j cols []) 0%Z) - C l j * D)) (fun l => IZR (nth l row 0%Z) * IZR (nth l (nth j cols []) 0%Z) + (-1) * (X i l * (C l j * D)))) by (intros; unfold X, row; ring).
        rewrite sum_n_plus, sum_n_scal. ring. }
    eapply Rle_trans; [apply Rabs_triang|]. rewrite Rabs_Ropp. apply Rplus_le_compat_l.
    eapply Rle_trans; [apply sum_n_abs|]. rewrite <- sum_n_scal. apply sum_n_le. intros l Hl. rewrite Rabs_mult. unfold X. fold row. rewrite Rmult_comm.
    apply Rmult_le_compat_r; auto using Rabs_pos.
Qed.

(** ** fixed-point evaluation *)
Definition sfx : Z := Eval vm_compute in (2 ^ 24)%Z.
Notation SFX := (IZR sfx).
Definition near (v : Z) (x e : R) : Prop := (Z.abs v <= sfx)%Z /\ Rabs x <= 1 /\ Rabs (IZR v - x * SFX) <= e.
Definition qmul (v w : Z) : Z := Z.shiftr (v * w) 24.
Lemma SFX_pos : 0 < SFX. Proof. apply (IZR_lt 0). reflexivity. Qed.
Lemma near_mul v w x y e f : near v x e -> near w y f -> near (qmul v w) (x * y) (e + f + 1).
Proof.
  intros (Bv & Vx & Nv) (Bw & Wy & Nw). unfold qmul. rewrite Z.shiftr_div_pow2 by lia. change (2 ^ 24)%Z with sfx.
  assert (Sp : (0 < sfx)%Z) by reflexivity. pose proof SFX_pos as Sl.
  pose proof (Z.div_mod (v * w) sfx ltac:(lia)) as DM. pose proof (Z.mod_pos_bound (v * w) sfx Sp) as MB.
  set (q := (v * w / sfx)%Z) in *. set (r := (v * w mod sfx)%Z) in *.
  assert (P : (Z.abs (v * w) <= sfx * sfx)%Z) by (rewrite Z.abs_mul; apply Z.mul_le_mono_nonneg; lia).
  split; [|split].
  - apply Z.abs_le in P. apply Z.abs_le. split.
    + assert (- sfx < q + 1)%Z; [|lia]. apply (Z.mul_lt_mono_pos_l sfx); auto. lia.
    + apply (Z.mul_le_mono_pos_l _ _ sfx); auto. lia.
  - rewrite Rabs_mult, <- (Rmult_1_l 1). apply Rmult_le_compat; auto using Rabs_pos.
  - apply (f_equal IZR) in DM. rewrite mult_IZR, plus_IZR, mult_IZR in DM.
    assert (R0 : 0 <= IZR r <= SFX) by (split; apply IZR_le; lia).
    assert (Bw' : Rabs (IZR w) <= SFX) by (rewrite <- abs_IZR; now apply IZR_le).
    apply (Rmult_le_reg_l SFX); auto.
    assert (T : Rabs (SFX * IZR q - x * y * SFX * SFX) <= e * SFX + f * SFX + SFX).
    { replace (SFX * IZR q - x * y * SFX * SFX) with ((IZR v - x * SFX) * IZR w + (x * SFX) * (IZR w - y * SFX) + - IZR r) by lra.
      eapply Rle_trans; [apply Rabs_triang|]. eapply Rle_trans; [apply Rplus_le_compat_r, Rabs_triang|].
      rewrite Rabs_Ropp, (Rabs_right (IZR r)) by lra. apply Rplus_le_compat; [apply Rplus_le_compat|lra].
      - rewrite Rabs_mult. apply Rmult_le_compat; auto using Rabs_pos.
      - rewrite !Rabs_mult, (Rabs_right SFX) by lra. rewrite (Rmult_comm f). apply Rmult_le_compat; auto using Rabs_pos.
        + apply Rmult_le_pos; [apply Rabs_pos|lra].
        + rewrite <- (Rmult_1_l SFX) at 2. apply Rmult_le_compat_r; lra. }
    rewrite <- (Rabs_right SFX) at 1 by lra. rewrite <- Rabs_mult. replace (SFX * (IZR q - x * y * SFX)) with (SFX * IZR q - x * y * SFX * SFX) by ring. lra.
Qed.
Lemma near_one : near sfx 1 0.
Proof. split; [vm_compute; discriminate|]. rewrite Rabs_R1, Rmult_1_l, Rminus_diag_eq, Rabs_R0 by auto. lra. Qed.
Definition coarse (x : Z) : Z := Z.shiftr x 38.
Lemma near_coarse x : (Z.abs x <= f64_scale)%Z -> near (coarse x) (f64 x) 1.
Proof.
  intros B. pose proof (f64_small x B) as V. unfold coarse. rewrite Z.shiftr_div_pow2 by lia.
  set (h := (2 ^ 38)%Z). assert (Hp : (0 < h)%Z) by reflexivity. assert (Hh : f64_scale = (h * sfx)%Z) by reflexivity.
  pose proof (Z.div_mod x h ltac:(lia)) as DM. pose proof (Z.mod_pos_bound x h Hp) as MB.
  set (q := (x / h)%Z) in *. set (r := (x mod h)%Z) in *. assert (Sp : (0 < sfx)%Z) by reflexivity. clearbody h q r.
  apply Z.abs_le in B. split; [|split; auto].
  - apply Z.abs_le. split.
    + assert (- sfx < q + 1)%Z; [|lia]. apply (Z.mul_lt_mono_pos_l h); auto. lia.
    + apply (Z.mul_le_mono_pos_l _ _ h); auto. lia.
  - assert (E : f64 x * SFX = IZR x / IZR h).
    { unfold f64. rewrite Hh, mult_IZR. field. split; apply Rgt_not_eq, (IZR_lt 0); auto. }
    rewrite E. apply (f_equal IZR) in DM. rewrite plus_IZR, mult_IZR in DM. apply (IZR_lt 0) in Hp.
    assert (R0 : 0 <= IZR r <= IZR h) by (split; apply IZR_le; lia).
    replace (IZR q - IZR x / IZR h) with (- (IZR r / IZR h)) by (rewrite DM; field; lra).
    rewrite Rabs_Ropp, Rabs_right; [apply (Rmult_le_reg_r (IZR h)); auto; unfold Rdiv; rewrite Rmult_assoc, Rinv_l by lra; lra|].
    apply Rle_ge, Rmult_le_pos; [lra|]. left. now apply Rinv_0_lt_compat.
Qed.

Fixpoint qpow (x : Z) (n : nat) : Z := match n with O => sfx | S n' => qmul (qpow x n') x end.
Fixpoint qpowers (x acc : Z) (n : nat) : list Z := match n with O => [acc] | S n' => acc :: qpowers x (qmul acc x) n' end.
Lemma qpowers_near x v : near v x 1 -> forall n acc k, near acc (x ^ k) (2 * INR k) -> forall i, (i <= n)%nat ->
  near (nth i (qpowers v acc n) 0%Z) (x ^ (k + i)) (2 * INR (k + i)).
Proof.
  intros Nx. induction n as [|n IH]; intros acc k N i Hi; destruct i as [|i]; try lia; cbn [qpowers nth]; rewrite ?Nat.add_0_r; auto.
  replace (k + S i)%nat with (S k + i)%nat by lia. apply IH; [|lia].
  pose proof (near_mul _ _ _ _ _ _ N Nx) as M. rewrite S_INR. replace (x ^ S k) with (x ^ k * x) by (simpl; ring).
  replace (2 * (INR k + 1)) with (2 * INR k + 1 + 1) by ring. exact M.
Qed.
Definition pows (d : nat) (r : Z * Z * Z * Z) : list Z * list Z * list Z :=
  let '(x, y, z, _) := r in (qpowers (coarse x) sfx d, qpowers (coarse y) sfx d, qpowers (coarse z) sfx d).
Definition zmono (e : exponents) (p : list Z * list Z * list Z) : Z :=
  let '(a, b, c) := e in let '(px, py, pz) := p in qmul (nth c pz 0%Z) (qmul (nth b py 0%Z) (nth a px 0%Z)).
Lemma zmono_near d a b c x y z w : row_small (x, y, z, w) = true -> (a <= d)%nat -> (b <= d)%nat -> (c <= d)%nat ->
  Rabs (IZR (zmono (a, b, c) (pows d (x, y, z, w))) - monomial (a, b, c) (f64 x) (f64 y) (f64 z) * SFX) <= 2 * INR (a + b + c) + 2.
Proof.
  unfold row_small. rewrite !andb_true_iff, !Z.leb_le. intros [[Bx By] Bz] Ha Hb Hc. unfold zmono, pows, monomial.
  assert (I : forall t : R, near sfx (t ^ 0) (2 * INR 0)) by (intros t; simpl; rewrite Rmult_0_r; exact near_one).
  pose proof (qpowers_near _ _ (near_coarse x Bx) d sfx 0 (I _) a Ha) as Nx.
  pose proof (qpowers_near _ _ (near_coarse y By) d sfx 0 (I _) b Hb) as Ny.
  pose proof (qpowers_near _ _ (near_coarse z Bz) d sfx 0 (I _) c Hc) as Nz. cbn [Nat.add] in *.
  pose proof (near_mul _ _ _ _ _ _ Nz (near_mul _ _ _ _ _ _ Ny Nx)) as (_ & _ & N).
  replace (f64 x ^ a * f64 y ^ b * f64 z ^ c) with (f64 z ^ c * (f64 y ^ b * f64 x ^ a)) by ring.
  eapply Rle_trans; [exact N|]. rewrite !plus_INR. lra.
Qed.

(** ** the interpolation functions with integer coefficients *)
Definition zpoly := list (exponents * Z).
Definition zeval (p : zpoly) (w : list Z * list Z * list Z) : Z := fold_right (fun t s => (snd t * zmono (fst t) w + s)%Z) 0%Z p.
Definition zerr (p : zpoly) : Z :=
  fold_right (fun t s => let '(a, b, c) := fst t in (Z.abs (snd t) * (2 * Z.of_nat (a + b + c) + 2) + s)%Z) 0%Z p.
Definition zdeg_ok (d : nat) (p : zpoly) : bool := forallb (fun t => let '(a, b, c) := fst t in (a <=? d) && (b <=? d) && (c <=? d))%nat p.
Definition zpoly_at (p : zpoly) (x y z : R) : R := sum (map (fun t => IZR (snd t) * monomial (fst t) x y z) p).
Lemma zeval_near d p x y z w : row_small (x, y, z, w) = true -> zdeg_ok d p = true ->
  Rabs (IZR (zeval p (pows d (x, y, z, w))) - zpoly_at p (f64 x) (f64 y) (f64 z) * SFX) <= IZR (zerr p).
Proof.
  intros B. induction p as [|[[[a b] c] n] p IH]; cbn [zeval zdeg_ok forallb zerr fold_right fst snd zpoly_at map sum].
  - intros _. rewrite Rmult_0_l, Rminus_0_r, Rabs_R0. lra.
  - rewrite andb_true_iff. intros [D F]. specialize (IH F). rewrite !andb_true_iff, !Nat.leb_le in D. destruct D as [[Da Db] Dc].
    rewrite !plus_IZR, !mult_IZR, plus_IZR, mult_IZR, <- INR_IZR_INZ, abs_IZR.
    pose proof (zmono_near d a b c x y z w B Da Db Dc) as N. unfold zeval in IH at 1. unfold zpoly_at in IH. fold (zerr p).
    set (zm := IZR (zmono _ _)) in *. set (mo := monomial _ _ _ _) in *. set (ze := IZR (fold_right _ _ _)) in *. set (sm := sum _) in *.
    replace (IZR n * zm + ze - (IZR n * mo + sm) * SFX) with (IZR n * (zm - mo * SFX) + (ze - sm * SFX)) by ring.
    eapply Rle_trans; [apply Rabs_triang|]. apply Rplus_le_compat; auto. rewrite Rabs_mult. apply Rmult_le_compat_l; auto using Rabs_pos.
Qed.

Definition common (k : geokind) : positive :=
  match k with
  | Lin2 | Lin3 => 2 | Lin4 => 16 | Lin5 => 6 | Tri3 | Tri6 => 1 | Tri10 => 2 | Tri15 => 3
  | Qua4 | Qua8 | Qua9 => 4 | Qua12 => 32 | Qua16 => 256 | Qua17 => 12
  | Tet4 | Tet10 => 1 | Tet20 => 2 | Hex8 | Hex20 => 8 | Hex32 => 64
  end%positive.
Definition zterm (d : positive) (t : mono * Q) : exponents * Z := (toe (fst t), (Qnum (snd t) * (Zpos d / QDen (snd t)))%Z).
Definition zpolys (k : geokind) : list zpoly := map (map (zterm (common k))) (npolys k).
Definition zpolys_ok (k : geokind) : bool :=
  forallb (fun e => match norm e with Some _ => true | None => false end) (kind_interp k) &&
  forallb (forallb (fun t => (List.length (fst t) <=? 3)%nat && (QDen (snd t) * (Zpos (common k) / QDen (snd t)) =? Zpos (common k))%Z)) (npolys k) &&
  forallb (zdeg_ok 4) (zpolys k).
Lemma zpolys_checked : forallb zpolys_ok [Lin2; Lin3; Lin4; Lin5; Tri3; Tri6; Tri10; Tri15; Qua4; Qua8; Qua9; Qua12; Qua16; Qua17; Tet4; Tet10; Tet20; Hex8; Hex20; Hex32] = true.
Proof. vm_compute. reflexivity. Qed.
Lemma zpolys_fine k : zpolys_ok k = true.
Proof. pose proof zpolys_checked as H. rewrite forallb_forall in H. apply H. destruct k; simpl; tauto. Qed.
Lemma zpolys_eval k m x y z : (m < kind_nnode k)%nat ->
  zpoly_at (nth m (zpolys k) []) x y z = IZR (Zpos (common k)) * N_at k m x y z /\ zdeg_ok 4 (nth m (zpolys k) []) = true.
Proof.
  intros Hm. pose proof (zpolys_fine k) as F. unfold zpolys_ok in F. rewrite !andb_true_iff, !forallb_forall in F. destruct F as [[F1 F2] F3].
  assert (L : List.length (npolys k) = kind_nnode k) by (unfold npolys; rewrite map_length; destruct k; reflexivity).
  assert (J : In (nth m (npolys k) []) (npolys k)) by (apply nth_In; lia). specialize (F2 _ J). rewrite forallb_forall in F2. split.
  - rewrite (npolys_eval k m x y z) by (auto; apply forallb_forall; auto).
    rewrite <- to_poly_eval by (apply forallb_forall; intros t Ht; specialize (F2 t Ht); apply andb_true_iff in F2; tauto).
    unfold zpolys. rewrite (nth_map_in _ (npolys k) m []) by lia. unfold zpoly_at, polynomial, to_poly. rewrite !map_map.
    generalize (nth m (npolys k) []) F2. intros p. clear. induction p as [|t p IH]; intros F; cbn [map sum]; [ring|].
    rewrite IH by (intros; apply F; now right). specialize (F t (or_introl eq_refl)). rewrite andb_true_iff, Z.eqb_eq in F. destruct F as [_ F].
    rewrite Rmult_plus_distr_l. f_equal. unfold zterm. cbn [fst snd]. rewrite <- Rmult_assoc. f_equal.
    rewrite mult_IZR. unfold Q2R. apply (f_equal IZR) in F. rewrite mult_IZR in F.
    rewrite <- F. assert (P : IZR (QDen (snd t)) <> 0) by (apply Rgt_not_eq, (IZR_lt 0); reflexivity). rewrite Rmult_comm. rewrite (Rmult_comm (IZR (QDen (snd t)))), Rmult_assoc. f_equal. rewrite (Rmult_comm (IZR (Qnum (snd t)))), <- Rmult_assoc, Rinv_r by auto. lra.
  - apply F3. apply nth_In. unfold zpolys. rewrite map_length. unfold poly in *. rewrite L. exact Hm.
Qed.
