(* Cells of a grid, container keys, histories of insertions. *)
From Coq Require Import String List Arith Bool Reals ZArith Lra Lia Permutation.
From Verif Require Import Base BaseFacts TopoModel TopoMaps GeomModel GeomSpec GeomProof GridModel GridSpec.
Import ListNotations.
Open Scope R_scope.

(* ---- truncation ---- *)
Lemma as_usize_unique r n : INR n <= r < INR n + 1 -> as_usize r = n.
Proof.
  intros H. unfold as_usize. rewrite <- (Nat2Z.id n). f_equal. symmetry. rewrite INR_IZR_INZ in H.
  destruct (base_Int_part r) as (A & B).
  assert (X : IZR (Z.of_nat n) < IZR (Int_part r) + 1) by lra. assert (Y : IZR (Int_part r) < IZR (Z.of_nat n) + 1) by lra.
  rewrite <- plus_IZR in X, Y. apply lt_IZR in X, Y. lia.
Qed.
Lemma as_usize_spec r : 0 <= r -> INR (as_usize r) <= r < INR (as_usize r) + 1.
Proof.
  intros H. unfold as_usize. destruct (base_Int_part r) as (A & B).
  assert (P : (0 <= Int_part r)%Z).
  { assert (X : IZR (-1) < IZR (Int_part r)) by (simpl; lra). apply lt_IZR in X. lia. }
  rewrite INR_IZR_INZ, Z2Nat.id by auto. lra.
Qed.

(* ---- the cell of a coordinate: half-open intervals, the last one closed ---- *)
Definition is_cell (s lo : R) (n : nat) (x : R) (c : nat) : Prop :=
  (c < n)%nat /\ lo + INR c * s <= x /\ (x < lo + (INR c + 1) * s \/ (c + 1 = n)%nat /\ x <= lo + s * INR n).

Lemma div_le a b s : 0 < s -> (a <= b / s <-> a * s <= b).
Proof.
  intros H. split; intros L.
  - apply (Rmult_le_compat_r s) in L; [|lra]. unfold Rdiv in L. rewrite Rmult_assoc, Rinv_l in L by lra. lra.
  - apply (Rmult_le_reg_r s); auto. unfold Rdiv. rewrite Rmult_assoc, Rinv_l by lra. lra.
Qed.
Lemma div_lt a b s : 0 < s -> (b / s < a <-> b < a * s).
Proof.
  intros H. split; intros L.
  - apply (Rmult_lt_compat_r s) in L; [|lra]. unfold Rdiv in L. rewrite Rmult_assoc, Rinv_l in L by lra. lra.
  - apply (Rmult_lt_reg_r s); auto. unfold Rdiv. rewrite Rmult_assoc, Rinv_l by lra. lra.
Qed.

Definition ratio (s lo x : R) : nat := as_usize ((x - lo) / s).
Definition cell (s lo : R) (n : nat) (x : R) : res nat := if (ratio s lo x =? n)%nat then dec (ratio s lo x) else Ok (ratio s lo x).
Lemma cell_unique s lo n x c : 0 < s -> is_cell s lo n x c -> cell s lo n x = Ok c.
Proof.
  intros S (L & A & B). unfold cell, ratio.
  assert (K : as_usize ((x - lo) / s) = c \/ (c + 1 = n)%nat /\ as_usize ((x - lo) / s) = n).
  { destruct (Rlt_le_dec x (lo + (INR c + 1) * s)) as [Q|Q].
    - left. apply as_usize_unique. rewrite div_le, div_lt by auto. lra.
    - destruct B as [B|(B & C)]; [lra|]. right. split; auto. apply as_usize_unique.
      assert (E : INR n = INR c + 1) by (rewrite <- B, plus_INR; simpl; ring).
      rewrite div_le, div_lt by auto. rewrite E in *. lra. }
  destruct K as [->|(E & ->)].
  - rewrite (proj2 (Nat.eqb_neq c n)) by lia. reflexivity.
  - rewrite Nat.eqb_refl. rewrite <- E. rewrite Nat.add_1_r. reflexivity.
Qed.
Lemma cell_exists s lo n x : 0 < s -> (1 <= n)%nat -> lo <= x <= lo + s * INR n -> exists c, is_cell s lo n x c.
Proof.
  intros S N (A & B).
  assert (P : 0 <= (x - lo) / s) by (apply div_le; lra).
  destruct (as_usize_spec _ P) as (U & V). set (c := as_usize ((x - lo) / s)) in *.
  apply div_le in U; auto. apply div_lt in V; auto.
  destruct (Nat.lt_ge_cases c n) as [Q|Q].
  - exists c. split; auto. split; [lra|]. left. lra.
  - exists (n - 1)%nat. split; [lia|].
    assert (E : INR n = INR (n - 1) + 1) by (rewrite <- S_INR; f_equal; lia).
    split; [|right; split; [lia|exact B]].
    assert (INR n <= INR c) by (apply le_INR; auto). nra.
Qed.
Lemma is_cell_box s lo n x c : 0 < s -> is_cell s lo n x c -> lo <= x <= lo + s * INR n.
Proof.
  intros S (L & A & B). pose proof (pos_INR c). split; [nra|].
  destruct B as [B|(_ & B)]; [|exact B].
  assert (INR c + 1 <= INR n) by (rewrite <- S_INR; apply le_INR; lia). nra.
Qed.
Lemma is_cell_width s lo n x c : 0 < s -> is_cell s lo n x c -> lo + INR c * s <= x <= lo + (INR c + 1) * s.
Proof.
  intros S (L & A & [B|(B & C)]); split; auto; [lra|]. replace (INR c + 1) with (INR n); [lra|].
  rewrite <- B, plus_INR. simpl. ring.
Qed.

Lemma abs_le a t : Rabs a <= t -> - t <= a <= t.
Proof. intros H. pose proof (Rle_abs a). pose proof (Rle_abs (- a)) as K. rewrite Rabs_Ropp in K. lra. Qed.
(* one of x - t, x + t falls into the cell of any y near x *)
Lemma halo_1d s t lo n x y c : 0 < t -> 2 * t < s -> lo <= x <= lo + s * INR n -> is_cell s lo n y c -> Rabs (x - y) <= t ->
  is_cell s lo n (x - t) c \/ is_cell s lo n (x + t) c.
Proof.
  intros T S (X0 & X1) (L & A & B) D. apply abs_le in D.
  assert (NX : INR c + 1 <= INR n) by (rewrite <- S_INR; apply le_INR; lia).
  assert (Top : lo + (INR c + 1) * s <= lo + s * INR n) by nra.
  set (a := lo + INR c * s) in *. assert (Ea : lo + (INR c + 1) * s = a + s) by (unfold a; ring). rewrite Ea in *.
  destruct (Rle_lt_dec a (x - t)) as [Q|Q].
  - (* x - t is not below the cell *)
    left. split; auto. fold a. split; [exact Q|].
    destruct (Rlt_le_dec (x - t) (a + s)) as [W|W]; [left; lra|]. right.
    destruct B as [B|(B & C)]; [exfalso; lra|]. split; auto. lra.
  - right. split; auto. fold a. split; [lra|]. left. rewrite Ea. lra.
Qed.

(* ---- well-formed grids ---- *)
Record wf (g : grid) : Prop := mkWf {
  wf_ndim : g_ndim g = 2%nat \/ g_ndim g = 3%nat;
  wf_ndiv : List.length (g_ndiv g) = g_ndim g;
  wf_ndiv1 : forall i, (i < g_ndim g)%nat -> (1 <= nth i (g_ndiv g) 0)%nat;
  wf_xmin : List.length (g_xmin g) = g_ndim g;
  wf_xmax : g_xmax g = map (fun an => fst an + g_side g * INR (snd an)) (combine (g_xmin g) (g_ndiv g));
  wf_coef : g_coef g = [1; nth 0 (g_ndiv g) 0; nth 0 (g_ndiv g) 0 * nth 1 (g_ndiv g) 0]%nat;
  wf_tol : 0 < g_tol g;
  wf_side : 2 * g_tol g < g_side g;
  wf_tol_dist : g_tol_dist g = sqrt (INR (g_ndim g)) * g_tol g;
  wf_radius : g_radius g = sqrt (INR (g_ndim g)) * g_side g / 2;
  wf_keys : NoDup (map fst (g_containers g));
  wf_ids : forall k c, In (k, c) (g_containers g) -> NoDup (map fst c) }.

Definition locates (g : grid) (x : list R) (cs : list nat) : Prop :=
  List.length x = g_ndim g /\ List.length cs = g_ndim g /\
  forall i, (i < g_ndim g)%nat -> is_cell (g_side g) (nth i (g_xmin g) 0) (nth i (g_ndiv g) 0%nat) (nth i x 0) (nth i cs 0%nat).
Definition keyof (g : grid) (cs : list nat) : nat :=
  (nth 0 cs 0 + nth 1 cs 0 * nth 0 (g_ndiv g) 0 + nth 2 cs 0 * (nth 0 (g_ndiv g) 0 * nth 1 (g_ndiv g) 0))%nat.
Definition inside (g : grid) (x : list R) : Prop := in_box (g_xmin g) (g_xmax g) x.

Lemma nlen2 {A} (a : list A) : List.length a = 2%nat -> exists x y, a = [x; y].
Proof. destruct a as [|x [|y [|]]]; try discriminate. eauto. Qed.
Lemma nlen3 {A} (a : list A) : List.length a = 3%nat -> exists x y z, a = [x; y; z].
Proof. destruct a as [|x [|y [|z [|]]]]; try discriminate. eauto. Qed.

Lemma side_pos g : wf g -> 0 < g_side g.
Proof. intros W. pose proof (wf_tol g W). pose proof (wf_side g W). lra. Qed.
Lemma xmax_nth g i : wf g -> (i < g_ndim g)%nat -> nth i (g_xmax g) 0 = nth i (g_xmin g) 0 + g_side g * INR (nth i (g_ndiv g) 0%nat).
Proof.
  intros W H. rewrite (wf_xmax g W).
  rewrite (nth_indep _ 0 ((fun an : R * nat => fst an + g_side g * INR (snd an)) (0, 0%nat))) by (rewrite map_length, combine_length, (wf_ndiv g W), (wf_xmin g W), Nat.min_id; auto).
  rewrite (map_nth (fun an : R * nat => fst an + g_side g * INR (snd an))). rewrite combine_nth; [reflexivity|]. rewrite (wf_ndiv g W), (wf_xmin g W). reflexivity.
Qed.
Lemma inside_iff g x : wf g -> (inside g x <-> exists cs, locates g x cs).
Proof.
  intros W. pose proof (side_pos g W) as S. unfold inside, in_box, locates. rewrite (wf_xmin g W). split.
  - intros (L & H).
    assert (K : forall i, (i < g_ndim g)%nat -> exists c, is_cell (g_side g) (nth i (g_xmin g) 0) (nth i (g_ndiv g) 0%nat) (nth i x 0) c).
    { intros i Hi. apply cell_exists; auto; [apply (wf_ndiv1 g W); auto|]. rewrite <- xmax_nth by auto. auto. }
    destruct (wf_ndim g W) as [E|E]; rewrite E in *.
    + destruct (K 0%nat ltac:(lia)) as (c0 & C0). destruct (K 1%nat ltac:(lia)) as (c1 & C1).
      exists [c0; c1]. split; auto. split; auto. intros [|[|i]] Hi; try lia; auto.
    + destruct (K 0%nat ltac:(lia)) as (c0 & C0). destruct (K 1%nat ltac:(lia)) as (c1 & C1). destruct (K 2%nat ltac:(lia)) as (c2 & C2).
      exists [c0; c1; c2]. split; auto. split; auto. intros [|[|[|i]]] Hi; try lia; auto.
  - intros (cs & L & Lc & H). split; auto. intros i Hi. rewrite xmax_nth by auto. eapply is_cell_box; eauto.
Qed.

Definition key_step (g : grid) (x : list R) (st : option nat) (i : nat) : res (option nat) :=
  match st with
  | None => Ok None
  | Some key =>
      let! xi := get x i in let! lo := get (g_xmin g) i in let! hi := get (g_xmax g) i in
      if Rltb xi lo || Rltb hi xi then Ok None
      else
        let ratio := as_usize ((xi - lo) / g_side g) in
        let! n := get (g_ndiv g) i in
        let! ratio := (if (ratio =? n)%nat then dec ratio else Ok ratio) in
        let! c := get (g_coef g) i in
        Ok (Some (key + ratio * c)%nat)
  end.
Lemma xmax_len g : wf g -> List.length (g_xmax g) = g_ndim g.
Proof. intros W. rewrite (wf_xmax g W), map_length, combine_length, (wf_ndiv g W), (wf_xmin g W). apply Nat.min_id. Qed.
Lemma key_step_some g x key i c : wf g -> List.length x = g_ndim g -> (i < g_ndim g)%nat ->
  is_cell (g_side g) (nth i (g_xmin g) 0) (nth i (g_ndiv g) 0%nat) (nth i x 0) c ->
  key_step g x (Some key) i = Ok (Some (key + c * nth i (g_coef g) 0)%nat).
Proof.
  intros W L Hi C. pose proof (side_pos g W) as S. unfold key_step.
  rewrite (get_ok x i 0) by lia. cbn [bind]. rewrite (get_ok (g_xmin g) i 0) by (rewrite (wf_xmin g W); auto). cbn [bind].
  rewrite (get_ok (g_xmax g) i 0) by (rewrite xmax_len; auto). cbn [bind]. rewrite xmax_nth by auto.
  pose proof (is_cell_box _ _ _ _ _ S C) as (B0 & B1).
  rewrite (proj2 (Rltb_false _ _) B0), (proj2 (Rltb_false _ _) B1). cbn [orb].
  rewrite (get_ok (g_ndiv g) i 0%nat) by (rewrite (wf_ndiv g W); auto). cbn [bind].
  pose proof (cell_unique _ _ _ _ _ S C) as U. unfold cell, ratio in U. rewrite U. cbn [bind].
  rewrite (get_ok (g_coef g) i 0%nat) by (rewrite (wf_coef g W); simpl; destruct (wf_ndim g W); lia). reflexivity.
Qed.
Lemma key_step_out g x key i : wf g -> List.length x = g_ndim g -> (i < g_ndim g)%nat ->
  nth i x 0 < nth i (g_xmin g) 0 \/ nth i (g_xmax g) 0 < nth i x 0 -> key_step g x (Some key) i = Ok None.
Proof.
  intros W L Hi C. unfold key_step.
  rewrite (get_ok x i 0) by lia. cbn [bind]. rewrite (get_ok (g_xmin g) i 0) by (rewrite (wf_xmin g W); auto). cbn [bind].
  rewrite (get_ok (g_xmax g) i 0) by (rewrite xmax_len; auto). cbn [bind].
  destruct C as [C|C]; rewrite (proj2 (Rltb_iff _ _) C); [|rewrite orb_true_r]; reflexivity.
Qed.
Lemma key_step_none g x i : foldM (key_step g x) i None = Ok None.
Proof. induction i; simpl; auto. Qed.

Lemma key_loc g x cs : wf g -> locates g x cs -> grid_key g x = Ok (Some (keyof g cs)).
Proof.
  intros W (L & Lc & H). change (grid_key g x) with (foldM (key_step g x) (seq 0 (g_ndim g)) (Some 0%nat)).
  assert (K : forall i key, (i < g_ndim g)%nat -> key_step g x (Some key) i = Ok (Some (key + nth i cs 0 * nth i (g_coef g) 0)%nat)) by (intros i key Hi; apply key_step_some; auto).
  unfold keyof. destruct (wf_ndim g W) as [E|E].
  - rewrite E. cbn [seq foldM]. rewrite K by lia. cbn [bind]. rewrite K by lia. cbn [bind]. rewrite (wf_coef g W). cbn [nth].
    rewrite (nth_overflow cs (n := 2)) by lia. f_equal. f_equal. lia.
  - rewrite E. cbn [seq foldM]. rewrite K by lia. cbn [bind]. rewrite K by lia. cbn [bind]. rewrite K by lia. cbn [bind]. rewrite (wf_coef g W). cbn [nth]. f_equal. f_equal. lia.
Qed.
Lemma key_out g x : wf g -> List.length x = g_ndim g -> ~ inside g x -> grid_key g x = Ok None.
Proof.
  intros W L H. change (grid_key g x) with (foldM (key_step g x) (seq 0 (g_ndim g)) (Some 0%nat)).
  pose proof (side_pos g W) as S.
  assert (K : forall l key, (forall i, In i l -> (i < g_ndim g)%nat) ->
     (exists k, foldM (key_step g x) l (Some key) = Ok (Some k) /\ forall i, In i l -> nth i (g_xmin g) 0 <= nth i x 0 <= nth i (g_xmax g) 0) \/
     foldM (key_step g x) l (Some key) = Ok None).
  { induction l as [|i l IH]; intros key HI; [left; exists key; split; [reflexivity|intros i []]|].
    assert (Hi : (i < g_ndim g)%nat) by (apply HI; left; auto). cbn [foldM].
    destruct (Rle_dec (nth i (g_xmin g) 0) (nth i x 0)) as [A|A]; [destruct (Rle_dec (nth i x 0) (nth i (g_xmax g) 0)) as [B|B]|].
    - assert (B' := B). rewrite xmax_nth in B' by auto.
      destruct (cell_exists (g_side g) (nth i (g_xmin g) 0) (nth i (g_ndiv g) 0%nat) (nth i x 0)) as (c & C); auto; [apply (wf_ndiv1 g W); auto|].
      rewrite (key_step_some g x key i c) by auto. cbn [bind].
      destruct (IH (key + c * nth i (g_coef g) 0)%nat) as [(k & E & F)|E]; [intros; apply HI; right; auto| |right; exact E].
      left. exists k. split; auto. intros j [<-|Hj]; auto.
    - right. rewrite key_step_out by (auto; lra). apply key_step_none.
    - right. rewrite key_step_out by (auto; lra). apply key_step_none. }
  destruct (K (seq 0 (g_ndim g)) 0%nat) as [(k & E & F)|E]; [intros i Hi; apply in_seq in Hi; lia| |exact E].
  exfalso. apply H. split; [rewrite (wf_xmin g W); auto|]. rewrite (wf_xmin g W). intros i Hi. apply F, in_seq. lia.
Qed.
Lemma inside_dec1 g x : wf g -> inside g x \/ ~ inside g x.
Proof.
  intros W. unfold inside, in_box. rewrite (wf_xmin g W).
  assert (DD : forall n, (forall i, (i < n)%nat -> nth i (g_xmin g) 0 <= nth i x 0 <= nth i (g_xmax g) 0) \/ ~ (forall i, (i < n)%nat -> nth i (g_xmin g) 0 <= nth i x 0 <= nth i (g_xmax g) 0)).
  { induction n as [|n [IH|IH]]; [left; intros; lia| |right; intros Q; apply IH; intros; apply Q; lia].
    destruct (Rle_dec (nth n (g_xmin g) 0) (nth n x 0)) as [A|A]; [destruct (Rle_dec (nth n x 0) (nth n (g_xmax g) 0)) as [B|B]|].
    - left. intros i Hi. destruct (Nat.eq_dec i n) as [->|Ne]; [auto|apply IH; lia].
    - right. intros Q. apply B, Q. lia.
    - right. intros Q. apply A, Q. lia. }
  destruct (Nat.eq_dec (List.length x) (g_ndim g)); [|right; tauto].
  destruct (DD (g_ndim g)); tauto.
Qed.
Lemma inside_dec g x : wf g -> List.length x = g_ndim g -> inside g x \/ ~ inside g x.
Proof. intros W _. now apply inside_dec1. Qed.

(* ---- halo ---- *)
Lemma halo_ok g x : wf g -> List.length x = g_ndim g -> exists hs, halo g x = Ok hs /\ (forall h, In h hs -> List.length h = g_ndim g) /\
  (inside g x -> forall y cs, locates g y cs -> close (g_tol g) x y -> exists h, In h hs /\ locates g h cs).
Proof.
  intros W L.
  assert (P : inside g x -> forall y cs, locates g y cs -> close (g_tol g) x y -> forall i, (i < g_ndim g)%nat ->
     is_cell (g_side g) (nth i (g_xmin g) 0) (nth i (g_ndiv g) 0%nat) (nth i x 0 - g_tol g) (nth i cs 0%nat) \/
     is_cell (g_side g) (nth i (g_xmin g) 0) (nth i (g_ndiv g) 0%nat) (nth i x 0 + g_tol g) (nth i cs 0%nat)).
  { intros (_ & I) y cs (_ & _ & C) (_ & K) i Hi. rewrite (wf_xmin g W) in I. specialize (I i Hi). rewrite xmax_nth in I by auto.
    apply (halo_1d _ _ _ _ _ (nth i y 0)); [apply (wf_tol g W)|apply (wf_side g W)|exact I|apply C; auto|apply K; lia]. }
  destruct (wf_ndim g W) as [E|E]; rewrite E in *.
  - apply nlen2 in L as (x0 & x1 & ->). eexists. split; [unfold halo; rewrite E; reflexivity|]. split.
    + intros h Hh. simpl in Hh. repeat (destruct Hh as [<-|Hh]; [reflexivity|]). destruct Hh.
    + intros I y cs C K. specialize (P I y cs C K). pose proof (P 0%nat ltac:(lia)) as P0. pose proof (P 1%nat ltac:(lia)) as P1. cbn [nth] in P0, P1.
      destruct C as (_ & Lc & _).
      assert (Q : forall h0 h1, is_cell (g_side g) (nth 0 (g_xmin g) 0) (nth 0 (g_ndiv g) 0%nat) h0 (nth 0 cs 0%nat) ->
        is_cell (g_side g) (nth 1 (g_xmin g) 0) (nth 1 (g_ndiv g) 0%nat) h1 (nth 1 cs 0%nat) -> locates g [h0; h1] cs).
      { intros h0 h1 A B. split; [rewrite E; reflexivity|]. split; [exact Lc|]. rewrite E. intros [|[|i]] Hi; auto; lia. }
      destruct P0 as [P0|P0], P1 as [P1|P1]; (eexists; split; [|apply (Q _ _ P0 P1)]; simpl; auto 10).
  - apply nlen3 in L as (x0 & x1 & x2 & ->). eexists. split; [unfold halo; rewrite E; reflexivity|]. split.
    + intros h Hh. simpl in Hh. repeat (destruct Hh as [<-|Hh]; [reflexivity|]). destruct Hh.
    + intros I y cs C K. specialize (P I y cs C K). pose proof (P 0%nat ltac:(lia)) as P0. pose proof (P 1%nat ltac:(lia)) as P1. pose proof (P 2%nat ltac:(lia)) as P2. cbn [nth] in P0, P1, P2.
      destruct C as (_ & Lc & _).
      assert (Q : forall h0 h1 h2, is_cell (g_side g) (nth 0 (g_xmin g) 0) (nth 0 (g_ndiv g) 0%nat) h0 (nth 0 cs 0%nat) ->
        is_cell (g_side g) (nth 1 (g_xmin g) 0) (nth 1 (g_ndiv g) 0%nat) h1 (nth 1 cs 0%nat) ->
        is_cell (g_side g) (nth 2 (g_xmin g) 0) (nth 2 (g_ndiv g) 0%nat) h2 (nth 2 cs 0%nat) -> locates g [h0; h1; h2] cs).
      { intros h0 h1 h2 A B C. split; [rewrite E; reflexivity|]. split; [exact Lc|]. rewrite E. intros [|[|[|i]]] Hi; auto; lia. }
      destruct P0 as [P0|P0], P1 as [P1|P1], P2 as [P2|P2]; (eexists; split; [|apply (Q _ _ _ P0 P1 P2)]; simpl; auto 10).
Qed.

(* ---- contents ---- *)
Definition stored_at (g : grid) (key id : nat) (x : list R) : Prop :=
  exists c, mget Nat.eqb (g_containers g) key = Some c /\ mget Nat.eqb c id = Some x.
(* same parameters *)
Definition same (g g' : grid) : Prop :=
  g_ndim g' = g_ndim g /\ g_ndiv g' = g_ndiv g /\ g_xmin g' = g_xmin g /\ g_xmax g' = g_xmax g /\ g_coef g' = g_coef g /\
  g_side g' = g_side g /\ g_tol g' = g_tol g /\ g_tol_dist g' = g_tol_dist g /\ g_radius g' = g_radius g.
Lemma same_refl g : same g g. Proof. unfold same. tauto. Qed.
Lemma same_trans a b c : same a b -> same b c -> same a c.
Proof. unfold same. intros (A1 & A2 & A3 & A4 & A5 & A6 & A7 & A8 & A9) (B1 & B2 & B3 & B4 & B5 & B6 & B7 & B8 & B9). repeat split; congruence. Qed.
Lemma same_key g g' x : same g g' -> grid_key g' x = grid_key g x.
Proof.
  intros (A1 & A2 & A3 & A4 & A5 & A6 & _). unfold grid_key. rewrite A1, A2, A3, A4, A5, A6. reflexivity.
Qed.
Lemma same_halo g g' x : same g g' -> halo g' x = halo g x.
Proof. intros (A1 & A2 & A3 & A4 & A5 & A6 & A7 & _). unfold halo. rewrite A1, A7. reflexivity. Qed.
Lemma same_locates g g' x cs : same g g' -> (locates g' x cs <-> locates g x cs).
Proof. intros (A1 & A2 & A3 & A4 & A5 & A6 & _). unfold locates. rewrite A1, A2, A3, A6. tauto. Qed.
Lemma same_keyof g g' cs : same g g' -> keyof g' cs = keyof g cs.
Proof. intros (A1 & A2 & _). unfold keyof. rewrite A2. reflexivity. Qed.
Lemma same_inside g g' x : same g g' -> (inside g' x <-> inside g x).
Proof. intros (A1 & A2 & A3 & A4 & _). unfold inside. rewrite A3, A4. tauto. Qed.

Lemma mput_in {V} (m : list (nat * V)) k v k' v' : NoDup (map fst m) -> In (k', v') (mput Nat.eqb m k v) -> (k' = k /\ v' = v) \/ (k' <> k /\ In (k', v') m).
Proof.
  intros ND H. apply (in_mget Nat.eqb Nat.eqb_eq) in H; [|apply (mput_nodup Nat.eqb Nat.eqb_eq); auto].
  destruct (Nat.eq_dec k' k) as [->|N].
  - rewrite (mget_mput_same Nat.eqb Nat.eqb_eq) in H. injection H as ->. auto.
  - rewrite (mget_mput_other Nat.eqb Nat.eqb_eq) in H by auto. right. split; auto. apply (mget_in Nat.eqb Nat.eqb_eq) in H. exact H.
Qed.
Lemma upd_wf g key id x : wf g -> wf (update_or_insert g key id x).
Proof.
  intros W. destruct W. constructor; auto; cbn.
  - apply (mput_nodup Nat.eqb Nat.eqb_eq); auto.
  - intros k c H. apply mput_in in H; auto. destruct H as [(-> & ->)|(N & H)]; [|eauto].
    apply (mput_nodup Nat.eqb Nat.eqb_eq). destruct (mget Nat.eqb (g_containers g) key) eqn:E; [|constructor].
    apply (mget_in Nat.eqb Nat.eqb_eq) in E. eauto.
Qed.
Lemma upd_same g key id x : same g (update_or_insert g key id x).
Proof. unfold same. cbn. tauto. Qed.
Lemma upd_stored g key id x k id' x' : stored_at (update_or_insert g key id x) k id' x' <->
  (k = key /\ id' = id /\ x' = x) \/ (~ (k = key /\ id' = id) /\ stored_at g k id' x').
Proof.
  unfold stored_at, update_or_insert. cbn.
  destruct (Nat.eq_dec k key) as [->|N].
  - rewrite (mget_mput_same Nat.eqb Nat.eqb_eq).
    destruct (Nat.eq_dec id' id) as [->|M].
    + split.
      * intros (c & E & F). injection E as <-. rewrite (mget_mput_same Nat.eqb Nat.eqb_eq) in F. injection F as <-. auto.
      * intros [(_ & _ & ->)|(F & _)]; [|tauto]. eexists. split; [reflexivity|]. apply (mget_mput_same Nat.eqb Nat.eqb_eq).
    + split.
      * intros (c & E & F). injection E as <-. rewrite (mget_mput_other Nat.eqb Nat.eqb_eq) in F by auto. right. split; [tauto|].
        destruct (mget Nat.eqb (g_containers g) key) as [c|]; [eauto|discriminate].
      * intros [(_ & F & _)|(_ & c & E & F)]; [tauto|]. eexists. split; [reflexivity|]. rewrite E. rewrite (mget_mput_other Nat.eqb Nat.eqb_eq) by auto. exact F.
  - rewrite (mget_mput_other Nat.eqb Nat.eqb_eq) by auto. split; [intros H; right; split; [tauto|exact H]|intros [(F & _)|(_ & H)]; tauto].
Qed.

(* one insertion *)
Lemma insert_ok g id x : wf g -> inside g x -> exists g', grid_insert g id x = Ok g' /\ wf g' /\ same g g' /\
  (forall k id' x', stored_at g' k id' x' -> (id' = id /\ x' = x) \/ stored_at g k id' x') /\
  (forall k id' x', id' <> id -> (stored_at g' k id' x' <-> stored_at g k id' x')) /\
  (forall cs, locates g x cs -> stored_at g' (keyof g cs) id x) /\
  (forall y cs, locates g y cs -> close (g_tol g) x y -> stored_at g' (keyof g cs) id x).
Proof.
  intros W I. assert (L : List.length x = g_ndim g) by (destruct I as (L & _); rewrite (wf_xmin g W) in L; auto).
  unfold grid_insert. rewrite L, Nat.eqb_refl. cbn [negb].
  destruct (proj1 (inside_iff g x W) I) as (cx & Cx). rewrite (key_loc g x cx W Cx). cbn [bind].
  set (key := keyof g cx). set (g1 := update_or_insert g key id x).
  assert (S1 : same g g1) by apply upd_same. assert (W1 : wf g1) by (apply upd_wf; auto).
  cbv zeta. rewrite (same_halo g g1 x S1). destruct (halo_ok g x W L) as (hs & -> & Lh & Hh). cbn [bind].
  assert (K : forall hs g1, wf g1 -> same g g1 -> (forall h, In h hs -> List.length h = g_ndim g) -> stored_at g1 key id x -> exists g',
    foldM (fun (g : grid) tmp => let! k := grid_key g tmp in match k with Some kc => if (kc =? key)%nat then Ok g else Ok (update_or_insert g kc id x) | None => Ok g end) hs g1 = Ok g' /\
    wf g' /\ same g g' /\
    (forall k id' x', stored_at g' k id' x' -> (id' = id /\ x' = x) \/ stored_at g1 k id' x') /\
    (forall k id' x', id' <> id -> (stored_at g' k id' x' <-> stored_at g1 k id' x')) /\
    (forall k, stored_at g1 k id x -> stored_at g' k id x) /\
    (forall h cs, In h hs -> locates g h cs -> stored_at g' (keyof g cs) id x)).
  { clear - W. induction hs as [|h hs IH]; intros g1 W1 S1 LL ST.
    - exists g1. cbn [foldM]. split; [reflexivity|]. split; [auto|]. split; [auto|]. split; [auto|]. split; [tauto|]. split; [auto|]. intros h cs [].
    - cbn [foldM]. rewrite (same_key g g1 h S1).
      assert (LLh : List.length h = g_ndim g) by (apply LL; left; auto).
      destruct (grid_key g h) as [[kc|]| | |] eqn:EK.
      + cbn [bind]. destruct (kc =? key)%nat eqn:EQ.
        * apply Nat.eqb_eq in EQ. subst kc. destruct (IH g1) as (g' & E & W' & S' & A & B & C & D); auto; [intros; apply LL; right; auto|].
          exists g'. cbn [bind]. split; [exact E|]. split; [auto|]. split; [auto|]. split; [auto|]. split; [auto|]. split; [auto|].
          intros h' cs [<-|Hh'] Hl; [|eauto]. rewrite (key_loc g h cs W Hl) in EK. injection EK as ->. auto.
        * destruct (IH (update_or_insert g1 kc id x)) as (g' & E & W' & S' & A & B & C & D).
          -- apply upd_wf; auto.
          -- eapply same_trans; [exact S1|apply upd_same].
          -- intros; apply LL; right; auto.
          -- apply upd_stored. right. apply Nat.eqb_neq in EQ. split; [intros (Q & _); congruence|auto].
          -- exists g'. cbn [bind]. split; [exact E|]. split; [auto|]. split; [auto|]. split; [|split; [|split]].
             ++ intros k id' x' H. apply A in H as [H|H]; auto. apply upd_stored in H as [(_ & -> & ->)|(_ & H)]; auto.
             ++ intros k id' x' N. rewrite B by auto. rewrite upd_stored. split; [intros [(_ & Q & _)|(_ & H)]; [congruence|auto]|]. intros H. right. split; [tauto|auto].
             ++ intros k H. apply C, upd_stored. destruct (Nat.eq_dec k kc) as [->|N]; [left; auto|right; split; [tauto|auto]].
             ++ intros h' cs [<-|Hh'] Hl; [|eauto]. rewrite (key_loc g h cs W Hl) in EK. injection EK as <-. apply C, upd_stored. auto.
      + cbn [bind]. destruct (IH g1) as (g' & E & W' & S' & A & B & C & D); auto; [intros; apply LL; right; auto|].
        exists g'. split; [exact E|]. split; [auto|]. split; [auto|]. split; [auto|]. split; [auto|]. split; [auto|].
        intros h' cs [<-|Hh'] Hl; [|eauto]. rewrite (key_loc g h cs W Hl) in EK. discriminate.
      + exfalso. destruct (inside_dec g h W LLh) as [Q|Q]; [apply inside_iff in Q as (cs & Q); auto; rewrite (key_loc g h cs W Q) in EK|rewrite (key_out g h W LLh Q) in EK]; discriminate.
      + exfalso. destruct (inside_dec g h W LLh) as [Q|Q]; [apply inside_iff in Q as (cs & Q); auto; rewrite (key_loc g h cs W Q) in EK|rewrite (key_out g h W LLh Q) in EK]; discriminate.
      + exfalso. destruct (inside_dec g h W LLh) as [Q|Q]; [apply inside_iff in Q as (cs & Q); auto; rewrite (key_loc g h cs W Q) in EK|rewrite (key_out g h W LLh Q) in EK]; discriminate. }
  destruct (K hs g1 W1 S1 Lh) as (g' & E & W' & S' & A & B & C & D).
  { apply upd_stored. auto. }
  exists g'. split; [exact E|]. split; [auto|]. split; [auto|]. split; [|split; [|split]].
  - intros k id' x' H. apply A in H as [H|H]; auto. apply upd_stored in H as [(_ & -> & ->)|(_ & H)]; auto.
  - intros k id' x' N. rewrite B by auto. unfold g1. rewrite upd_stored. split; [intros [(_ & Q & _)|(_ & H)]; [congruence|auto]|]. intros H. right. split; [tauto|auto].
  - intros cs Cs. apply C. pose proof (key_loc g x cs W Cs) as Q. rewrite (key_loc g x cx W Cx) in Q. injection Q as <-. apply upd_stored. auto.
  - intros y cs Cy Cl. destruct (Hh I y cs Cy Cl) as (h & Hin & Hl). eauto.
Qed.
Lemma insert_err g id x : wf g -> ~ inside g x -> exists m, grid_insert g id x = Err m.
Proof.
  intros W N. unfold grid_insert. destruct (List.length x =? g_ndim g)%nat eqn:E; [|simpl; eauto]. apply Nat.eqb_eq in E.
  cbn [negb]. rewrite (key_out g x W E N). cbn [bind]. eauto.
Qed.

(* ---- histories ---- *)
Definition insert_all (g : grid) (h : history) : res grid := foldM (fun (g : grid) (p : nat * list R) => grid_insert g (fst p) (snd p)) h g.

Record holds (g0 : grid) (h : history) (g : grid) : Prop := mkHolds {
  h_wf : wf g;
  h_same : same g0 g;
  h_from : forall k id x, stored_at g k id x -> In (id, x) h;
  h_box : forall id x, In (id, x) h -> inside g0 x;
  h_own : forall id x cs, last_insertion h id x -> locates g0 x cs -> stored_at g (keyof g0 cs) id x;
  h_near : forall id x y cs, last_insertion h id x -> locates g0 y cs -> close (g_tol g0) x y -> stored_at g (keyof g0 cs) id x }.

Lemma last_snoc h id x id' x' : last_insertion (h ++ [(id', x')]) id x -> (id = id' /\ x = x') \/ (id <> id' /\ last_insertion h id x).
Proof.
  intros (h1 & h2 & E & N). destruct h2 as [|p h2'] using rev_ind.
  - apply app_inj_tail in E as (_ & E). injection E as -> ->. auto.
  - clear IHh2'. right. rewrite app_comm_cons, app_assoc in E. apply app_inj_tail in E as (E & <-).
    rewrite map_app in N. split.
    + intros ->. apply N, in_or_app. right. left. reflexivity.
    + exists h1, h2'. split; auto. intros Q. apply N, in_or_app. auto.
Qed.
Lemma insert_all_holds g0 : wf g0 -> g_containers g0 = [] -> forall h g, insert_all g0 h = Ok g -> holds g0 h g.
Proof.
  intros W0 E0 h. induction h as [|(id, x) h IH] using rev_ind; intros g E.
  - injection E as <-. constructor; auto.
    + apply same_refl.
    + intros k id x (c & Q & _). rewrite E0 in Q. discriminate.
    + intros id x [].
    + intros id x cs (h1 & h2 & Q & _). destruct h1; discriminate.
    + intros id x y cs (h1 & h2 & Q & _). destruct h1; discriminate.
  - unfold insert_all in E. rewrite foldM_app in E.
    match type of E with (bind ?r _ = _) => destruct r as [g1| | |] eqn:E1; try discriminate end. cbn [bind foldM fst snd] in E.
    destruct (IH g1 E1) as [W1 S1 F1 B1 O1 N1]. clear IH.
    destruct (inside_dec1 g1 x W1) as [I|I]; [|destruct (insert_err g1 id x W1 I) as (m & Q); rewrite Q in E; discriminate].
    destruct (insert_ok g1 id x W1 I) as (g' & Q & W' & S' & A & B & C & D). rewrite Q in E. injection E as <-.
    constructor; auto.
    + eapply same_trans; eauto.
    + intros k id' x' H. apply in_or_app. apply A in H as [(-> & ->)|H]; [right; left; auto|left; eauto].
    + intros id' x' H. apply in_app_or in H as [H|[H|[]]]; [eauto|]. injection H as <- <-. apply (same_inside g0 g1); auto.
    + intros id' x' cs H Hl. apply last_snoc in H as [(-> & ->)|(N & H)].
      * rewrite <- (same_keyof g0 g1) by auto. apply C. apply (same_locates g0 g1); auto.
      * apply B; auto.
    + intros id' x' y cs H Hl Hc. apply last_snoc in H as [(-> & ->)|(N & H)].
      * rewrite <- (same_keyof g0 g1) by auto. eapply D; [apply (same_locates g0 g1); eauto|]. destruct S1 as (_ & _ & _ & _ & _ & _ & S7 & _). rewrite S7. exact Hc.
      * apply B; eauto.
Qed.
