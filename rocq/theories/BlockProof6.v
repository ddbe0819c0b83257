(* One cell, all cells. *)
From Coq Require Import String Reals QArith Qreals List Lia Lra Bool Arith ZArith Permutation Sorted.
From Verif Require Import Base BaseFacts TopoMaps Kind MeshModel TopoModel MeshQuerySpec ShapesModel ShapesSpec ShapesProof
  GeomModel GeomProof GridModel GridSpec PropGrid PadModel PadSpec PadProof PadProof2 PadProof4
  BlockModel BlockSpec BlockProof BlockProof2 BlockProof3 BlockProof4 BlockProof5.
Import ListNotations.
Local Open Scope list_scope.
Local Open Scope R_scope.

(* ---------------------------------------------------------------- loops *)
Lemma foldM_ext {A S} (f g : S -> A -> res S) l : (forall s a, In a l -> f s a = g s a) -> forall s, foldM f l s = foldM g l s.
Proof. induction l as [|a l IH]; intros H s; simpl; auto. rewrite H by (simpl; auto). destruct (g s a); simpl; auto. apply IH. intros; apply H; simpl; auto. Qed.
Lemma foldM_map {A B S} (f : S -> B -> res S) (h : A -> B) l : forall s, foldM (fun s a => f s (h a)) l s = foldM f (map h l) s.
Proof. induction l as [|a l IH]; intros s; simpl; auto. destruct (f s (h a)); simpl; auto. Qed.
Lemma foldM_flat_map {A B S} (f : S -> B -> res S) (h : A -> list B) l : forall s, foldM f (flat_map h l) s = foldM (fun s a => foldM f (h a) s) l s.
Proof. induction l as [|a l IH]; intros s; simpl; auto. rewrite foldM_app. destruct (foldM f (h a) s); simpl; auto. Qed.
(* a loop that carries a running value along *)
Lemma loop_value {St} (cen : nat -> R) (H : St -> nat -> res St) (B : St * R -> nat -> res (St * R)) n : (1 <= n)%nat ->
  (forall s i, (i < n)%nat -> B (s, cen i) i = let! s' := H s i in Ok (s', if (i + 1 <? n)%nat then cen (i + 1)%nat else cen i)) ->
  forall s, foldM B (seq 0 n) (s, cen 0%nat) = let! s' := foldM H (seq 0 n) s in Ok (s', cen (n - 1)%nat).
Proof.
  intros Hn HB.
  assert (G : forall k i s, (i + S k = n)%nat -> foldM B (seq i (S k)) (s, cen i) = let! s' := foldM H (seq i (S k)) s in Ok (s', cen (n - 1)%nat)).
  { induction k as [|k IH]; intros i s E.
    - cbn [seq foldM]. rewrite HB by lia. destruct (H s i); simpl; auto. replace (i + 1 <? n)%nat with false by (symmetry; apply Nat.ltb_ge; lia). repeat f_equal. lia.
    - cbn [seq foldM] in *. rewrite HB by lia. destruct (H s i) as [s'| | |]; cbn [bind]; auto. replace (i + 1 <? n)%nat with true by (symmetry; apply Nat.ltb_lt; lia).
      rewrite Nat.add_1_r. apply (IH (S i) s'). lia. }
  intros s. destruct n as [|n]; [lia|]. apply (G n 0%nat). lia.
Qed.

(* the indices of the cells, in their order *)
Definition indices (b : block) : list (list nat) :=
  flat_map (fun k => flat_map (fun j => map (fun i => firstn (b_ndim b) [i; j; k]) (seq 0 (ndivs b 0))) (seq 0 (ndivs b 1)))
    (seq 0 (if (b_ndim b =? 2)%nat then 1 else ndivs b 2)).
Definition cell_step sh shc (b : block) (target edge_kind : geokind) (st : sub) (idx : list nat) : res sub :=
  add_cell sh shc b target edge_kind
    (touches (ndivs b 0) (ndivs b 1) (if (b_ndim b =? 2)%nat then 1 else ndivs b 2) (nth 0 idx 0%nat) (nth 1 idx 0%nat) (nth 2 idx 0%nat))
    (cell_center b idx) (cell_scale b idx) st.

Section Loops.
Variable b : block.
Hypothesis W : wf_block b.
Notation nd := (b_ndim b).
Lemma delta_ok a i : (a < nd)%nat -> (i < ndivs b a)%nat -> delta_at b a i = Ok (nth i (widths b a) 0).
Proof.
  intros Ha Hi. unfold delta_at. rewrite at2_ok; [reflexivity|rewrite (w_delta b W); auto|]. fold (widths b a). rewrite (w_widths b W) by auto. auto.
Qed.
Definition cen (a i : nat) : R := line (widths b a) i + nth i (widths b a) 0 / 2.
Lemma first_ok a : (a < nd)%nat -> first_center b a = Ok (cen a 0).
Proof. intros Ha. unfold first_center. rewrite delta_ok by (auto; apply W; auto). cbn [bind]. unfold cen. rewrite line_0. reflexivity. Qed.
Lemma next_ok a i : (a < nd)%nat -> (i < ndivs b a)%nat -> next_center b a (ndivs b a) i (cen a i) = Ok (if (i + 1 <? ndivs b a)%nat then cen a (i + 1) else cen a i).
Proof.
  intros Ha Hi. unfold next_center. destruct (Nat.ltb_spec (i + 1) (ndivs b a)); [|reflexivity].
  rewrite !delta_ok by auto. cbn [bind]. f_equal. unfold cen. rewrite Nat.add_1_r. rewrite line_S by (rewrite (w_widths b W); auto). lra.
Qed.
Lemma ndiv_get a : (a < nd)%nat -> get (b_ndiv b) a = Ok (ndivs b a).
Proof. intros Ha. unfold ndivs. apply get_ok. rewrite (w_ndiv b W). auto. Qed.

Lemma subdivide_eq sh shc target edge_kind g : In target (targets nd) -> kind_edge_kind target = Some edge_kind ->
  grid_new (repeat (-1) nd) (repeat 1 nd) None None None = Ok g ->
  subdivide sh shc b target = let! st := foldM (cell_step sh shc b target edge_kind) (indices b) (mkSub g [] [] [] [] []) in Ok (s_mesh b st).
Proof.
  intros F Ek G. unfold subdivide. pose proof (proj2 (fits_in b target (w_nd b W)) F) as Fit. unfold fits in Fit. rewrite Fit.
  replace ((nd =? 2)%nat && _) with false by (destruct (w_nd b W) as [E|E]; rewrite E; reflexivity).
  replace (negb (nd =? 2)%nat && _) with false by (destruct (w_nd b W) as [E|E]; rewrite E; reflexivity).
  rewrite G. cbn [bind]. destruct (pad_new_ok nd Lin2 (w_nd b W)) as (p & -> & _). { destruct (w_nd b W) as [E|E]; rewrite E; cbv; lia. }
  cbn [bind]. rewrite Ek. rewrite (ndiv_get 0), (ndiv_get 1) by (destruct (w_nd b W) as [E|E]; rewrite E; lia). cbn [bind].
  set (nz := if (nd =? 2)%nat then 1%nat else ndivs b 2).
  replace (if (nd =? 2)%nat then Ok 1%nat else get (b_ndiv b) 2) with (Ok nz) by (unfold nz; destruct (w_nd b W) as [E|E]; rewrite E; cbn [Nat.eqb]; auto; symmetry; apply ndiv_get; lia).
  cbn [bind]. set (cz := fun k => if (nd =? 3)%nat then cen 2 k else 0).
  replace (if (nd =? 3)%nat then first_center b 2 else Ok 0) with (Ok (cz 0%nat)) by (unfold cz; destruct (w_nd b W) as [E|E]; rewrite E; cbn [Nat.eqb]; auto; symmetry; apply first_ok; lia).
  cbn [bind]. assert (N0 : (0 < nd)%nat) by (destruct (w_nd b W) as [E|E]; rewrite E; lia). assert (N1 : (1 < nd)%nat) by (destruct (w_nd b W) as [E|E]; rewrite E; lia).
  set (step := cell_step sh shc b target edge_kind).
  rewrite (loop_value cz (fun s k => foldM step (flat_map (fun j => map (fun i => firstn nd [i; j; k]) (seq 0 (ndivs b 0))) (seq 0 (ndivs b 1))) s)).
  - unfold indices. fold nz. rewrite foldM_flat_map.
    match goal with |- bind (bind ?X _) _ = bind ?Y _ => change Y with X; destruct X; reflexivity end.
  - unfold nz. destruct (w_nd b W) as [E|E]; rewrite E; cbn [Nat.eqb]; auto. apply (w_pos b W). lia.
  - intros s k Hk. cbn [fst snd].
    set (sz := if (nd =? 3)%nat then nth k (widths b 2) 0 / 2 else 0).
    assert (Esz : (if (nd =? 3)%nat then let! d := delta_at b 2 k in Ok (d / NAT_LENGTH) else Ok 0) = Ok sz).
    { unfold sz. destruct (w_nd b W) as [E|E]; rewrite E; cbn [Nat.eqb]; auto. unfold nz in Hk. rewrite E in Hk. cbn [Nat.eqb] in Hk. rewrite delta_ok by (auto; lia). reflexivity. }
    rewrite Esz. cbn [bind]. rewrite (first_ok 1) by auto. cbn [bind].
    rewrite (loop_value (cen 1) (fun s j => foldM step (map (fun i => firstn nd [i; j; k]) (seq 0 (ndivs b 0))) s)).
    + rewrite foldM_flat_map.
      match goal with |- bind (bind ?X _) _ = bind ?Y _ => change Y with X; destruct X; cbn [bind fst snd]; auto end.
      assert (Ez : (if (nd =? 3)%nat then next_center b 2 nz k (cz k) else Ok (cz k)) = Ok (if (k + 1 <? nz)%nat then cz (k + 1)%nat else cz k)).
      { unfold cz, nz in *. destruct (w_nd b W) as [E|E]; rewrite E in *; cbn [Nat.eqb] in *; [destruct (k + 1 <? 1)%nat; reflexivity|]. apply next_ok; auto. lia. }
      rewrite Ez. reflexivity.
    + apply (w_pos b W); auto.
    + intros s' j Hj. cbn [fst snd]. rewrite (delta_ok 1 j) by auto. cbn [bind]. rewrite (first_ok 0) by auto. cbn [bind].
      rewrite (loop_value (cen 0) (fun s i => step s (firstn nd [i; j; k]))).
      * rewrite (foldM_map step).
        match goal with |- bind (bind ?X _) _ = bind ?Y _ => change Y with X; destruct X; cbn [bind fst snd]; auto end.
        rewrite next_ok by auto. reflexivity.
      * apply (w_pos b W); auto.
      * intros s2 i Hi. cbn [fst snd]. rewrite (delta_ok 0 i) by auto. cbn [bind].
        assert (Es : step s2 (firstn nd [i; j; k]) = add_cell sh shc b target edge_kind (touches (ndivs b 0) (ndivs b 1) nz i j k)
          (firstn nd [cen 0 i; cen 1 j; cz k]) (firstn nd [nth i (widths b 0) 0 / NAT_LENGTH; nth j (widths b 1) 0 / NAT_LENGTH; sz]) s2).
        { unfold step, cell_step, cell_center, cell_scale, cz, sz, nz, NAT_LENGTH, cen in *. destruct (w_nd b W) as [E|E]; rewrite E in *; cbn [Nat.eqb] in *; cbn [firstn nth seq map]; auto.
          replace k with 0%nat by lia. reflexivity. }
        rewrite Es. destruct (add_cell _ _ _ _ _ _ _ _ _); cbn [bind]; auto. rewrite next_ok by auto. reflexivity.
Qed.

Lemma indices_valid idx : In idx (indices b) <-> valid_index b idx.
Proof.
  unfold indices, valid_index. rewrite in_flat_map. split.
  - intros (k & Hk & H). apply in_flat_map in H as (j & Hj & H). apply in_map_iff in H as (i & <- & Hi). apply in_seq in Hi, Hj, Hk.
    destruct (w_nd b W) as [E|E]; rewrite E in *; cbn [Nat.eqb firstn] in *; split; auto; intros a Ha.
    + destruct a as [|[|a]]; [simpl; lia|simpl; lia|lia].
    + destruct a as [|[|[|a]]]; [simpl; lia|simpl; lia|simpl; lia|lia].
  - intros [L H]. destruct (w_nd b W) as [E|E]; rewrite E in *; cbn [Nat.eqb firstn] in *.
    + destruct (len1 _ L) as (i & j & ->). exists 0%nat. split; [apply in_seq; lia|]. apply in_flat_map. exists j. split; [apply in_seq; specialize (H 1%nat ltac:(lia)); simpl in H; lia|].
      apply in_map_iff. exists i. split; auto. apply in_seq. specialize (H 0%nat ltac:(lia)). simpl in H. lia.
    + destruct (len3' _ L) as (i & j & k & ->). exists k. split; [apply in_seq; specialize (H 2%nat ltac:(lia)); simpl in H; lia|]. apply in_flat_map. exists j. split; [apply in_seq; specialize (H 1%nat ltac:(lia)); simpl in H; lia|].
      apply in_map_iff. exists i. split; auto. apply in_seq. specialize (H 0%nat ltac:(lia)). simpl in H. lia.
Qed.
Lemma nth_error_seq n : forall s i, (i < n)%nat -> nth_error (seq s n) i = Some (s + i)%nat.
Proof. induction n as [|n IH]; intros s i H; [lia|]. destruct i as [|i]; simpl; [f_equal; lia|]. rewrite IH by lia. f_equal. lia. Qed.
Lemma nth_error_flat {A B} (h : A -> list B) n l : (forall x, In x l -> List.length (h x) = n) -> forall j i x y,
  nth_error l j = Some x -> nth_error (h x) i = Some y -> nth_error (flat_map h l) (i + n * j) = Some y.
Proof.
  induction l as [|z l IH]; intros H j i x y Hj Hi; [destruct j; discriminate|]. simpl.
  pose proof (H z ltac:(simpl; auto)) as Hz. destruct j as [|j]; simpl in Hj.
  - injection Hj as ->. rewrite Nat.mul_0_r, Nat.add_0_r, nth_error_app1; auto. apply nth_error_Some. congruence.
  - rewrite nth_error_app2 by nia. replace (i + n * S j - List.length (h z))%nat with (i + n * j)%nat by nia.
    apply (IH (fun x Hx => H x (or_intror Hx)) j i x); auto.
Qed.
Lemma flat_length {A B} (h : A -> list B) n l : (forall x, In x l -> List.length (h x) = n) -> List.length (flat_map h l) = (n * List.length l)%nat.
Proof. induction l as [|z l IH]; intros H; simpl; [lia|]. rewrite app_length, (H z), IH; [lia| |]; intros; [apply H|]; simpl; auto. Qed.
Lemma nth_error_3 {A} (f : nat -> nat -> nat -> A) nx ny nz i j k : (i < nx)%nat -> (j < ny)%nat -> (k < nz)%nat ->
  nth_error (flat_map (fun k => flat_map (fun j => map (fun i => f i j k) (seq 0 nx)) (seq 0 ny)) (seq 0 nz)) ((i + nx * j) + (nx * ny) * k) = Some (f i j k).
Proof.
  intros Hi Hj Hk. apply nth_error_flat with (x := k); [|apply nth_error_seq; auto|].
  - intros x _. rewrite (flat_length _ nx) by (intros; rewrite map_length, seq_length; auto). rewrite seq_length. auto.
  - apply nth_error_flat with (x := j); [|apply nth_error_seq; auto|].
    + intros x _. rewrite map_length, seq_length. auto.
    + rewrite nth_error_map, nth_error_seq by auto. reflexivity.
Qed.
Lemma indices_rank idx : valid_index b idx -> nth_error (indices b) (rank (b_ndiv b) idx) = Some idx.
Proof.
  intros [L H]. unfold indices. pose proof (w_ndiv b W) as Ld. unfold ndivs in *. destruct (w_nd b W) as [E|E]; rewrite E in *; cbn [Nat.eqb].
  - destruct (len1 _ L) as (i & j & ->). destruct (len1 _ Ld) as (nx & ny & En). rewrite En in *. cbn [nth rank] in *.
    pose proof (H 0%nat ltac:(lia)). pose proof (H 1%nat ltac:(lia)). cbn [nth] in *.
    replace (i + nx * (j + ny * 0))%nat with ((i + nx * j) + (nx * ny) * 0)%nat by lia.
    rewrite (nth_error_3 (fun i j k => firstn 2 [i; j; k])) by auto. reflexivity.
  - destruct (len3' _ L) as (i & j & k & ->). destruct (len3' _ Ld) as (nx & ny & nz & En). rewrite En in *. cbn [nth rank] in *.
    pose proof (H 0%nat ltac:(lia)). pose proof (H 1%nat ltac:(lia)). pose proof (H 2%nat ltac:(lia)). cbn [nth] in *.
    replace (i + nx * (j + ny * (k + nz * 0)))%nat with ((i + nx * j) + (nx * ny) * k)%nat by nia.
    rewrite (nth_error_3 (fun i j k => firstn 3 [i; j; k])) by auto. reflexivity.
Qed.
Lemma indices_length : List.length (indices b) = fold_right Nat.mul 1%nat (b_ndiv b).
Proof.
  unfold indices. rewrite (flat_length _ (ndivs b 0 * ndivs b 1)).
  2:{ intros k _. rewrite (flat_length _ (ndivs b 0)) by (intros; rewrite map_length, seq_length; auto). rewrite seq_length. auto. }
  rewrite seq_length. pose proof (w_ndiv b W) as Ld. unfold ndivs. destruct (w_nd b W) as [E|E]; rewrite E in *; cbn [Nat.eqb].
  - destruct (len1 _ Ld) as (nx & ny & ->). simpl. lia.
  - destruct (len3' _ Ld) as (nx & ny & nz & ->). simpl. nia.
Qed.
End Loops.
