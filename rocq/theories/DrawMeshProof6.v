(* Labels of points and cells. *)
From Coq Require Import String Reals QArith Qreals List Lia Lra Bool Arith ZArith Permutation Sorted.
From Verif Require Import Base BaseFacts Expr ExprProof ShapesData Kind MeshModel GraphModel MeshQuerySpec TopoModel TopoSpec TopoMaps TopoProof
  ShapesModel ShapesSpec ShapesProof ShapesShared GeomModel GeomProof PadModel PadSpec PadProof PadProof2 PadProof3 PadProof4 GaussSpec SearchProof
  NormalModel NormalSpec NormalProof TriSurfModel DrawModel DrawSpec DrawProof DrawMeshModel DrawMeshSpec
  DrawMeshProof DrawMeshProof5.
Import ListNotations.
Local Open Scope list_scope.
Local Open Scope R_scope.

Lemma mapM_forall2 {A B} (f : A -> res B) (P : A -> B -> Prop) l : (forall x, In x l -> exists b, f x = Ok b /\ P x b) ->
  exists bs, mapM f l = Ok bs /\ Forall2 P l bs.
Proof.
  induction l as [|x l IH]; intros H; [exists []; auto|]. destruct (H x (or_introl eq_refl)) as (b & E & Pb).
  destruct IH as (bs & Eb & F); [intros; apply H; now right|]. exists (b :: bs). cbn [mapM]. rewrite E. cbn [bind]. rewrite Eb. auto.
Qed.

Definition cx (m : mesh R) (p i : nat) : R := nth i (pt_coords (nth p (points m) (mkPoint 0 0%Z []))) 0.
Lemma coord_ok m p i : coords_complete m -> (p < List.length (points m))%nat -> (i < ndim m)%nat -> coord m p i = Ok (cx m p i).
Proof.
  intros K Hp Hi. unfold coord, cx. rewrite (get_ok _ _ (mkPoint 0 0%Z [])) by auto. cbn [bind]. apply get_ok.
  rewrite (K _ (nth_In _ _ Hp)). exact Hi.
Qed.
Lemma node_cx m cl p i a : consistent m -> coords_complete m -> In cl (cells m) -> element_of m cl p -> (a < kind_nnode (c_kind cl))%nat -> (i < ndim m)%nat ->
  node_x p i a = cx m (nth a (c_points cl) 0%nat) i.
Proof.
  intros C K Hc (_ & _ & _ & X) Ha Hi. destruct (proj2 C _ _ (cell_by_id m cl C Hc)) as (_ & L & Rg). unfold cx.
  assert (La : (a < List.length (c_points cl))%nat) by lia.
  apply (X a (nth a (c_points cl) 0%nat)); auto; apply nth_error_nth'; auto. apply Rg. now apply nth_In.
Qed.

(* the mean of the nodes *)
Lemma add_row m p x : coords_complete m -> (p < List.length (points m))%nat -> List.length x = ndim m ->
  exists y, foldM (fun (x : list R) i => let! a := get x i in let! b := coord m p i in set x i (a + b)) (seq 0 (ndim m)) x = Ok y /\
    List.length y = ndim m /\ forall i, (i < ndim m)%nat -> nth i y 0 = nth i x 0 + cx m p i.
Proof.
  intros K Hp L. 
  destruct (foldM_seq (fun (x : list R) i => let! a := get x i in let! b := coord m p i in set x i (a + b))
    (fun n y => List.length y = ndim m /\ forall i, (i < ndim m)%nat -> nth i y 0 = nth i x 0 + (if (i <? n)%nat then cx m p i else 0)) (ndim m) x) as (y & E & Ly & Y).
  - split; auto. intros i Hi. destruct (Nat.ltb_spec i 0); [lia|ring].
  - intros i y Hi (Ly & Y). rewrite (get_ok _ _ 0) by lia. cbn [bind]. rewrite coord_ok by auto. cbn [bind]. rewrite set_ok by lia.
    eexists. split; [reflexivity|]. split; [now rewrite upd_length|]. intros j Hj. rewrite nth_upd by lia. destruct (Nat.eqb_spec i j) as [<-|Ne].
    + rewrite Y by auto. rewrite Nat.ltb_irrefl. destruct (Nat.ltb_spec i (S i)); [rewrite ?Nat.eqb_refl; ring|lia].
    + rewrite Y by auto. destruct (Nat.ltb_spec j i), (Nat.ltb_spec j (S i)); try lia; reflexivity.
  - exists y. split; auto. split; auto. intros i Hi. rewrite Y by auto. destruct (Nat.ltb_spec i (ndim m)); [reflexivity|lia].
Qed.
Lemma add_rows m l : coords_complete m -> (forall p, In p l -> (p < List.length (points m))%nat) -> forall x, List.length x = ndim m ->
  exists y, foldM (fun (x : list R) p => foldM (fun (x : list R) i => let! a := get x i in let! b := coord m p i in set x i (a + b)) (seq 0 (ndim m)) x) l x = Ok y /\
    List.length y = ndim m /\ forall i, (i < ndim m)%nat -> nth i y 0 = nth i x 0 + sum (map (fun p => cx m p i) l).
Proof.
  intros K. induction l as [|p l IH]; intros Rg x L; [exists x; split; auto; split; auto; intros; cbn; ring|]. cbn [foldM].
  destruct (add_row m p x K (Rg p (or_introl eq_refl)) L) as (y & E & Ly & Y). rewrite E. cbn [bind].
  destruct (IH (fun q Hq => Rg q (or_intror Hq)) y Ly) as (z & Ez & Lz & Z). exists z. split; auto. split; auto.
  intros i Hi. rewrite Z, Y by auto. cbn [map sum]. ring.
Qed.

Lemma sum_nth_map (f : nat -> R) l : sum_n (List.length l) (fun a => f (nth a l 0%nat)) = sum (map f l).
Proof.
  induction l as [|x l IH]; [reflexivity|]. cbn [List.length map sum]. rewrite <- IH. unfold sum_n. cbn [seq map sum nth]. f_equal.
  rewrite <- seq_shift, map_map. reflexivity.
Qed.
Lemma sum_n_scal c n f : sum_n n (fun a => c * f a) = c * sum_n n f.
Proof. unfold sum_n. generalize (seq 0 n) as l. induction l as [|x l IH]; cbn [map sum]; [ring|]. rewrite IH. ring. Qed.

Lemma label_pos_ok m cl : consistent m -> coords_complete m -> (ndim m = 2 \/ ndim m = 3)%nat -> In cl (cells m) ->
  exists x, label_pos m cl = Ok x /\ List.length x = ndim m /\
    forall i, (i < ndim m)%nat -> nth i x 0 = sum_n (kind_nnode (c_kind cl)) (fun a => label_weight (c_kind cl) a * cx m (nth a (c_points cl) 0%nat) i).
Proof.
  intros C K Dm Hc. destruct (proj2 C _ _ (cell_by_id m cl C Hc)) as (_ & L & Rg).
  assert (Rn : forall a, (a < kind_nnode (c_kind cl))%nat -> get (c_points cl) a = Ok (nth a (c_points cl) 0%nat) /\ (nth a (c_points cl) 0%nat < List.length (points m))%nat).
  { intros a Ha. split; [apply get_ok; lia|]. apply Rg, nth_In. lia. }
  assert (Two : forall a b (g : R -> R -> R), (a < kind_nnode (c_kind cl))%nat -> (b < kind_nnode (c_kind cl))%nat ->
    exists x, mapM (fun i => let! p0 := get (c_points cl) a in let! xa := coord m p0 i in let! p2 := get (c_points cl) b in let! xb := coord m p2 i in
      Ok (g xa xb)) (seq 0 (ndim m)) = Ok x /\ List.length x = ndim m /\
      forall i, (i < ndim m)%nat -> nth i x 0 = g (cx m (nth a (c_points cl) 0%nat) i) (cx m (nth b (c_points cl) 0%nat) i)).
  { intros a b g Ha Hb. apply mapM_seq. intros i Hi. destruct (Rn a Ha) as (-> & Xa), (Rn b Hb) as (-> & Xb). cbn [bind].
    rewrite coord_ok by auto. cbn [bind]. rewrite coord_ok by auto. reflexivity. }
  assert (Mean : label_weight (c_kind cl) = (fun _ => 1 / INR (kind_nnode (c_kind cl))) ->
    exists x, (let! x := foldM (fun (x : list R) p =>
          foldM (fun (x : list R) i => let! a := get x i in let! b := coord m p i in set x i (a + b)) (seq 0 (ndim m)) x)
        (c_points cl) (repeat 0 (ndim m)) in
      mapM (fun i => let! a := get x i in Ok (a / INR (List.length (c_points cl)))) (seq 0 (ndim m))) = Ok x /\ List.length x = ndim m /\
      forall i, (i < ndim m)%nat -> nth i x 0 = sum_n (kind_nnode (c_kind cl)) (fun a => label_weight (c_kind cl) a * cx m (nth a (c_points cl) 0%nat) i)).
  { intros ->. destruct (add_rows m (c_points cl) K Rg (repeat 0 (ndim m)) (repeat_length _ _)) as (y & E & Ly & Y). rewrite E. cbn [bind].
    destruct (mapM_seq (fun i => let! a := get y i in Ok (a / INR (List.length (c_points cl)))) 0 (fun i => nth i y 0 / INR (kind_nnode (c_kind cl))) (ndim m)) as (x & Ex & Lx & X).
    { intros i Hi. rewrite (get_ok _ _ 0) by lia. cbn [bind]. now rewrite L. }
    exists x. split; auto. split; auto. intros i Hi. rewrite X, Y by auto. rewrite <- L, sum_n_scal, (sum_nth_map (fun p => cx m p i)).
    rewrite nth_repeat. unfold Rdiv. ring. }
  assert (S9 : forall n (f : nat -> R) a b, (a < n)%nat -> (b < n)%nat -> a <> b -> (forall c, c <> a -> c <> b -> f c = 0) -> sum_n n f = f a + f b).
  { intros n f a b Ha Hb Ne Z. assert (G : forall n, sum_n n f = (if (a <? n)%nat then f a else 0) + (if (b <? n)%nat then f b else 0)).
    { induction n0 as [|n0 IH]; [cbn; unfold sum_n; cbn; ring|]. unfold sum_n in *. rewrite seq_S, map_app. cbn [map Nat.add].
      assert (Sa : forall l y, sum (l ++ [y]) = sum l + y) by (induction l as [|z l IHl]; intros y; cbn [app sum]; [ring|rewrite IHl; ring]).
      rewrite Sa, IH. destruct (Nat.ltb_spec a n0), (Nat.ltb_spec a (S n0)), (Nat.ltb_spec b n0), (Nat.ltb_spec b (S n0)); try lia;
        first [assert (n0 = a) by lia; subst n0; lra|assert (n0 = b) by lia; subst n0; lra|rewrite (Z n0) by lia; lra]. }
    rewrite G. destruct (Nat.ltb_spec a n), (Nat.ltb_spec b n); try lia. reflexivity. }
  unfold label_pos.
  assert (Fin : forall a b g x, (a < kind_nnode (c_kind cl))%nat -> (b < kind_nnode (c_kind cl))%nat -> a <> b ->
    (forall i, (i < ndim m)%nat -> nth i x 0 = g (cx m (nth a (c_points cl) 0%nat) i) (cx m (nth b (c_points cl) 0%nat) i)) ->
    (forall c, c <> a -> c <> b -> label_weight (c_kind cl) c = 0) -> (forall u v, g u v = label_weight (c_kind cl) a * u + label_weight (c_kind cl) b * v) ->
    forall i, (i < ndim m)%nat -> nth i x 0 = sum_n (kind_nnode (c_kind cl)) (fun a => label_weight (c_kind cl) a * cx m (nth a (c_points cl) 0%nat) i)).
  { intros a b g x Ha Hb Ne X Z G i Hi. rewrite (S9 _ _ a b) by (auto; intros c N1 N2; rewrite Z by auto; ring). rewrite X, G by auto. reflexivity. }
  destruct (c_kind cl) eqn:Ek; try (apply Mean; reflexivity).
  - destruct (Two 0%nat 9%nat (fun a b => (a + b) / 2) ltac:(vm_compute; lia) ltac:(vm_compute; lia)) as (x & E & Lx & X). exists x. split; [exact E|]. split; auto.
    apply (Fin 0%nat 9%nat (fun a b => (a + b) / 2)); auto; try (vm_compute; lia); [|intros; cbn [label_weight]; field].
    intros c H1 H2. do 10 (destruct c as [|c]; [try lia; reflexivity|]). reflexivity.
  - destruct (Two 0%nat 2%nat (fun a b => (3 * a + b) / 4) ltac:(vm_compute; lia) ltac:(vm_compute; lia)) as (x & E & Lx & X). exists x. split; [exact E|]. split; auto.
    apply (Fin 0%nat 2%nat (fun a b => (3 * a + b) / 4)); auto; try (vm_compute; lia); [|intros; cbn [label_weight]; field].
    intros c H1 H2. do 3 (destruct c as [|c]; [try lia; reflexivity|]). reflexivity.
  - destruct (Two 0%nat 2%nat (fun a b => (3 * a + b) / 4) ltac:(vm_compute; lia) ltac:(vm_compute; lia)) as (x & E & Lx & X). exists x. split; [exact E|]. split; auto.
    apply (Fin 0%nat 2%nat (fun a b => (3 * a + b) / 4)); auto; try (vm_compute; lia); [|intros; cbn [label_weight]; field].
    intros c H1 H2. do 3 (destruct c as [|c]; [try lia; reflexivity|]). reflexivity.
Qed.

Lemma cell_ids_ok mk m : consistent m -> coords_complete m -> (ndim m = 2 \/ ndim m = 3)%nat ->
  exists ls, cell_ids mk m = Ok ls /\ Forall2 (cell_label m mk) (cells m) ls.
Proof.
  intros C K Dm. apply mapM_forall2. intros cl Hc. destruct (label_pos_ok m cl C K Dm Hc) as (x & E & L & X). rewrite E. cbn [bind].
  rewrite shown_ok by auto. cbn [bind]. eexists. split; [reflexivity|]. unfold cell_label. cbn [lb_number lb_paren lb_angle lb_pos]. do 3 (split; [reflexivity|]).
  intros p El. pose proof El as (_ & Kp & Sp & _). split; [congruence|]. intros i Hi. rewrite Sp in Hi. rewrite X by auto. rewrite Kp.
  apply sum_n_ext. intros a Ha. now rewrite (node_cx m cl p i a) by auto.
Qed.

Lemma sum_const c n : sum_n n (fun _ => c) = INR n * c.
Proof.
  unfold sum_n. assert (G : forall l : list nat, sum (map (fun _ => c) l) = INR (List.length l) * c).
  { induction l as [|x l IH]; [cbn; ring|]. cbn [map sum]. rewrite IH. change (List.length (x :: l)) with (S (List.length l)). rewrite S_INR. ring. }
  now rewrite G, seq_length.
Qed.
Lemma label_weight_convex k : convex (kind_nnode k) (label_weight k).
Proof.
  assert (P : 0 < INR (kind_nnode k)) by (apply lt_0_INR; destruct k; vm_compute; lia). split.
  - intros a. destruct k; cbn [label_weight]; try (apply Rlt_le, Rdiv_lt_0_compat; [lra|exact P]);
      do 10 (destruct a as [|a]; [lra|]); lra.
  - destruct k; cbn [label_weight]; try (etransitivity; [apply sum_const|]; field; lra);
      unfold sum_n; match goal with |- context [kind_nnode ?k] => let n := eval vm_compute in (kind_nnode k) in change (kind_nnode k) with n end; cbn [seq map sum label_weight]; lra.
Qed.

Lemma point_ids_ok mk m : coords_complete m -> (ndim m = 2 \/ ndim m = 3)%nat ->
  point_dots m = Ok (map (fun p => pt_coords p) (points m)) /\ exists ls, point_ids mk m = Ok ls /\ Forall2 (point_label m mk) (points m) ls.
Proof.
  intros K Dm. split.
  - unfold point_dots. assert (G : forall l, (forall p, In p l -> List.length (pt_coords p) = ndim m) ->
      mapM (fun p : point R => shown (ndim m) (pt_coords p)) l = Ok (map (fun p => pt_coords p) l)).
    { induction l as [|p l IH]; intros H; [reflexivity|]. cbn [mapM map]. rewrite shown_ok by (auto; apply H; now left). cbn [bind].
      rewrite IH by (intros; apply H; now right). reflexivity. }
    apply G. exact K.
  - apply mapM_forall2. intros p Hp. rewrite shown_ok by auto. cbn [bind]. eexists. split; [reflexivity|]. unfold point_label. cbn [lb_number lb_paren lb_angle lb_pos].
    do 3 (split; [reflexivity|]). intros z. destruct (Z.eqb_spec (pt_marker p) 0) as [E|E], mk; cbn [negb andb]; split.
    + discriminate.
    + intros (_ & -> & H). congruence.
    + discriminate.
    + intros (H & _). discriminate.
    + intros [= <-]. auto.
    + intros (_ & -> & _). reflexivity.
    + discriminate.
    + intros (H & _). discriminate.
Qed.
