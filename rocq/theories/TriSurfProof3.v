(* The triangulation of a surface: ignored cells, sizes, area, matching edges. *)
From Coq Require Import String Reals QArith Qreals List Arith Bool Lia Lra Permutation.
From Verif Require Import Base BaseFacts Kind MeshModel MeshQuerySpec ShapesData ShapesModel ShapesSpec ShapesProof ShapesTables PadModel PadSpec
  PadProof PadProof2 PadProof3 PadProof4 ConvertModel ConvertProof TopoModel TopoMaps TriSurfModel TriSurfSpec TriSurfProof TriSurfProof2.
Import ListNotations.
Local Open Scope nat_scope.

(** Cells of other classes are ignored *)
Lemma from_surface_ignores m s : from_surface m s = from_surface m (filter (fun c => tri_or_qua (fst c)) s).
Proof.
  unfold from_surface. f_equal. generalize (@nil (geokind * pad), mkWork (mkTriang [] [] [] []) [] [] (repeat 0 3)).
  induction s as [|[k pts] s IH]; intros st; [reflexivity|]. cbn [filter fst]. destruct (tri_or_qua k) eqn:E.
  - cbn [foldM]. destruct (add_cell m st (k, pts)); cbn [bind]; auto.
  - cbn [foldM]. unfold add_cell at 1. destruct st as [pads w]. rewrite E. cbn [negb bind]. apply IH.
Qed.

(** An unusable cell is a panic, never an error value *)
Lemma foldM_ok_or_panic {A S} (f : S -> A -> res S) l : (forall s a, In a l -> (exists s', f s a = Ok s') \/ f s a = Panic) ->
  forall s, (exists s', foldM f l s = Ok s') \/ foldM f l s = Panic.
Proof.
  induction l as [|a l IH]; intros H s; [left; exists s; reflexivity|]. cbn [foldM].
  destruct (H s a ltac:(now left)) as [(s' & ->)| ->]; [|right; reflexivity]. cbn [bind]. apply IH. intros; apply H; now right.
Qed.
Lemma get_or_panic {A} (l : list A) i : (exists a, get l i = Ok a) \/ get l i = Panic.
Proof. unfold get. destruct (nth_error l i); eauto. Qed.
Lemma set_or_panic {A} (l : list A) i x : (exists a, set l i x = Ok a) \/ set l i x = Panic.
Proof. unfold set. destruct (i <? _); eauto. Qed.

Lemma mesh_set_pad_or_panic m p pts : (exists q, mesh_set_pad m p pts = Ok q) \/ mesh_set_pad m p pts = Panic.
Proof.
  unfold mesh_set_pad. destruct (negb _); [auto|]. apply foldM_ok_or_panic. intros q a _. apply foldM_ok_or_panic. intros q' j _.
  destruct (get_or_panic pts a) as [(x & ->)| ->]; cbn [bind]; [|auto].
  destruct (get_or_panic (points m) x) as [(pt & ->)| ->]; cbn [bind]; [|auto].
  destruct (get_or_panic (pt_coords pt) j) as [(v & ->)| ->]; cbn [bind]; [|auto].
  unfold set_xx. destruct (get_or_panic (p_xxt q') j) as [(row & ->)| ->]; cbn [bind]; [|auto].
  destruct (set_or_panic row a v) as [(row' & ->)| ->]; cbn [bind]; [|auto].
  destruct (set_or_panic (p_xxt q') j row') as [(x' & ->)| ->]; cbn [bind]; [|auto]. eauto.
Qed.

Definition no_fuel_out {A} (r : res A) : Prop := r <> NoFuel.
Lemma foldM_fuel {A S} (f : S -> A -> res S) l : (forall s a, f s a <> NoFuel) -> forall s, foldM f l s <> NoFuel.
Proof.
  intros H. induction l as [|a l IH]; intros s; [discriminate|]. cbn [foldM]. specialize (H s a). destruct (f s a); cbn [bind]; auto; discriminate.
Qed.
Lemma bind_fuel {A B} (r : res A) (f : A -> res B) : r <> NoFuel -> (forall a, f a <> NoFuel) -> bind r f <> NoFuel.
Proof. intros H1 H2. destruct r; simpl; auto; discriminate. Qed.
Lemma get_fuel {A} (l : list A) i : get l i <> NoFuel.
Proof. unfold get. destruct (nth_error l i); discriminate. Qed.
Lemma set_fuel {A} (l : list A) i x : set l i x <> NoFuel.
Proof. unfold set. destruct (i <? _); discriminate. Qed.
Lemma mapM_fuel {A B} (f : A -> res B) l : (forall a, f a <> NoFuel) -> mapM f l <> NoFuel.
Proof. intros H. induction l as [|a l IH]; [discriminate|]. cbn [mapM]. apply bind_fuel; auto. intros. apply bind_fuel; auto. discriminate. Qed.

Lemma push_fuel n tr x : push_point n tr x <> NoFuel.
Proof.
  unfold push_point. repeat (apply bind_fuel; [apply get_fuel|intros]). apply bind_fuel; [|discriminate].
  destruct (n =? 3); [|discriminate]. apply bind_fuel; [apply get_fuel|discriminate].
Qed.
Lemma on_corner_fuel n nn pts w t i m0 x : on_corner n nn pts w t i m0 x <> NoFuel.
Proof.
  unfold on_corner. apply bind_fuel.
  - unfold corner_point. destruct (m0 <? nn).
    + apply bind_fuel; [apply get_fuel|]. intros p. destruct (mget _ _ _); [discriminate|]. apply bind_fuel; [apply push_fuel|discriminate].
    + apply bind_fuel; [apply get_fuel|]. intros [p|]; [discriminate|]. apply bind_fuel; [apply push_fuel|]. intros.
      apply bind_fuel; [apply set_fuel|discriminate].
  - intros a. apply bind_fuel; [apply set_fuel|discriminate].
Qed.
Lemma pad_triangulate_fuel {St} p n (f : St -> nat -> nat -> nat -> list R -> res St) s :
  (forall s t i m x, f s t i m x <> NoFuel) -> pad_triangulate p n f s <> NoFuel.
Proof.
  intros H. unfold pad_triangulate. destruct (negb _); [discriminate|]. destruct (negb _); [discriminate|].
  apply foldM_fuel. intros st t. apply foldM_fuel. intros st' i. apply bind_fuel.
  - destruct (triangulate_triangle_nodes _ _ _); discriminate.
  - intros m0. apply bind_fuel.
    + unfold tri_corner. destruct (_ <=? _).
      * destruct (_ <=? _); [discriminate|]. unfold pad_coords. destruct (negb _); [discriminate|]. destruct (negb _); discriminate.
      * apply bind_fuel; [|discriminate]. apply mapM_fuel. intros j. apply bind_fuel; [apply get_fuel|intros; apply get_fuel].
    + intros xp. apply bind_fuel; [apply H|discriminate].
Qed.

Lemma from_surface_or_panic m s : (exists tr, from_surface m s = Ok tr) \/ from_surface m s = Panic.
Proof.
  unfold from_surface.
  destruct (foldM_ok_or_panic (add_cell m) s) with (s := (@nil (geokind * pad), mkWork (mkTriang [] [] [] []) [] [] (repeat 0 3)))
    as [(st & ->)| ->]; cbn [bind]; eauto.
  clear. intros [pads w] [k pts] _. unfold add_cell. destruct (negb _); [eauto|].
  match goal with |- context [bind ?a _] => assert (H : (exists p, a = Ok p) \/ a = Panic) end.
  { destruct (mget kind_eqb pads k); [eauto|]. destruct (pad_new (ndim m) k); eauto. }
  destruct H as [(p & ->)| ->]; cbn [bind]; [|auto].
  destruct (mesh_set_pad_or_panic m p pts) as [(q & ->)| ->]; cbn [bind]; [|auto].
  match goal with |- context [pad_triangulate ?a ?b ?c ?d] => pose proof (pad_triangulate_fuel a b c d) as F; destruct (pad_triangulate a b c d) as [[p' w']| | |] end; eauto.
  exfalso. apply F; [intros; apply on_corner_fuel|reflexivity].
Qed.

Lemma foldM_inv {A S} (f : S -> A -> res S) l : forall s s', foldM f l s = Ok s' -> forall a, In a l -> exists t t', f t a = Ok t'.
Proof.
  induction l as [|x l IH]; intros s s' E a Ha; [destruct Ha|]. cbn [foldM] in E. destruct (f s x) as [t| | |] eqn:F; try discriminate. cbn [bind] in E.
  destruct Ha as [->|Ha]; [eauto|]. eapply IH; eauto.
Qed.
Lemma mesh_set_pad_valid m p pts q : 0 < ndim m -> mesh_set_pad m p pts = Ok q ->
  List.length pts = kind_nnode (p_kind p) /\ forall x, In x pts -> x < List.length (points m).
Proof.
  intros D. unfold mesh_set_pad. destruct (Nat.eqb_spec (kind_nnode (p_kind p)) (List.length pts)) as [L|L]; cbn [negb]; [|discriminate].
  intros E. split; [auto|]. intros x Hx. apply In_nth_error in Hx as (a & Ha).
  assert (La : a < List.length pts) by (apply nth_error_Some; congruence).
  destruct (foldM_inv _ _ _ _ E a) as (t & t' & E2); [apply in_seq; lia|].
  destruct (foldM_inv _ _ _ _ E2 0) as (u & u' & E3); [apply in_seq; lia|].
  unfold get in E3. rewrite Ha in E3. cbn [bind] in E3. apply nth_error_Some. intros N. now rewrite N in E3.
Qed.

(** The function returns exactly when the cells are valid *)
Lemma from_surface_iff m s : ndim m = 2 \/ ndim m = 3 -> coords_complete m -> ((exists tr, from_surface m s = Ok tr) <-> valid_surface m s).
Proof.
  intros D K. split; [|intros V; destruct (from_surface_ok m s V) as (tr & E & _); eauto].
  intros (tr & E). unfold from_surface in E. destruct (foldM (add_cell m) s _) as [st| | |] eqn:F; try discriminate. clear E tr.
  revert st F. induction s as [|[k pts] s IH] using rev_ind; intros st F.
  - split; [auto|]. split; [auto|]. intros k pts [].
  - rewrite foldM_app in F. destruct (foldM (add_cell m) s _) as [st1| | |] eqn:F1; try discriminate. cbn [bind foldM] in F.
    specialize (IH st1 eq_refl). destruct (add_cell m st1 (k, pts)) as [st2| | |] eqn:F2; try discriminate. clear F.
    split; [auto|]. split; [auto|]. intros k' pts' H P. apply in_app_iff in H as [H|[[= <- <-]|[]]]; [now apply IH|].
    destruct (fold_prefix m s IH s [] ltac:(now rewrite app_nil_r)) as (st1' & F1' & (PO & _)). rewrite F1 in F1'. injection F1' as <-.
    destruct st1 as [pads w]. unfold add_cell in F2. apply plane_tri_or_qua in P. rewrite P in F2. cbn [negb fst] in F2, PO.
    assert (PD : forall pd, (match mget kind_eqb pads k with
              | Some p => Ok p
              | None => match pad_new (ndim m) k with Ok p => Ok p | _ => Panic end
              end) = Ok pd -> p_kind pd = k).
    { intros pd. destruct (mget kind_eqb pads k) as [pd'|] eqn:G; [intros [= <-]; now apply (PO k pd' G)|].
      destruct (pad_new_ok (ndim m) k D) as (pd' & -> & _ & A & _); [rewrite plane_ndim by (now apply plane_tri_or_qua); lia|]. now intros [= <-]. }
    match type of F2 with bind ?r _ = _ => destruct r as [pd| | |]; try discriminate end. cbn [bind] in F2. specialize (PD pd eq_refl).
    destruct (mesh_set_pad m pd pts) as [q| | |] eqn:G; try discriminate. apply mesh_set_pad_valid in G; [|lia]. now rewrite PD in G.
Qed.

(** Sizes *)
Fixpoint extras_from (c : nat) (s : list (geokind * list nat)) : list origin :=
  match s with
  | [] => []
  | (k, _) :: s' => (if tri_or_qua k then map (Extra c) (seq 0 (triangulate_extra_nnode k)) else []) ++ extras_from (S c) s'
  end.

Lemma all_nodes_check k : negb (is_2d k) ||
  forallb (fun m => existsb (fun t => existsb (fun i => Nat.eqb (tnode k t i) m) (seq 0 3)) (seq 0 (triangulate_ntriangle k)))
    (seq 0 (kind_nnode k + triangulate_extra_nnode k)) = true.
Proof. destruct k; vm_compute; reflexivity. Qed.
Lemma all_nodes_used k n : plane_kind k -> n < kind_nnode k + triangulate_extra_nnode k ->
  exists t i, t < triangulate_ntriangle k /\ i < 3 /\ tnode k t i = n.
Proof.
  intros P Hn. pose proof (all_nodes_check k) as H. rewrite (proj2 (is_2d_class k) P) in H. cbn [negb orb] in H.
  apply forallb_seq with (i := n) in H; [|exact Hn]. apply existsb_exists in H as (t & Ht & H). apply existsb_exists in H as (i & Hi & H).
  apply in_seq in Ht, Hi. apply Nat.eqb_eq in H. exists t, i. lia.
Qed.

Lemma in_cell_triangles c k pts o : In o (concat (cell_triangles c k pts)) <->
  plane_kind k /\ exists n, n < kind_nnode k + triangulate_extra_nnode k /\ o = corner_origin c k pts n.
Proof.
  destruct (tri_or_qua k) eqn:E.
  - apply plane_tri_or_qua in E. rewrite cell_triangles_plane by auto. split.
    + intros H. split; [auto|]. apply in_concat in H as (tri & H1 & H2). apply in_map_iff in H1 as (t & <- & Ht). apply in_seq in Ht.
      unfold tri_of in H2. destruct H2 as [H2|[H2|[H2|[]]]]; subst o;
        (eexists; split; [|reflexivity]; apply plane_nodes; auto; lia).
    + intros (_ & n & Hn & ->). destruct (all_nodes_used k n E Hn) as (t & i & Ht & Hi & <-). apply in_concat.
      exists (tri_of c k pts t). split; [apply in_map, in_seq; lia|]. unfold tri_of. simpl.
      destruct i as [|[|[|i]]]; [auto|auto|auto|lia].
  - assert (N : ~ plane_kind k) by (rewrite <- plane_tri_or_qua; congruence). rewrite cell_triangles_other by auto. simpl. tauto.
Qed.

Lemma in_triangles_from s : (forall k pts, In (k, pts) s -> plane_kind k -> List.length pts = kind_nnode k) ->
  forall c o, In o (concat (triangles_from c s)) <-> (exists id, o = Node id /\ In id (ids_of s)) \/ In o (extras_from c s).
Proof.
  induction s as [|[k pts] s IH]; intros V c o; [simpl; split; [tauto|intros [(id & _ & [])|[]]]|].
  cbn [triangles_from extras_from ids_of flat_map fst snd]. fold (ids_of s). rewrite concat_app, !in_app_iff, in_cell_triangles, IH by (intros; apply V; simpl; auto).
  destruct (tri_or_qua k) eqn:E.
  - apply plane_tri_or_qua in E. pose proof (V k pts ltac:(now left) E) as L. split.
    + intros [(_ & n & Hn & ->)|[(id & -> & H)|H]]; [|left; exists id; split; [auto|apply in_app_iff; auto]|auto].
      unfold corner_origin. destruct (Nat.ltb_spec n (kind_nnode k)).
      * left. eexists. split; [reflexivity|]. apply in_app_iff. left. apply nth_In. lia.
      * right. left. apply in_map, in_seq. lia.
    + intros [(id & -> & H)|[H|H]].
      * apply in_app_iff in H as [H|H]; [|eauto]. left. split; [auto|]. apply (In_nth _ _ 0) in H as (n & Hn & <-).
        exists n. split; [lia|]. unfold corner_origin. destruct (Nat.ltb_spec n (kind_nnode k)); [auto|lia].
      * left. split; [auto|]. apply in_map_iff in H as (e & <- & He). apply in_seq in He. exists (kind_nnode k + e). split; [lia|].
        unfold corner_origin. destruct (Nat.ltb_spec (kind_nnode k + e) (kind_nnode k)); [lia|]. f_equal. lia.
      * auto.
  - assert (N : ~ plane_kind k) by (rewrite <- plane_tri_or_qua; congruence). simpl. tauto.
Qed.

Lemma extras_le s : forall c c' e, In (Extra c' e) (extras_from c s) -> c <= c'.
Proof.
  induction s as [|[k pts] s IH]; intros c c' e; simpl; [tauto|]. rewrite in_app_iff. intros [H|H].
  - destruct (tri_or_qua k); [|destruct H]. apply in_map_iff in H as (x & [= <- _] & _). lia.
  - apply IH in H. lia.
Qed.
Lemma extras_only s : forall c o, In o (extras_from c s) -> exists c' e, o = Extra c' e.
Proof.
  induction s as [|[k pts] s IH]; intros c o; simpl; [tauto|]. rewrite in_app_iff. intros [H|H]; [|eauto].
  destruct (tri_or_qua k); [|destruct H]. apply in_map_iff in H as (x & <- & _). eauto.
Qed.
Lemma NoDup_app_intro {A} (a b : list A) : NoDup a -> NoDup b -> (forall x, In x a -> ~ In x b) -> NoDup (a ++ b).
Proof.
  intros Na Nb H. induction Na as [|x a Hx Na IH]; [exact Nb|]. simpl. constructor.
  - rewrite in_app_iff. intros [F|F]; [auto|]. exact (H x (or_introl eq_refl) F).
  - apply IH. intros y Hy. apply H. now right.
Qed.
Lemma NoDup_map_inj {A B} (f : A -> B) l : (forall x y, f x = f y -> x = y) -> NoDup l -> NoDup (map f l).
Proof.
  intros H N. induction N; simpl; constructor; auto. intros F. apply in_map_iff in F as (y & E & F). apply H in E. congruence.
Qed.
Lemma extras_nodup s : forall c, NoDup (extras_from c s).
Proof.
  induction s as [|[k pts] s IH]; intros c; simpl; [constructor|]. apply NoDup_app_intro; [|apply IH|].
  - destruct (tri_or_qua k); [|constructor]. apply NoDup_map_inj; [congruence|apply seq_NoDup].
  - intros o H F. destruct (tri_or_qua k); [|destruct H]. apply in_map_iff in H as (e & <- & _). apply extras_le in F. lia.
Qed.
Lemma extras_length s : forall c, List.length (extras_from c s) =
  list_sum (map (fun q => if tri_or_qua (fst q) then triangulate_extra_nnode (fst q) else 0) s).
Proof.
  induction s as [|[k pts] s IH]; intros c; [reflexivity|]. cbn [extras_from map fst]. rewrite app_length, IH.
  change (list_sum (?a :: ?b)) with (a + list_sum b). destruct (tri_or_qua k); simpl; [now rewrite map_length, seq_length|reflexivity].
Qed.

Lemma labels_count m s lab : valid_surface m s -> NoDup lab -> (forall o, In o lab <-> In o (concat (surface_triangles s))) ->
  List.length lab = List.length (nodup Nat.eq_dec (ids_of s)) +
    list_sum (map (fun q => if tri_or_qua (fst q) then triangulate_extra_nnode (fst q) else 0) s).
Proof.
  intros V N H. rewrite <- (extras_length s 0), <- (map_length Node), <- app_length. apply Permutation_length, NoDup_Permutation; auto.
  - apply NoDup_app_intro; [apply NoDup_map_inj; [congruence|apply NoDup_nodup]|apply extras_nodup|].
    intros o F G. apply in_map_iff in F as (id & <- & _). apply extras_only in G as (c & e & G). discriminate.
  - intros o. rewrite H. unfold surface_triangles. rewrite in_triangles_from by (intros k pts Hk P; now apply (proj2 (proj2 V))).
    rewrite in_app_iff, in_map_iff. split.
    + intros [(id & -> & F)|F]; [left; exists id; split; [auto|now apply nodup_In]|auto].
    + intros [(id & <- & F)|F]; [left; exists id; split; [auto|now apply nodup_In in F]|auto].
Qed.

Lemma triangles_count s : forall c, List.length (triangles_from c s) =
  list_sum (map (fun q => if tri_or_qua (fst q) then triangulate_ntriangle (fst q) else 0) s).
Proof.
  induction s as [|[k pts] s IH]; intros c; [reflexivity|]. cbn [triangles_from map fst]. rewrite app_length, IH.
  change (list_sum (?a :: ?b)) with (a + list_sum b). f_equal. destruct (tri_or_qua k) eqn:E.
  - apply plane_tri_or_qua in E. rewrite cell_triangles_plane by auto. now rewrite map_length, seq_length.
  - rewrite cell_triangles_other by (rewrite <- plane_tri_or_qua; congruence). reflexivity.
Qed.

Lemma Forall2_length_local {A B} (R : A -> B -> Prop) l l' : Forall2 R l l' -> List.length l = List.length l'.
Proof. intros H. induction H; simpl; auto. Qed.

Lemma from_surface_size m s : valid_surface m s -> exists tr, from_surface m s = Ok tr /\
  List.length (t_tris tr) = list_sum (map (fun q => if tri_or_qua (fst q) then triangulate_ntriangle (fst q) else 0) s) /\
  List.length (t_xx tr) = List.length (nodup Nat.eq_dec (ids_of s)) +
    list_sum (map (fun q => if tri_or_qua (fst q) then triangulate_extra_nnode (fst q) else 0) s).
Proof.
  intros V. destruct (from_surface_ok m s V) as (tr & E & (N & I & Lx & _ & _ & _ & T)). exists tr. split; [auto|]. split.
  - rewrite (Forall2_length_local _ _ _ T). apply triangles_count.
  - rewrite Lx. apply (labels_count m s); auto. apply N.
Qed.

(** Area *)
Lemma Rsum_app a b : sum (a ++ b) = (sum a + sum b)%R.
Proof. induction a; simpl; [lra|]. rewrite IHa. lra. Qed.

Definition oarea m s (i j : nat) (tri : list origin) : R :=
  match tri with
  | [a; b; c] => (((origin_x m s b i - origin_x m s a i) * (origin_x m s c j - origin_x m s a j) -
                   (origin_x m s c i - origin_x m s a i) * (origin_x m s b j - origin_x m s a j)) / 2)%R
  | _ => 0%R
  end.

Section Area.
Variable m : mesh R.
Variable s : list (geokind * list nat).
Hypothesis V : valid_surface m s.
Variables i j : nat.
Hypothesis Hi : i < ndim m.
Hypothesis Hj : j < ndim m.

Lemma corner_nodal c k pts n d : nth_error s c = Some (k, pts) -> plane_kind k ->
  origin_x m s (corner_origin c k pts n) d = nodal k (map (fun a => point_x m (nth a pts 0) d) (seq 0 (kind_nnode k))) n.
Proof.
  intros Hs P. unfold corner_origin, nodal. destruct (Nat.ltb_spec n (kind_nnode k)), (Nat.leb_spec (kind_nnode k) n); try lia.
  - cbn [origin_x]. rewrite nth_map_seq by auto. reflexivity.
  - cbn [origin_x]. rewrite Hs. rewrite (dot_sum_n _ _ (kind_nnode k)); [|apply calc_interp_length|now rewrite map_length, seq_length].
    apply sum_n_ext. intros a Ha. rewrite nth_map_seq by auto. reflexivity.
Qed.

Lemma cell_area_sum c k pts : nth_error s c = Some (k, pts) -> sum (map (oarea m s i j) (cell_triangles c k pts)) = cell_area m i j (k, pts).
Proof.
  intros Hs. unfold cell_area. cbn [fst snd]. destruct (tri_or_qua k) eqn:E.
  2:{ rewrite cell_triangles_other by (rewrite <- plane_tri_or_qua; congruence). reflexivity. }
  apply plane_tri_or_qua in E. rewrite cell_triangles_plane by auto.
  set (xxt := map (fun d => map (fun a => point_x m (nth a pts 0) d) (seq 0 (kind_nnode k))) (seq 0 (ndim m))).
  assert (L : List.length xxt = ndim m) by (unfold xxt; now rewrite map_length, seq_length).
  assert (Nx : forall d, d < ndim m -> nth d xxt [] = map (fun a => point_x m (nth a pts 0) d) (seq 0 (kind_nnode k))).
  { intros d Hd. unfold xxt. now rewrite nth_map_seq. }
  destruct (triangulate_area k xxt i j E) as (tris & Et & Lt & Ft & A); try lia.
  { apply Forall_forall. intros row Hr. unfold xxt in Hr. apply in_map_iff in Hr as (d & <- & _). now rewrite map_length, seq_length. }
  transitivity (sum (map (listed_area i j) tris)).
  - assert (Tt : tris = map (fun t => map (tri_vertex k xxt t) (seq 0 3)) (seq 0 (triangulate_ntriangle k))).
    { clear - Et E. unfold triangulate in Et. destruct E as [Q|Q]; rewrite Q in Et; injection Et as <-; reflexivity. }
    rewrite Tt, !map_map. f_equal. apply map_ext_in. intros t Ht. apply in_seq in Ht. cbn [seq map]. unfold tri_vertex.
    destruct (plane_nodes k t 0 E) as (-> & _); [lia|lia|]. destruct (plane_nodes k t 1 E) as (-> & _); [lia|lia|].
    destruct (plane_nodes k t 2 E) as (-> & _); [lia|lia|]. cbn [listed_area snd]. unfold tri_area.
    rewrite !nth_vertex by lia. rewrite !Nx by auto. unfold tri_of, oarea. rewrite !corner_nodal by auto. reflexivity.
  - rewrite A. f_equal. apply map_ext_in. intros n Hn. pose proof (tri_nodes_check k) as N. rewrite (proj2 (is_2d_class k) E) in N.
    cbn [negb orb] in N. apply andb_prop in N as [N _]. apply andb_prop in N as [_ N]. rewrite forallb_forall in N.
    specialize (N _ Hn). apply Nat.ltb_lt in N. rewrite !Nx by auto. rewrite !nth_map_seq by auto. reflexivity.
Qed.

Lemma area_from s1 s2 : s = s1 ++ s2 -> sum (map (oarea m s i j) (triangles_from (List.length s1) s2)) = sum (map (cell_area m i j) s2).
Proof.
  revert s1. induction s2 as [|[k pts] s2 IH]; intros s1 E; [reflexivity|]. cbn [triangles_from map].
  rewrite map_app, Rsum_app. cbn [sum]. f_equal.
  - apply cell_area_sum. rewrite E, nth_error_app2, Nat.sub_diag by lia. reflexivity.
  - specialize (IH (s1 ++ [(k, pts)])). rewrite app_length, Nat.add_1_r in IH. apply IH. now rewrite <- app_assoc.
Qed.

Lemma result_origin tr lab n o d : triangulates m s tr lab -> nth_error lab n = Some o -> d < ndim m -> result_x tr d n = origin_x m s o d.
Proof.
  intros (_ & _ & _ & _ & _ & X & _) H Hd. destruct (X n o H) as (X0 & X1 & X2). unfold result_x.
  destruct V as (D & _). destruct d as [|[|[|d]]]; auto; [apply X2|]; lia.
Qed.

Lemma from_surface_area : exists tr, from_surface m s = Ok tr /\
  sum (map (result_area tr i j) (t_tris tr)) = sum (map (cell_area m i j) s).
Proof.
  destruct (from_surface_ok m s V) as (tr & E & T). exists tr. split; [auto|].
  rewrite <- (area_from [] s eq_refl). cbn [List.length]. fold (surface_triangles s).
  pose proof T as (_ & _ & _ & _ & _ & _ & F). f_equal.
  induction F as [|tri o l l' H _ IH]; [reflexivity|]. cbn [map]. f_equal; [|exact IH].
  destruct H as [|a oa ? ? Ha H]; [reflexivity|]. destruct H as [|b ob ? ? Hb H]; [reflexivity|].
  destruct H as [|c oc ? ? Hc H]; [reflexivity|]. destruct H; [|reflexivity].
  unfold result_area, oarea.
  rewrite (result_origin tr _ a oa i T Ha Hi), (result_origin tr _ a oa j T Ha Hj).
  rewrite (result_origin tr _ b ob i T Hb Hi), (result_origin tr _ b ob j T Hb Hj).
  rewrite (result_origin tr _ c oc i T Hc Hi), (result_origin tr _ c oc j T Hc Hj). reflexivity.
Qed.
End Area.
