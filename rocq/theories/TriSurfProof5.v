(* The triangulation of the boundary of a mesh of solids. *)
From Coq Require Import String Reals QArith Qreals List Arith Bool Lia Lra Permutation Sorted.
From Verif Require Import Base BaseFacts Kind MeshModel MeshQuerySpec ShapesData ShapesModel ShapesSpec ShapesTables PadModel
  TopoModel TopoMaps TopoSpec TopoProof TopoFeat3 TopoFinal TriSurfModel TriSurfSpec TriSurfProof TriSurfProof2 TriSurfProof3 TriSurfProof4.
Import ListNotations.
Local Open Scope nat_scope.

(** The faces of one solid, with all their nodes, form a closed surface *)
Definition solid_loops (k : geokind) : list (nat * nat) :=
  match kind_face_kind k with
  | Some kd => flat_map (fun f => loop_edges (map (face_node_id k f) (boundary_loop kd))) (seq 0 (kind_nface k))
  | None => []
  end.
Lemma solid_loops_check k : negb (kind_ndim k =? 3) ||
  (pnodup (solid_loops k) && forallb (fun e => pmem (snd e, fst e) (solid_loops k)) (solid_loops k)) = true.
Proof. destruct k; vm_compute; reflexivity. Qed.
Lemma solid_loops_balanced k : kind_ndim k = 3 -> balanced (solid_loops k).
Proof.
  intros D. pose proof (solid_loops_check k) as H. rewrite D in H. cbn [Nat.eqb negb orb] in H. apply andb_prop in H as [H G].
  apply closed_sym; [now apply pnodup_ok|]. intros e He. rewrite forallb_forall in G. apply pmem_In. now apply G.
Qed.
Lemma face_kind_check k : negb (kind_ndim k =? 3) ||
  match kind_face_kind k with Some kd => tri_or_qua kd && (kind_nnode kd =? kind_face_nnode k) | None => false end = true.
Proof. destruct k; vm_compute; reflexivity. Qed.
Lemma face_kind_plane k kd : kind_ndim k = 3 -> kind_face_kind k = Some kd -> plane_kind kd /\ kind_nnode kd = kind_face_nnode k.
Proof.
  intros D E. pose proof (face_kind_check k) as H. rewrite D, E in H. cbn [Nat.eqb negb orb] in H. apply andb_prop in H as [H G].
  split; [now apply plane_tri_or_qua|now apply Nat.eqb_eq].
Qed.
Lemma face_kind_some k : kind_ndim k = 3 -> exists kd, kind_face_kind k = Some kd.
Proof.
  intros D. pose proof (face_kind_check k) as H. rewrite D in H. destruct (kind_face_kind k); [eauto|discriminate].
Qed.

Lemma flat_map_map_both {A} (f : A -> list (nat * nat)) (g : nat -> nat) l : flat_map (fun x => map (both g) (f x)) l = map (both g) (flat_map f l).
Proof. induction l as [|x l IH]; [reflexivity|]. cbn [flat_map]. now rewrite map_app, IH. Qed.
Lemma flat_map_ext_in {A B} (f g : A -> list B) l : (forall a, In a l -> f a = g a) -> flat_map f l = flat_map g l.
Proof. induction l as [|x l IH]; intros H; [reflexivity|]. cbn [flat_map]. rewrite H, IH; auto; [intros; apply H; now right|now left]. Qed.
Lemma flat_map_perm {A B} (f : A -> list B) l l' : Permutation l l' -> Permutation (flat_map f l) (flat_map f l').
Proof.
  induction 1; cbn [flat_map]; auto.
  - now apply Permutation_app_head.
  - rewrite !app_assoc. apply Permutation_app_tail, Permutation_app_comm.
  - now transitivity (flat_map f l').
Qed.
Lemma filter_split {A} (p : A -> bool) l : Permutation l (filter p l ++ filter (fun x => negb (p x)) l).
Proof.
  induction l as [|x l IH]; [apply Permutation_refl|]. cbn [filter]. destruct (p x); cbn [negb app]; [now constructor|].
  now apply Permutation_cons_app.
Qed.
Lemma balanced_flat {A B} (f : A -> list (B * B)) l : (forall a, In a l -> balanced (f a)) -> balanced (flat_map f l).
Proof.
  induction l as [|x l IH]; intros H; [apply Permutation_refl|]. cbn [flat_map]. apply closed_app; [apply H; now left|].
  apply IH. intros; apply H; now right.
Qed.
Lemma flat_map_flat_map {A B C} (f : B -> list C) (g : A -> list B) l : flat_map f (flat_map g l) = flat_map (fun x => flat_map f (g x)) l.
Proof. induction l as [|x l IH]; [reflexivity|]. cbn [flat_map]. now rewrite flat_map_app, IH. Qed.

Section Boundary.
Variable m : mesh R.
Hypothesis C : consistent m.

(* the boundary of local face f of cell c *)
Definition gb (cf : nat * nat) : list (nat * nat) :=
  match nth_error (cells m) (fst cf) with
  | Some cl => match kind_face_kind (c_kind cl) with
      | Some kd => map (both (fun n => nth n (c_points cl) 0)) (loop_edges (map (face_node_id (c_kind cl) (snd cf)) (boundary_loop kd)))
      | None => [] end
  | None => []
  end.

Lemma gb_face cf kd ps : face_nodes m (fst cf) (snd cf) kd ps -> gb cf = cell_boundary kd ps.
Proof.
  intros (cl & Hc & Ei & D & Hf & Ek & Ep). unfold gb. rewrite <- Ei, (cell_by_id m cl C Hc), Ek.
  unfold cell_boundary. destruct (face_kind_plane _ _ D Ek) as (P & En).
  set (f := fun m0 => nth m0 ps 0). set (h := fun x : nat => x).
  assert (X : map (both (fun n => nth n (c_points cl) 0)) (loop_edges (map (face_node_id (c_kind cl) (snd cf)) (boundary_loop kd))) =
              map (both (fun n => nth (face_node_id (c_kind cl) (snd cf) n) (c_points cl) 0)) (loop_edges (boundary_loop kd))).
  { symmetry. apply (loop_edges_map (face_node_id (c_kind cl) (snd cf)) (boundary_loop kd)). auto. }
  rewrite X. rewrite (loop_edges_map f (boundary_loop kd) _ h).
  - rewrite <- (map_id (loop_edges (map f (boundary_loop kd)))) at 2. apply map_ext. intros [a b]. reflexivity.
  - intros n Hn. apply loop_lt in Hn; auto. unfold f, h. rewrite En in Hn.
    assert (Q : nth_error (map (fun i => nth_error (c_points cl) (face_node_id (c_kind cl) (snd cf) i)) (seq 0 (kind_face_nnode (c_kind cl)))) n
       = nth_error (map Some ps) n) by now rewrite Ep.
    rewrite !nth_error_map in Q. rewrite (nth_error_nth' (seq 0 _) 0) in Q by now rewrite seq_length.
    rewrite seq_nth in Q by auto. cbn [option_map Nat.add] in Q.
    destruct (nth_error ps n) as [x|] eqn:E2; [|discriminate]. injection Q as Q.
    rewrite (nth_error_nth _ _ 0 E2). now apply nth_error_nth.
Qed.

Lemma cell_balanced cl : In cl (cells m) -> kind_ndim (c_kind cl) = 3 ->
  balanced (flat_map (fun f => gb (c_id cl, f)) (seq 0 (kind_nface (c_kind cl)))).
Proof.
  intros Hc D. destruct (face_kind_some _ D) as (kd & Ek).
  rewrite (flat_map_ext_in _ (fun f => map (both (fun n => nth n (c_points cl) 0)) (loop_edges (map (face_node_id (c_kind cl) f) (boundary_loop kd))))).
  - rewrite flat_map_map_both. apply closed_map. pose proof (solid_loops_balanced _ D) as B. unfold solid_loops in B. now rewrite Ek in B.
  - intros f _. unfold gb. cbn [fst snd]. now rewrite (cell_by_id m cl C Hc), Ek.
Qed.

Definition all_pairs : list (nat * nat) :=
  flat_map (fun cl => if kind_ndim (c_kind cl) =? 3 then map (pair (c_id cl)) (seq 0 (kind_nface (c_kind cl))) else []) (cells m).
Lemma all_pairs_balanced : balanced (flat_map gb all_pairs).
Proof.
  unfold all_pairs. rewrite flat_map_flat_map. apply balanced_flat. intros cl Hc.
  destruct (Nat.eqb_spec (kind_ndim (c_kind cl)) 3) as [D|D]; [|apply Permutation_refl].
  replace (flat_map gb (map (pair (c_id cl)) (seq 0 (kind_nface (c_kind cl))))) with (flat_map (fun f => gb (c_id cl, f)) (seq 0 (kind_nface (c_kind cl)))); [now apply cell_balanced|].
  induction (seq 0 (kind_nface (c_kind cl))) as [|f l IH]; [reflexivity|]. cbn [map flat_map]. now rewrite IH.
Qed.
Lemma all_pairs_in c f : In (c, f) all_pairs <-> exists cl, In cl (cells m) /\ c_id cl = c /\ kind_ndim (c_kind cl) = 3 /\ f < kind_nface (c_kind cl).
Proof.
  unfold all_pairs. rewrite in_flat_map. split.
  - intros (cl & Hc & H). destruct (Nat.eqb_spec (kind_ndim (c_kind cl)) 3) as [D|D]; [|destruct H].
    apply in_map_iff in H as (f' & [= <- <-] & H). apply in_seq in H. exists cl. split; [auto|]. split; [auto|]. split; [auto|lia].
  - intros (cl & Hc & <- & D & H). exists cl. split; [auto|]. rewrite D. cbn [Nat.eqb]. apply in_map, in_seq. lia.
Qed.
Lemma all_pairs_nodup : NoDup all_pairs.
Proof.
  pose proof (nodup_ids m C) as N. unfold all_pairs. induction (cells m) as [|cl l IH]; [constructor|]. cbn [flat_map map] in *.
  inversion N as [|? ? N1 N2]; subst. apply NoDup_app_intro; [|now apply IH|].
  - destruct (kind_ndim (c_kind cl) =? 3); [|constructor]. apply NoDup_map_inj; [congruence|apply seq_NoDup].
  - intros [c f] H F. destruct (kind_ndim (c_kind cl) =? 3); [|destruct H]. apply in_map_iff in H as (f' & [= <- <-] & _).
    apply in_flat_map in F as (cl' & Hc & F). destruct (kind_ndim (c_kind cl') =? 3); [|destruct F].
    apply in_map_iff in F as (f'' & [= E _] & _). apply N1. rewrite <- E. now apply in_map.
Qed.

Lemma face_ncorner_check k : negb (kind_ndim k =? 3) ||
  forallb (fun f => forallb (fun i => face_node_id k f i <? kind_nnode k) (seq 0 (Nat.max (face_ncorner k) (kind_face_nnode k)))) (seq 0 (kind_nface k)) = true.
Proof. destruct k; vm_compute; reflexivity. Qed.

Lemma pair_face c f : In (c, f) all_pairs -> exists k, StronglySorted le k /\ has_face m k (c, f).
Proof.
  intros H. apply all_pairs_in in H as (cl & Hc & Ei & D & Hf).
  set (ps := map (fun i => nth (face_node_id (c_kind cl) f i) (c_points cl) 0) (seq 0 (face_ncorner (c_kind cl)))).
  exists (isort Nat.leb ps). split; [apply isort_sorted_le|]. exists ps. split; [|apply isort_perm].
  exists cl. do 4 (split; [assumption|]). unfold ps. rewrite map_map. apply map_ext_in. intros i Hi. apply in_seq in Hi.
  apply nth_error_nth'. pose proof (face_ncorner_check (c_kind cl)) as K. rewrite D in K. cbn [Nat.eqb negb orb] in K.
  apply forallb_seq with (i := f) in K; [|exact Hf]. apply forallb_seq with (i := i) in K; [|lia]. apply Nat.ltb_lt in K.
  apply In_nth_error in Hc as (ci & Hc). destruct (proj2 C _ _ Hc) as (_ & -> & _). exact K.
Qed.
Lemma has_face_pair k c f : has_face m k (c, f) -> In (c, f) all_pairs.
Proof. intros (qs & (cl & Hc & Ei & D & Hf & _) & _). apply all_pairs_in. exists cl. auto. Qed.
Lemma has_face_key k k' cf : StronglySorted le k -> StronglySorted le k' -> has_face m k cf -> has_face m k' cf -> k = k'.
Proof.
  intros S S' (qs & (cl & Hc & Ei & _ & _ & E) & P) (qs' & (cl' & Hc' & Ei' & _ & _ & E') & P').
  assert (cl' = cl). { pose proof (cell_by_id m cl C Hc) as A. pose proof (cell_by_id m cl' C Hc') as B. rewrite Ei in A. rewrite Ei' in B. congruence. }
  subst cl'. assert (qs = qs').
  { rewrite E in E'. clear - E'. revert qs' E'. induction qs as [|x q IH]; intros [|y q'] H; try discriminate; [reflexivity|].
    cbn [map] in H. injection H as -> H. f_equal. now apply IH. }
  subst qs'. apply sorted_perm_eq; auto. now rewrite P, P'.
Qed.

(** The map from faces to their owners *)
Hypothesis Q : no_quadratic_tets m.
Variable fm : fmap.
Hypothesis Fm : extract_all_faces m = Ok fm.

Definition owners (k : fkey) : list (nat * nat) := match mget fkey_eqb fm k with Some l => l | None => [] end.
Lemma entry k l : In (k, l) fm -> owners k = l /\ StronglySorted le k /\ l <> [] /\ NoDup l /\ forall cf, In cf l <-> has_face m k cf.
Proof.
  intros H. destruct (face_map_spec m fm Fm (nodup_ids m C) Q) as (N & S). specialize (S k). unfold owners.
  rewrite (in_mget fkey_eqb fkey_eqb_eq fm k l N H) in *. destruct S as (S1 & S2 & S3 & S4). auto.
Qed.
Lemma entry_of k l : mget fkey_eqb fm k = Some l -> In (k, l) fm.
Proof. apply mget_in. exact fkey_eqb_eq. Qed.

Lemma all_owners : Permutation (flat_map snd fm) all_pairs.
Proof.
  apply NoDup_Permutation; [|apply all_pairs_nodup|].
  - destruct (face_map_spec m fm Fm (nodup_ids m C) Q) as (N & _).
    assert (H : forall e, In e fm -> In e fm) by auto. revert H N. generalize fm at 1 3 4 as l.
    induction l as [|[k o] l IH]; intros H N; [constructor|]. cbn [flat_map map fst snd] in *. inversion N as [|? ? N1 N2]; subst.
    destruct (entry k o (H _ (or_introl eq_refl))) as (_ & S & _ & No & Ho).
    apply NoDup_app_intro; [auto|apply IH; auto; intros; apply H; now right|].
    intros cf H1 H2. apply in_flat_map in H2 as ([k' o'] & H2 & H3). cbn [snd] in H3.
    destruct (entry k' o' (H _ (or_intror H2))) as (_ & S' & _ & _ & Ho').
    assert (k = k') by (apply (has_face_key k k' cf); auto; [now apply Ho|now apply Ho']). subst k'.
    apply N1. now apply (in_map fst) in H2.
  - intros [c f]. split.
    + intros H. apply in_flat_map in H as ([k o] & H & H2). apply (entry k o) in H as (_ & _ & _ & _ & H). apply H in H2.
      now apply has_face_pair in H2.
    + intros H. apply pair_face in H as (k & S & H). destruct (face_map_spec m fm Fm (nodup_ids m C) Q) as (N & F). specialize (F k).
      apply in_flat_map. destruct (mget fkey_eqb fm k) as [l|] eqn:G; [|exfalso; apply (F S (c, f)); auto].
      exists (k, l). split; [now apply entry_of|]. now apply F.
Qed.

Definition lonely (e : fkey * list (nat * nat)) : bool := List.length (snd e) =? 1.

Lemma face_nodes_exist cf : In cf all_pairs -> exists kd ps, face_nodes m (fst cf) (snd cf) kd ps.
Proof.
  destruct cf as [c f]. intros H. apply all_pairs_in in H as (cl & Hc & Ei & D & Hf). destruct (face_kind_some _ D) as (kd & Ek).
  exists kd, (map (fun i => nth (face_node_id (c_kind cl) f i) (c_points cl) 0) (seq 0 (kind_face_nnode (c_kind cl)))).
  exists cl. cbn [fst snd]. do 5 (split; [assumption|]). rewrite map_map. apply map_ext_in. intros i Hi. apply in_seq in Hi.
  apply nth_error_nth'. pose proof (face_ncorner_check (c_kind cl)) as K. rewrite D in K. cbn [Nat.eqb negb orb] in K.
  apply forallb_seq with (i := f) in K; [|exact Hf]. apply forallb_seq with (i := i) in K; [|lia]. apply Nat.ltb_lt in K.
  apply In_nth_error in Hc as (ci & Hc). destruct (proj2 C _ _ Hc) as (_ & -> & _). exact K.
Qed.

Lemma lonely_balanced : solids_conform m -> balanced (flat_map (fun e => flat_map gb (snd e)) (filter lonely fm)).
Proof.
  intros (S2 & SO). apply closed_cancel with (b := flat_map (fun e => flat_map gb (snd e)) (filter (fun e => negb (lonely e)) fm)).
  - rewrite <- flat_map_app. apply closed_perm with (a := flat_map gb all_pairs); [|apply all_pairs_balanced].
    rewrite <- (flat_map_perm gb _ _ all_owners), flat_map_flat_map. apply flat_map_perm. apply filter_split.
  - apply balanced_flat. intros [k l] H. apply filter_In in H as (H & L). destruct (entry k l H) as (_ & _ & Nn & Nd & Ho). cbn [snd].
    unfold lonely in L. cbn [snd] in L. destruct l as [|x [|y [|z l]]]; [congruence|discriminate| |].
    + inversion Nd as [|? ? Nx _]; subst. assert (x <> y) by (intros ->; apply Nx; now left).
      assert (Hx : has_face m k x) by (apply Ho; simpl; auto). assert (Hy : has_face m k y) by (apply Ho; simpl; auto).
      destruct (face_nodes_exist x) as (kx & px & Fx); [destruct x; eapply has_face_pair; eauto|].
      destruct (face_nodes_exist y) as (ky & py & Fy); [destruct y; eapply has_face_pair; eauto|].
      cbn [flat_map]. rewrite app_nil_r, (gb_face x kx px Fx), (gb_face y ky py Fy). unfold balanced. rewrite map_app.
      pose proof (SO k x y kx px ky py Hx Hy H0 Fx Fy) as P1. pose proof (SO k y x ky py kx px Hy Hx (not_eq_sym H0) Fy Fx) as P2.
      rewrite P1, P2. apply Permutation_app_comm.
    + exfalso. inversion Nd as [|? ? Nx Nd']; subst. inversion Nd' as [|? ? Ny _]; subst.
      destruct (S2 k x y z) as [E|[E|E]]; try (apply Ho; simpl; auto); subst; [apply Nx; now left|apply Ny; now left|apply Nx; right; now left].
Qed.
End Boundary.

(** The boundary faces *)
Section Faces.
Variable leb : R -> R -> bool.
Variable sh : emap -> emap.
Variable shuffle : list (fkey * face) -> list (fkey * face).
Hypothesis Sh : forall l, Permutation (shuffle l) l.
Variable m : mesh R.
Variable ea : bool.
Variable ft : @features R.
Hypothesis C : consistent m.
Hypothesis D : ndim m = 3.
Hypothesis Q : no_quadratic_tets m.
Hypothesis Ft : features_new leb sh m ea = Ok ft.

Let Fm : extract_all_faces m = Ok (ft_all_faces ft) := features_map_3d leb sh m ea ft D Ft.
Definition single (kf : fkey * face) : bool := List.length (owners (ft_all_faces ft) (fst kf)) =? 1.

Lemma listed_in k fc : In (k, fc) (ft_faces ft) <-> get_face ft k = Ok fc.
Proof.
  destruct (faces_3d leb sh m ea ft C D Ft) as (N & _). rewrite get_face_iff. split.
  - apply in_mget; [exact fkey_eqb_eq|exact N].
  - apply mget_in. exact fkey_eqb_eq.
Qed.
Lemma listed_entry k fc : In (k, fc) (ft_faces ft) -> exists l, mget fkey_eqb (ft_all_faces ft) k = Some l.
Proof.
  intros H. apply listed_in in H. assert (X : exists fc, get_face ft k = Ok fc) by eauto.
  apply (listed_faces_3d leb sh m ea ft C D Q Ft) in X as (S & W).
  destruct (face_map_spec m _ Fm (nodup_ids m C) Q) as (_ & K). specialize (K k).
  destruct (mget fkey_eqb (ft_all_faces ft) k); [eauto|]. exfalso. specialize (K S).
  unfold wanted in W. destruct ea; [destruct W as (x & W)|destruct W as (x & W & _)]; exact (K x W).
Qed.

Lemma boundary_faces_ok : boundary_faces shuffle ft = Ok (map snd (filter single (shuffle (ft_faces ft)))).
Proof.
  unfold boundary_faces.
  assert (H : forall l acc, (forall e, In e l -> In e (ft_faces ft)) ->
    foldM (fun (acc : list face) (kf : fkey * face) =>
      let! owners := unwrap (mget fkey_eqb (ft_all_faces ft) (fst kf)) in
      Ok (if List.length owners =? 1 then acc ++ [snd kf] else acc)) l acc = Ok (acc ++ map snd (filter single l))).
  { induction l as [|[k fc] l IH]; intros acc H; [cbn; now rewrite app_nil_r|]. cbn [foldM fst snd].
    destruct (listed_entry k fc (H _ (or_introl eq_refl))) as (o & E). rewrite E. cbn [unwrap bind].
    rewrite IH by (intros; apply H; now right). cbn [filter]. unfold single at 2, owners. cbn [fst]. rewrite E.
    destruct (List.length o =? 1); [|reflexivity]. cbn [map snd]. now rewrite <- app_assoc. }
  apply (H _ []). intros e He. eapply Permutation_in; [apply Sh|exact He].
Qed.

Lemma one_owner k : (exists x, owners (ft_all_faces ft) k = [x]) -> exists x, owners (ft_all_faces ft) k = [x] /\ StronglySorted le k /\ forall y, has_face m k y <-> y = x.
Proof.
  intros (x & E). exists x. split; [auto|]. unfold owners in E. destruct (mget fkey_eqb (ft_all_faces ft) k) as [l|] eqn:G; [|discriminate]. subst l.
  apply entry_of in G. destruct (entry m C Q _ Fm k [x] G) as (_ & S & _ & _ & Ho). split; [auto|]. intros y. rewrite <- Ho. simpl. intuition.
Qed.
Lemma length_one {A} (l : list A) : (List.length l =? 1) = true <-> exists x, l = [x].
Proof.
  destruct l as [|x [|y l]]; cbn; split; intros H; try discriminate; try (destruct H; discriminate); [eauto|reflexivity].
Qed.

(* the boundary faces, one by one *)
Lemma boundary_face_data k fc : In (k, fc) (ft_faces ft) -> single (k, fc) = true ->
  exists cf, (forall y, has_face m k y <-> y = cf) /\ face_nodes m (fst cf) (snd cf) (f_kind fc) (f_points fc) /\ owners (ft_all_faces ft) k = [cf].
Proof.
  intros H S. unfold single in S. cbn [fst] in S. apply length_one in S. destruct (one_owner k S) as (cf & E & _ & U). exists cf.
  split; [auto|]. split; [|auto]. apply listed_in in H. destruct (face_data_3d leb sh m ea ft C D Q Ft k fc H) as (_ & cf' & (F1 & _) & F2).
  apply U in F1. now subst cf'.
Qed.
Lemma boundary_face_listed k cf : StronglySorted le k -> (forall y, has_face m k y <-> y = cf) ->
  exists fc, In (k, fc) (ft_faces ft) /\ single (k, fc) = true.
Proof.
  intros S U. assert (W : wanted ea (has_face m k)).
  { unfold wanted. assert (has_face m k cf) by now apply U. destruct ea; [eauto|]. exists cf. split; [auto|]. intros y Hy. symmetry. now apply U. }
  destruct (proj2 (listed_faces_3d leb sh m ea ft C D Q Ft k) (conj S W)) as (fc & G). exists fc. split; [now apply listed_in|].
  unfold single. cbn [fst]. unfold owners.
  destruct (face_map_spec m _ Fm (nodup_ids m C) Q) as (_ & K). specialize (K k).
  destruct (mget fkey_eqb (ft_all_faces ft) k) as [l|]; [|exfalso; apply (K S cf); now apply U].
  destruct K as (_ & Nn & Nd & Ho). destruct l as [|x [|y l]]; [congruence|reflexivity|]. exfalso.
  assert (x = cf) by (apply U, Ho; simpl; auto). assert (y = cf) by (apply U, Ho; simpl; auto). subst. inversion Nd; subst. simpl in *. tauto.
Qed.

Lemma face_nodes_valid cf kd ps : face_nodes m (fst cf) (snd cf) kd ps -> plane_kind kd /\ List.length ps = kind_nnode kd /\ forall q, In q ps -> q < List.length (points m).
Proof.
  intros (cl & Hc & Ei & D3 & Hf & Ek & Ep). destruct (face_kind_plane _ _ D3 Ek) as (P & En). split; [auto|]. split.
  - rewrite En. apply (f_equal (@List.length _)) in Ep. rewrite !map_length, seq_length in Ep. auto.
  - intros q Hq. apply In_nth_error in Hq as (n & Hn). apply (map_nth_error Some) in Hn. rewrite <- Ep in Hn.
    rewrite nth_error_map in Hn. destruct (nth_error (seq 0 _) n) as [i|]; [|discriminate]. injection Hn as Hn.
    apply In_nth_error in Hc as (ci & Hc). apply (proj2 C _ _ Hc). eapply nth_error_In; eauto.
Qed.

Lemma boundary_valid fs : boundary_faces shuffle ft = Ok fs -> coords_complete m -> valid_surface m (as_surface fs).
Proof.
  rewrite boundary_faces_ok. intros [= <-] K. split; [auto|]. split; [auto|]. intros k pts H P. unfold as_surface in H.
  apply in_map_iff in H as (fc & [= <- <-] & H). apply in_map_iff in H as ([key fc'] & E & H). cbn [snd] in E. subst fc'.
  apply filter_In in H as (H & S). assert (H' : In (key, fc) (ft_faces ft)) by (eapply Permutation_in; [apply Sh|exact H]).
  destruct (boundary_face_data key fc H' S) as (cf & _ & F & _). apply face_nodes_valid in F. tauto.
Qed.

Lemma boundary_balanced fs : boundary_faces shuffle ft = Ok fs -> solids_conform m -> balanced (surface_boundary (as_surface fs)).
Proof.
  rewrite boundary_faces_ok. intros [= <-] SC.
  set (G := fun k => flat_map (gb m) (owners (ft_all_faces ft) k)).
  assert (E1 : surface_boundary (as_surface (map snd (filter single (shuffle (ft_faces ft))))) = flat_map G (map fst (filter single (shuffle (ft_faces ft))))).
  { assert (H : forall e, In e (filter single (shuffle (ft_faces ft))) -> In e (ft_faces ft) /\ single e = true).
    { intros e He. apply filter_In in He as (He & S). split; [|auto]. eapply Permutation_in; [apply Sh|exact He]. }
    revert H. induction (filter single (shuffle (ft_faces ft))) as [|[k fc] l IH]; intros H; [reflexivity|].
    cbn [map snd as_surface surface_boundary flat_map fst]. fold (as_surface (map snd l)). fold (surface_boundary (as_surface (map snd l))).
    rewrite IH by (intros; apply H; now right). f_equal. destruct (H _ (or_introl eq_refl)) as (H1 & H2).
    destruct (boundary_face_data k fc H1 H2) as (cf & _ & F & O). unfold G. rewrite O. cbn [flat_map]. rewrite app_nil_r, (gb_face m C cf _ _ F).
    apply face_nodes_valid in F as (P & _). apply plane_tri_or_qua in P. now rewrite P. }
  rewrite E1. clear E1.
  destruct (face_map_spec m _ Fm (nodup_ids m C) Q) as (Nf & _). destruct (faces_3d leb sh m ea ft C D Ft) as (Nt & _).
  assert (NF : forall {A B} (p : A * B -> bool) (l : list (A * B)), NoDup (map fst l) -> NoDup (map fst (filter p l))).
  { clear. intros A B p l N. induction l as [|x l IH]; [constructor|]. cbn [map] in N. inversion N; subst. cbn [filter]. destruct (p x); [|auto].
    cbn [map]. constructor; auto. intros F. apply in_map_iff in F as (y & E & F). apply filter_In in F as (F & _). apply H1. rewrite <- E. now apply in_map. }
  assert (PK : Permutation (map fst (filter single (shuffle (ft_faces ft)))) (map fst (filter lonely (ft_all_faces ft)))).
  { apply NoDup_Permutation.
    - apply NF. eapply Permutation_NoDup; [|exact Nt]. apply Permutation_map, Permutation_sym, Sh.
    - now apply NF.
    - intros k. rewrite !in_map_iff. split.
      + intros ([k' fc] & E & H). cbn [fst] in E. subst k'. apply filter_In in H as (H & S). unfold single in S. cbn [fst] in S. apply length_one in S as (x & S).
        unfold owners in S. destruct (mget fkey_eqb (ft_all_faces ft) k) as [l|] eqn:GG; [|discriminate]. subst l. apply entry_of in GG.
        exists (k, [x]). split; [reflexivity|]. apply filter_In. auto.
      + intros ([k' l] & E & H). cbn [fst] in E. subst k'. apply filter_In in H as (H & S). unfold lonely in S. cbn [snd] in S. apply length_one in S as (x & ->).
        destruct (entry m C Q _ Fm k [x] H) as (_ & So & _ & _ & Ho).
        destruct (boundary_face_listed k x So) as (fc & F1 & F2); [intros y; rewrite <- Ho; simpl; intuition|].
        exists (k, fc). split; [reflexivity|]. apply filter_In. split; [|auto]. eapply Permutation_in; [apply Permutation_sym, Sh|auto]. }
  eapply closed_perm; [symmetry; apply flat_map_perm; exact PK|].
  replace (flat_map G (map fst (filter lonely (ft_all_faces ft)))) with (flat_map (fun e => flat_map (gb m) (snd e)) (filter lonely (ft_all_faces ft))).
  - now apply lonely_balanced.
  - assert (H : forall e, In e (filter lonely (ft_all_faces ft)) -> In e (ft_all_faces ft)) by (intros e He; now apply filter_In in He).
    clear PK. revert H. induction (filter lonely (ft_all_faces ft)) as [|[k l] r IH]; intros H; [reflexivity|]. cbn [flat_map map fst snd].
    rewrite IH by (intros; apply H; now right). f_equal. unfold G. destruct (entry m C Q _ Fm k l (H _ (or_introl eq_refl))) as (-> & _). reflexivity.
Qed.

(* the owner of the only face with the key *)
Definition owner_of (kf : fkey * face) : nat * nat := hd (0, 0) (owners (ft_all_faces ft) (fst kf)).

Lemma boundary_owners : exists own, NoDup own /\
  (forall cf, In cf own <-> exists k, forall y, has_face m k y <-> y = cf) /\
  Forall2 (fun fc cf => face_nodes m (fst cf) (snd cf) (f_kind fc) (f_points fc)) (map snd (filter single (shuffle (ft_faces ft)))) own.
Proof.
  set (l := filter single (shuffle (ft_faces ft))).
  assert (H : forall e, In e l -> In e (ft_faces ft) /\ single e = true).
  { intros e He. apply filter_In in He as (He & S). split; [|auto]. eapply Permutation_in; [apply Sh|exact He]. }
  assert (Dt : forall k fc, In (k, fc) l -> (forall y, has_face m k y <-> y = owner_of (k, fc)) /\
     face_nodes m (fst (owner_of (k, fc))) (snd (owner_of (k, fc))) (f_kind fc) (f_points fc) /\ StronglySorted le k).
  { intros k fc He. destruct (H _ He) as (H1 & H2). destruct (boundary_face_data k fc H1 H2) as (cf & U & F & O).
    unfold owner_of. cbn [fst]. rewrite O. cbn [hd]. split; [auto|]. split; [auto|]. unfold owners in O.
    destruct (mget fkey_eqb (ft_all_faces ft) k) as [o|] eqn:G; [|discriminate]. apply entry_of in G.
    now destruct (entry m C Q _ Fm k o G) as (_ & ? & _). }
  assert (Nk : NoDup (map fst l)).
  { destruct (faces_3d leb sh m ea ft C D Ft) as (Nt & _). assert (N2 : NoDup (map fst (shuffle (ft_faces ft)))).
    { eapply Permutation_NoDup; [|exact Nt]. apply Permutation_map, Permutation_sym, Sh. }
    unfold l. clear - N2. induction (shuffle (ft_faces ft)) as [|x r IH]; [constructor|]. cbn [map] in N2. inversion N2; subst. cbn [filter].
    destruct (single x); [|auto]. cbn [map]. constructor; auto. intros F. apply in_map_iff in F as (y & E & F). apply filter_In in F as (F & _).
    apply H1. rewrite <- E. now apply in_map. }
  exists (map owner_of l). split; [|split].
  - clear H. revert Dt Nk. induction l as [|[k fc] r IH]; intros Dt Nk; [constructor|]. cbn [map fst] in *. inversion Nk as [|? ? N1 N2]; subst.
    constructor; [|apply IH; auto; intros; apply Dt; now right]. intros F. apply in_map_iff in F as ([k' fc'] & E & F).
    destruct (Dt k fc (or_introl eq_refl)) as (U & _ & S). destruct (Dt k' fc' (or_intror F)) as (U' & _ & S').
    apply N1. replace k with k'; [now apply (in_map fst) in F|]. apply (has_face_key m C k' k (owner_of (k, fc))); auto; [|now apply U].
    rewrite <- E. now apply U'.
  - intros cf. rewrite in_map_iff. split.
    + intros ([k fc] & <- & F). exists k. now apply Dt.
    + intros (k & U). set (k' := isort Nat.leb k).
      assert (U' : forall y, has_face m k' y <-> y = cf).
      { intros y. rewrite <- U. split; intros (qs & F & P); exists qs; (split; [exact F|]); unfold k' in *.
        - transitivity (isort Nat.leb k); [apply Permutation_sym, isort_perm|exact P].
        - transitivity k; [apply isort_perm|exact P]. }
      destruct (boundary_face_listed k' cf (isort_sorted_le k) U') as (fc & F1 & F2). exists (k', fc).
      assert (F : In (k', fc) l) by (apply filter_In; split; [eapply Permutation_in; [apply Permutation_sym, Sh|auto]|auto]).
      split; [|exact F]. destruct (Dt k' fc F) as (U2 & _). symmetry. apply U2. now apply U'.
  - clear H Nk. induction l as [|[k fc] r IH]; [constructor|]. cbn [map snd]. constructor; [apply Dt; now left|]. apply IH. intros; apply Dt; now right.
Qed.

Lemma boundary_triangulation : coords_complete m -> exists fs own tr lab, boundary_faces shuffle ft = Ok fs /\
  NoDup own /\ (forall cf, In cf own <-> exists k, forall y, has_face m k y <-> y = cf) /\
  Forall2 (fun fc cf => face_nodes m (fst cf) (snd cf) (f_kind fc) (f_points fc)) fs own /\
  triangulate_3d_boundary shuffle m ft = Ok tr /\ triangulates m (as_surface fs) tr lab /\
  (solids_conform m -> balanced (all_edges (t_tris tr))).
Proof.
  intros K. pose proof boundary_faces_ok as E. destruct boundary_owners as (own & O1 & O2 & O3). set (fs := map snd _) in *.
  pose proof (boundary_valid fs E K) as V. destruct (from_surface_ok m (as_surface fs) V) as (tr & ET & T).
  exists fs, own, tr, (uniq (concat (surface_triangles (as_surface fs)))). do 4 (split; [assumption|]). split.
  { unfold triangulate_3d_boundary. rewrite D, E. cbn [Nat.eqb negb bind]. exact ET. }
  split; [auto|]. intros SC. eapply triangulation_closed; [exact T|]. now apply boundary_balanced.
Qed.
End Faces.
