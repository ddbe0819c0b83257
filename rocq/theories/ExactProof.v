(* The meshes of several blocks are joined exactly. *)
From Coq Require Import String Reals List Lia Lra Bool Arith ZArith Permutation Sorted.
From Verif Require Import Base BaseFacts Kind GraphModel MeshModel MeshQuerySpec TopoModel TopoSpec TopoMaps TopoProof TopoFeat3 TopoFinal GeomModel GeomSpec GeomProof GridModel GridSpec GridProof SearchModel SearchSpec SearchProof SearchProof2
  JoinModel JoinSpec JoinProof JoinProof2 JoinProof3 PropJoin ShapesModel ShapesSpec PadModel PadSpec PadProof PadProof2 PadProof3 BlockModel BlockSpec BlockProof BlockProof2 BlockProof3 BlockProof10 PropBlock StructModel StructSpec StructProof StructProof4 RingSpec RingProof2 BlocksSpec BlocksProof BlocksProof2 BlocksProof3 BlocksProof4 BlocksProof5 BlocksProof6 BlocksProof7 BlocksProof8 BlocksProof9 ExactSpec.
Import ListNotations.
Local Open Scope list_scope.
Local Open Scope R_scope.

(* same nodes, same point: see StructProof.join_exact; here with markers *)
Lemma join_exact' shp shuffle sh a b ga gb : any_order shp shuffle sh -> valid a -> valid b -> ndim a = ndim b -> markers_ok b -> framed shuffle a ->
  (forall i j x y, coords_of a i x -> coords_of b j y -> x = y \/ tolR (ndim a) < GeomSpec.euclid x y) ->
  distinct_points a -> distinct_points b -> all_used a -> all_used b -> shows a ga -> shows b gb ->
  exists m, join_two_meshes shp shuffle sh a b = Ok m /\ valid m /\ ndim m = ndim a /\ distinct_points m /\ all_used m /\ shows m (ga ++ gb).
Proof.
  intros O Va Vb En MO Fr Gap Da Db Na Nb Sa Sb. pose proof O as (O1 & O2 & O3). pose proof Va as (Ca & CCa & Dm). pose proof Vb as (Cb & CCb & _).
  destruct (TopoFinal.new_total Rleb shuffle O2 a false Ca CCa Dm) as (ft & F). destruct (Fr ft F) as (W & E).
  destruct (C28_total shp shuffle sh a b ft O Va Cb CCb En F W E MO) as (m & H). exists m. split; [exact H|].
  destruct (C28_join shp shuffle sh a b m O Va Cb CCb H) as (Vm & Nm & _ & K & KC & LC & f & Pl & CC & Mg & New & _). specialize (Mg ft F).
  split; [exact Vm|]. split; [exact Nm|].
  assert (KA : forall i x, coords_of a i x -> coords_of m i x). { intros i x (pt & A & B). exists pt. split; [apply K; exact A|exact B]. }
  assert (KB : forall p x, coords_of b p x -> coords_of m (f p) x).
  { intros p x (pt & A & <-). destruct (Mg p pt A) as [(q & Q & Dq)|(_ & Q & _)].
    - exists q. split; [apply K; exact Q|]. destruct (Gap (f p) p (pt_coords q) (pt_coords pt)) as [G|G]; [exists q; auto|exists pt; auto|exact G|lra].
    - eexists. split; [exact Q|]. reflexivity. }
  assert (Range : forall i x, coords_of m i x -> coords_of a i x \/ (List.length (points a) <= i)%nat /\ exists p, f p = i /\ coords_of b p x).
  { intros i x X. destruct (le_lt_dec (List.length (points a)) i) as [L|L].
    - right. split; [exact L|]. destruct (New i) as (p & Lp & Fp). { split; [exact L|]. eapply coords_range. exact X. }
      exists p. split; [exact Fp|]. destruct (coords_get b p Lp) as (y & Y). pose proof (KB p y Y) as Z. rewrite Fp in Z. rewrite (StructProof.coords_inj _ _ _ _ X Z). exact Y.
    - left. destruct (coords_get a i L) as (y & Y). rewrite (StructProof.coords_inj _ _ _ _ X (KA _ _ Y)). exact Y. }
  assert (Fresh : forall i p x, (List.length (points a) <= f p)%nat -> coords_of b p x -> ~ coords_of a i x).
  { intros i p x L (pt & A & <-) (q & Q & Eq). destruct (Mg p pt A) as [(q' & Q' & _)|(_ & _ & X & _)].
    - assert (H0 : nth_error (points a) (f p) <> None) by (rewrite Q'; discriminate). apply nth_error_Some in H0. lia.
    - apply (X i q Q). + apply E. eapply nth_error_In. exact Q. + rewrite Eq. apply close_self. lra. }
  split; [|split].
  - intros i j x Xi Xj. destruct (Range i x Xi) as [Ai|(Li & p & Fp & Bp)]; destruct (Range j x Xj) as [Aj|(Lj & p' & Fp' & Bp')].
    + exact (Da i j x Ai Aj).
    + exfalso. subst j. exact (Fresh i p' x Lj Bp' Ai).
    + exfalso. subst i. exact (Fresh j p x Li Bp Aj).
    + rewrite <- Fp, <- Fp'. f_equal. exact (Db p p' x Bp Bp').
  - intros i Li. destruct (le_lt_dec (List.length (points a)) i) as [L|L].
    + destruct (New i (conj L Li)) as (p & Lp & Fp). destruct (Nb p Lp) as (c & Ic & Ip). apply In_nth_error in Ic as (k & Ek).
      destruct (CC k c Ek) as (c' & E' & _ & _ & P). exists c'. split; [eapply nth_error_In; exact E'|]. rewrite P, <- Fp. apply in_map. exact Ip.
    + destruct (Na i L) as (c & Ic & Ip). apply In_nth_error in Ic as (k & Ek). exists c. split; [|exact Ip]. eapply nth_error_In. apply KC. exact Ek.
  - unfold shows in *. apply Forall2_nth in Sa as (La & Sa). apply Forall2_nth in Sb as (Lb & Sb). apply Forall2_nth. split; [rewrite app_length; lia|].
    intros i c g Hc Hg. destruct (le_lt_dec (List.length (cells a)) i) as [L|L].
    + rewrite nth_error_app2 in Hg by lia. replace (i - List.length ga)%nat with (i - List.length (cells a))%nat in Hg by lia.
      destruct (nth_error (cells b) (i - List.length (cells a))) as [cb|] eqn:Eb.
      2: { apply nth_error_None in Eb. assert (H0 : nth_error gb (i - List.length (cells a)) <> None) by (rewrite Hg; discriminate). apply nth_error_Some in H0. lia. }
      destruct (CC _ cb Eb) as (c' & E' & K1 & K2 & K3). replace (List.length (cells a) + (i - List.length (cells a)))%nat with i in E' by lia. rewrite Hc in E'. injection E' as <-.
      destruct (Sb _ _ _ Eb Hg) as (S1 & S2 & S3). split; [congruence|]. split; [congruence|]. rewrite K3. apply Forall2_map_l. eapply Forall2_weaken; [|exact S3]. intros p x _. apply KB.
    + rewrite nth_error_app1 in Hg by lia. destruct (nth_error (cells a) i) as [ca|] eqn:Ea; [|apply nth_error_None in Ea; lia].
      rewrite (KC _ _ Ea) in Hc. injection Hc as <-. destruct (Sa _ _ _ Ea Hg) as (S1 & S2 & S3). split; [exact S1|]. split; [exact S2|]. eapply Forall2_weaken; [|exact S3]. intros p x _. apply KA.
Qed.

Section Exact.
Variables (shp : list nat -> list nat) (shuffle : emap -> emap) (sh : container -> container).
Hypothesis AO : any_order shp shuffle sh.
Variables (nd : nat) (target : geokind).
Hypothesis Hnd : (nd = 2 \/ nd = 3)%nat.
Hypothesis Kt : In target (targets nd).

(* nodes of the mesh of a region are the same point exactly if they are the same node of the lattice *)
Definition shared (g : region) (m : mesh R) : Prop := forall idx idx' k k' c c' p p', in_region g idx -> in_region g idx' ->
  nth_error (cells m) (rank (divs g) idx) = Some c -> nth_error (cells m) (rank (divs g) idx') = Some c' -> nth_error (c_points c) k = Some p -> nth_error (c_points c') k' = Some p' ->
  (p = p' <-> lattice target idx k = lattice target idx' k').
(* the cells of a region *)
Record shapes_of (g : region) (l : list shape) : Prop := {
  h_len : List.length l = ncells g;
  h_rank : forall i, (i < ncells g)%nat -> exists idx, in_region g idx /\ rank (divs g) idx = i;
  h_cell : forall idx, in_region g idx -> exists s, nth_error l (rank (divs g) idx) = Some s /\ s_kind s = target /\ s_marker s = g_marker g /\ List.length (s_nodes s) = kind_nnode target /\
    forall k y, nth_error (s_nodes s) k = Some y -> is_node nd target g idx k y }.

Lemma has_shapes g m em fm : region_mesh nd target em fm g m -> exists l, shapes_of g l /\ shows m l.
Proof.
  intros Rm. set (pos := fun p => match nth_error (points m) p with Some pt => pt_coords pt | None => [] end).
  set (sh1 := fun c : MeshModel.cell => mkShape (c_kind c) (c_marker c) (map pos (c_points c))).
  assert (Pos : forall p x, coords_of m p x -> pos p = x) by (intros p x (pt & A & <-); unfold pos; rewrite A; reflexivity).
  exists (map sh1 (cells m)). split; [constructor|].
  - rewrite map_length. exact (r_ncells _ _ _ _ _ _ Rm).
  - exact (r_rank _ _ _ _ _ _ Rm).
  - intros idx I. destruct (r_cells _ _ _ _ _ _ Rm idx I) as (c & E & K1 & K2 & K3 & K4). exists (sh1 c). split; [apply map_nth_error; exact E|]. split; [exact K1|]. split; [exact K2|]. split; [unfold sh1; cbn; rewrite map_length; exact K3|].
    intros k y Ey. unfold sh1 in Ey. cbn [s_nodes] in Ey. assert (Hk : (k < kind_nnode target)%nat) by (rewrite <- K3, <- (map_length pos); apply nth_error_Some; congruence).
    destruct (nth_error (c_points c) k) as [p|] eqn:Ep; [|apply nth_error_None in Ep; lia]. rewrite (map_nth_error pos _ _ Ep) in Ey. injection Ey as <-.
    destruct (K4 k p Ep) as (y & Cy & Ly & Y). rewrite (Pos p y Cy). split; [exact I|]. auto.
  - unfold shows. apply Forall2_nth. split; [rewrite map_length; reflexivity|]. intros i c g0 Ec Eg. rewrite (map_nth_error sh1 _ _ Ec) in Eg. injection Eg as <-.
    split; [reflexivity|]. split; [reflexivity|]. cbn [sh1 s_nodes]. apply Forall2_nth. split; [rewrite map_length; reflexivity|]. intros j p x Ep Ex. rewrite (map_nth_error pos _ _ Ep) in Ex. injection Ex as <-.
    destruct (r_consistent _ _ _ _ _ _ Rm) as (_ & C). destruct (C i c Ec) as (_ & _ & X). specialize (X p (nth_error_In _ _ Ep)). destruct (coords_get m p X) as (z & Z). rewrite (Pos p z Z). exact Z.
Qed.

(* every cell of the list belongs to a region *)
Lemma cell_shape gs sls i s : Forall2 shapes_of gs sls -> nth_error (concat sls) i = Some s ->
  exists j g idx, nth_error gs j = Some g /\ in_region g idx /\ i = cell_number gs j g idx /\ s_kind s = target /\ s_marker s = g_marker g /\ List.length (s_nodes s) = kind_nnode target /\
    forall k y, nth_error (s_nodes s) k = Some y -> is_node nd target g idx k y.
Proof.
  intros F. revert i. induction F as [|g l gs sls H F IH]; intros i E; [destruct i; discriminate E|]. cbn [concat] in E. destruct (le_lt_dec (List.length l) i) as [L|L].
  - rewrite nth_error_app2 in E by exact L. destruct (IH _ E) as (j & g' & idx & X1 & X2 & X3 & X4). exists (S j), g', idx. split; [exact X1|]. split; [exact X2|]. split; [|exact X4].
    unfold cell_number in *. cbn [firstn map fold_right]. rewrite (h_len _ _ H) in *. lia.
  - rewrite nth_error_app1 in E by exact L. rewrite (h_len _ _ H) in L. destruct (h_rank _ _ H i L) as (idx & I & Ri). destruct (h_cell _ _ H idx I) as (s' & Es & X). rewrite Ri in Es. rewrite E in Es. injection Es as <-.
    exists 0%nat, g, idx. split; [reflexivity|]. split; [exact I|]. split; [unfold cell_number; cbn; lia|]. exact X.
Qed.
Lemma shape_at gs sls j g idx : Forall2 shapes_of gs sls -> nth_error gs j = Some g -> in_region g idx ->
  exists s, nth_error (concat sls) (cell_number gs j g idx) = Some s /\ s_kind s = target /\ s_marker s = g_marker g /\ List.length (s_nodes s) = kind_nnode target /\
    forall k y, nth_error (s_nodes s) k = Some y -> is_node nd target g idx k y.
Proof.
  intros F. revert j. induction F as [|g' l gs sls H F IH]; intros j E I; [destruct j; discriminate E|]. destruct j as [|j]; cbn [nth_error concat] in *.
  - injection E as ->. destruct (h_cell _ _ H idx I) as (s & Es & X). exists s. split; [|exact X]. unfold cell_number. cbn [firstn map fold_right]. rewrite nth_error_app1; [exact Es|]. apply nth_error_Some. cbn. congruence.
  - destruct (IH j E I) as (s & Es & X). exists s. split; [|exact X]. unfold cell_number in *. cbn [firstn map fold_right]. rewrite nth_error_app2 by (rewrite (h_len _ _ H); lia). rewrite (h_len _ _ H). rewrite <- Es. f_equal. lia.
Qed.

Definition good (gs : list region) (m : mesh R) : Prop := valid m /\ ndim m = nd /\ distinct_points m /\ all_used m /\ exists sls, Forall2 shapes_of gs sls /\ shows m (concat sls).

Lemma good_node gs m p x : good gs m -> coords_of m p x -> exists g idx k, In g gs /\ is_node nd target g idx k x.
Proof.
  intros (V & N & D & U & sls & F & Sh) X. destruct (U p (coords_range _ _ _ X)) as (c & Ic & Ip). apply In_nth_error in Ic as (i & Ei). unfold shows in Sh. apply Forall2_nth in Sh as (L & Sh).
  destruct (nth_error (concat sls) i) as [s|] eqn:Es; [|apply nth_error_None in Es; assert (i < List.length (cells m))%nat by (apply nth_error_Some; congruence); lia].
  destruct (Sh i c s Ei Es) as (_ & _ & F2). apply Forall2_nth in F2 as (L2 & F2). apply In_nth_error in Ip as (k & Ek). destruct (nth_error (s_nodes s) k) as [y|] eqn:Ey; [|apply nth_error_None in Ey; assert (k < List.length (c_points c))%nat by (apply nth_error_Some; congruence); lia].
  pose proof (F2 k p y Ek Ey) as Y. rewrite (StructProof.coords_inj _ _ _ _ X Y). destruct (cell_shape gs sls i s F Es) as (j & g & idx & Eg & _ & _ & _ & _ & _ & Nd). exists g, idx, k. split; [eapply nth_error_In; exact Eg|exact (Nd k y Ey)].
Qed.
(* what the cells of such a mesh are *)
Lemma good_cell gs m i c : good gs m -> nth_error (cells m) i = Some c -> exists j g idx, nth_error gs j = Some g /\ in_region g idx /\ i = cell_number gs j g idx /\ c_kind c = target /\ c_marker c = g_marker g /\
  List.length (c_points c) = kind_nnode target /\ forall k p, nth_error (c_points c) k = Some p -> exists y, coords_of m p y /\ is_node nd target g idx k y.
Proof.
  intros (V & N & D & U & sls & F & Sh) Ei. unfold shows in Sh. apply Forall2_nth in Sh as (L & Sh).
  destruct (nth_error (concat sls) i) as [s|] eqn:Es; [|apply nth_error_None in Es; assert (i < List.length (cells m))%nat by (apply nth_error_Some; congruence); lia].
  destruct (cell_shape gs sls i s F Es) as (j & g & idx & Eg & I & Ri & K1 & K2 & K3 & Nd). destruct (Sh i c s Ei Es) as (S1 & S2 & F2). apply Forall2_nth in F2 as (L2 & F2).
  exists j, g, idx. split; [exact Eg|]. split; [exact I|]. split; [exact Ri|]. split; [congruence|]. split; [congruence|]. split; [congruence|]. intros k p Ek.
  destruct (nth_error (s_nodes s) k) as [y|] eqn:Ey; [|apply nth_error_None in Ey; assert (k < List.length (c_points c))%nat by (apply nth_error_Some; congruence); lia]. exists y. split; [exact (F2 k p y Ek Ey)|exact (Nd k y Ey)].
Qed.
Lemma good_cell_at gs m j g idx : good gs m -> nth_error gs j = Some g -> in_region g idx -> exists c, nth_error (cells m) (cell_number gs j g idx) = Some c /\ c_kind c = target /\ c_marker c = g_marker g /\
  List.length (c_points c) = kind_nnode target /\ forall k p, nth_error (c_points c) k = Some p -> exists y, coords_of m p y /\ is_node nd target g idx k y.
Proof.
  intros (V & N & D & U & sls & F & Sh) Eg I. destruct (shape_at gs sls j g idx F Eg I) as (s & Es & K1 & K2 & K3 & Nd). unfold shows in Sh. apply Forall2_nth in Sh as (L & Sh).
  destruct (nth_error (cells m) (cell_number gs j g idx)) as [c|] eqn:Ei; [|apply nth_error_None in Ei; assert (cell_number gs j g idx < List.length (concat sls))%nat by (apply nth_error_Some; congruence); lia].
  destruct (Sh _ c s Ei Es) as (S1 & S2 & F2). apply Forall2_nth in F2 as (L2 & F2). exists c. split; [reflexivity|]. split; [congruence|]. split; [congruence|]. split; [congruence|]. intros k p Ek.
  destruct (nth_error (s_nodes s) k) as [y|] eqn:Ey; [|apply nth_error_None in Ey; assert (k < List.length (c_points c))%nat by (apply nth_error_Some; congruence); lia]. exists y. split; [exact (F2 k p y Ek Ey)|exact (Nd k y Ey)].
Qed.
Lemma good_length gs m : good gs m -> List.length (cells m) = fold_right plus 0%nat (map ncells gs).
Proof.
  intros (V & N & D & U & sls & F & Sh). unfold shows in Sh. apply Forall2_nth in Sh as (-> & _). clear - F. induction F as [|g l gs sls H F IH]; [reflexivity|]. cbn [concat map fold_right]. rewrite app_length, IH, (h_len _ _ H). reflexivity.
Qed.
Lemma good_built gs m : good gs m -> built nd 0 target gs m.
Proof.
  intros G. split; [apply G|]. split; [apply good_length; exact G|]. intros i g idx Eg I. destruct (good_cell_at gs m i g idx G Eg I) as (c & Ec & K1 & K2 & K3 & K4). exists c. split; [exact Ec|]. split; [exact K1|]. split; [exact K2|]. split; [exact K3|].
  intros k p Ep. destruct (K4 k p Ep) as (y & Cy & (_ & _ & Ly & Y)). exists y, y. split; [exact Cy|]. split; [exact Ly|]. split; [exact Ly|]. split; [|exact Y]. rewrite euclid_refl. destruct (i =? 0)%nat; lra.
Qed.

(* the mesh of one block *)
Lemma good_one g m em fm : region_mesh nd target em fm g m -> shared g m -> one_to_one nd target [g] -> good [g] m.
Proof.
  intros Rm Sd Inj. pose proof (r_consistent _ _ _ _ _ _ Rm) as C. pose proof (r_complete _ _ _ _ _ _ Rm) as CC. pose proof (r_ndim _ _ _ _ _ _ Rm) as N. destruct (has_shapes g m em fm Rm) as (l & Hl & Sh).
  split; [split; [exact C|split; [exact CC|lia]]|]. split; [exact N|].
  assert (At : forall p, (p < List.length (points m))%nat -> exists idx c k, in_region g idx /\ nth_error (cells m) (rank (divs g) idx) = Some c /\ nth_error (c_points c) k = Some p).
  { intros p Hp. destruct (r_used _ _ _ _ _ _ Rm p Hp) as (c & Ic & Ip). apply In_nth_error in Ic as (i & Ei). apply In_nth_error in Ip as (k & Ek). assert (Hi : (i < ncells g)%nat) by (rewrite <- (r_ncells _ _ _ _ _ _ Rm); apply nth_error_Some; congruence).
    destruct (r_rank _ _ _ _ _ _ Rm i Hi) as (idx & I & Ri). exists idx, c, k. rewrite Ri. auto. }
  assert (Pos : forall idx c k p x, in_region g idx -> nth_error (cells m) (rank (divs g) idx) = Some c -> nth_error (c_points c) k = Some p -> coords_of m p x -> is_node nd target g idx k x).
  { intros idx c k p x I Ec Ep X. destruct (r_cells _ _ _ _ _ _ Rm idx I) as (c' & Ec' & _ & _ & K3 & K4). rewrite Ec in Ec'. injection Ec' as <-. destruct (K4 k p Ep) as (y & Cy & Ly & Y). rewrite (StructProof.coords_inj _ _ _ _ X Cy). split; [exact I|]. split; [rewrite <- K3; apply nth_error_Some; congruence|]. auto. }
  split.
  - intros p p' x X X'. destruct (At p (coords_range _ _ _ X)) as (idx & c & k & I & Ec & Ep). destruct (At p' (coords_range _ _ _ X')) as (idx' & c' & k' & I' & Ec' & Ep').
    apply (Sd idx idx' k k' c c' p p' I I' Ec Ec' Ep Ep'). eapply (Inj g); [left; reflexivity|eapply Pos; eassumption|eapply Pos; eassumption].
  - split; [exact (r_used _ _ _ _ _ _ Rm)|]. exists [l]. split; [constructor; [exact Hl|constructor]|]. cbn [concat]. rewrite app_nil_r. exact Sh.
Qed.
(* the corners of a cell are different nodes *)
Definition corner_check (n : nat) (k : geokind) : bool :=
  forallb (fun i => forallb (fun j => (i =? j)%nat || negb (forallb (fun a => (offset k i a =? offset k j a)%nat) (seq 0 n))) (seq 0 (corners n))) (seq 0 (corners n)) && (corners n <=? kind_nnode k)%nat.
Lemma corners_checked n : (n = 2 \/ n = 3)%nat -> forallb (corner_check n) (targets n) = true. Proof. intros [-> | ->]; vm_compute; reflexivity. Qed.
Lemma corner_lattice idx i j : List.length idx = nd -> (i < corners nd)%nat -> (j < corners nd)%nat -> lattice target idx i = lattice target idx j -> i = j.
Proof.
  intros L Hi Hj E. pose proof (corners_checked nd Hnd) as C. rewrite forallb_forall in C. specialize (C target Kt). unfold corner_check in C. apply andb_true_iff in C as (C & _). rewrite forallb_forall in C. specialize (C i ltac:(apply in_seq; lia)).
  rewrite forallb_forall in C. specialize (C j ltac:(apply in_seq; lia)). apply orb_true_iff in C as [C|C]; [apply Nat.eqb_eq; exact C|]. exfalso. apply negb_true_iff in C. rewrite <- not_true_iff_false in C. apply C. apply forallb_forall. intros a Ia. apply in_seq in Ia. apply Nat.eqb_eq.
  apply (f_equal (fun l => nth a l 0%nat)) in E. unfold lattice in E. rewrite L in E. rewrite !nth_map_seq in E by lia. lia.
Qed.
Lemma corners_nodes : (corners nd <= kind_nnode target)%nat.
Proof. pose proof (corners_checked nd Hnd) as C. rewrite forallb_forall in C. specialize (C target Kt). unfold corner_check in C. apply andb_true_iff in C as (_ & C). apply Nat.leb_le in C. exact C. Qed.
Lemma good_framed gs m : good gs m -> (forall g, In g gs -> List.length (g_weights g) = nd) -> one_to_one nd target gs ->
  (forall a, (a < nd)%nat -> outermost nd target gs 1 a /\ outermost nd target gs (-1) a /\ wide nd target gs a) -> framed shuffle m.
Proof.
  intros G Wl Inj Out. pose proof G as (V & N & D & U & _).
  assert (Kc : forall c, In c (cells m) -> In (c_kind c) (targets (ndim m))).
  { intros c Ic. apply In_nth_error in Ic as (i & Ei). destruct (good_cell gs m i c G Ei) as (j & g & idx & _ & _ & _ & -> & _). rewrite N. exact Kt. }
  assert (Lone : forall i g idx k, lone_corner nd target gs i g idx k -> exists p y, lone m p /\ coords_of m p y /\ is_node nd target g idx k y).
  { intros i g idx k (Eg & I & Hk & Un). destruct (good_cell_at gs m i g idx G Eg I) as (c & Ec & _ & _ & L & Nd).
    destruct (nth_error (c_points c) k) as [p|] eqn:Ep; [|apply nth_error_None in Ep; pose proof corners_nodes; lia]. destruct (Nd k p Ep) as (y & Cy & Y). exists p, y. split; [|split; [exact Cy|exact Y]].
    exists c, k. rewrite N. split; [eapply nth_error_In; exact Ec|]. split; [exact Hk|]. split; [exact Ep|]. split.
    - intros k1 k2 q H1 H2 E1 E2. destruct (Nd k1 q E1) as (y1 & C1 & Y1). destruct (Nd k2 q E2) as (y2 & C2 & Y2). rewrite (StructProof.coords_inj _ _ _ _ C2 C1) in Y2.
      apply (corner_lattice idx k1 k2); [|exact H1|exact H2|eapply Inj; [eapply nth_error_In; exact Eg|exact Y1|exact Y2]].
      unfold in_region in I. apply Forall2_nth in I as (-> & _). unfold divs. rewrite map_length. apply Wl. eapply nth_error_In. exact Eg.
    - intros c' k' Ic' Hk' Ep'. apply In_nth_error in Ic' as (i' & Ei'). destruct (good_cell gs m i' c' G Ei') as (j' & g' & idx' & Eg' & _ & Ri & _ & _ & _ & Nd'). destruct (Nd' k' p Ep') as (y' & Cy' & Y'). rewrite (StructProof.coords_inj _ _ _ _ Cy' Cy) in Y'.
      destruct (Un j' g' idx' k' y Eg' Hk' Y Y') as (-> & -> & ->). split; [|reflexivity]. rewrite Eg in Eg'. injection Eg' as <-. rewrite Ri, Ec in Ei'. congruence. }
  assert (Co : forall p y a, coords_of m p y -> List.length y = nd -> (a < nd)%nat -> coord_is m p a (nth a y 0)).
  { intros p y a (pt & E & <-) L Ha. exists pt. split; [exact E|]. apply nth_error_nth'. lia. }
  apply (lone_framed shuffle (proj1 (proj2 AO)) m V Kc). rewrite N. intros a Ha. destruct (Out a Ha) as ((i1 & g1 & idx1 & k1 & L1 & B1) & (i2 & g2 & idx2 & k2 & L2 & B2) & (gu & iu & ku & gv & iv & kv & Gu & Gv & Iu & Iv & Hu & Hv & Ne)).
  destruct (Lone _ _ _ _ L1) as (p & x & Lp & Cx & X). destruct (Lone _ _ _ _ L2) as (q & y & Lq & Cy & Y). exists p, q, (nth a x 0), (nth a y 0). split; [exact Lp|]. split; [exact Lq|].
  split; [apply Co; [exact Cx|apply X|exact Ha]|]. split; [apply Co; [exact Cy|apply Y|exact Ha]|].
  assert (Node : forall g idx k, In g gs -> in_region g idx -> (k < kind_nnode target)%nat -> exists z, is_node nd target g idx k z).
  { intros g idx k Ig I Hk. apply In_nth_error in Ig as (i & Eg). destruct (good_cell_at gs m i g idx G Eg I) as (c & Ec & _ & _ & L & Nd). destruct (nth_error (c_points c) k) as [r|] eqn:Er; [|apply nth_error_None in Er; lia]. destruct (Nd k r Er) as (z & _ & Z). eauto. }
  split.
  - destruct (Node gu iu ku Gu Iu Hu) as (zu & Zu). destruct (Node gv iv kv Gv Iv Hv) as (zv & Zv). specialize (Ne zu zv Zu Zv).
    pose proof (B1 x gu iu ku zu X Gu Zu). pose proof (B1 x gv iv kv zv X Gv Zv). pose proof (B2 y gu iu ku zu Y Gu Zu). pose proof (B2 y gv iv kv zv Y Gv Zv). lra.
  - intros i z (pt & Ei & Ez). assert (Ci : coords_of m i (pt_coords pt)) by (exists pt; auto). destruct (good_node gs m i _ G Ci) as (g & idx & k & Ig & Z). pose proof (B1 x g idx k _ X Ig Z). pose proof (B2 y g idx k _ Y Ig Z).
    rewrite (nth_error_nth _ _ 0 Ez) in *. lra.
Qed.

(* one more block *)
Lemma good_more gs g m mi em fm : good gs m -> region_mesh nd target em fm g mi -> shared g mi -> (forall g', In g' (gs ++ [g]) -> List.length (g_weights g') = nd) -> one_to_one nd target (gs ++ [g]) -> separated nd (tolR nd) target (gs ++ [g]) ->
  (forall a, (a < nd)%nat -> outermost nd target gs 1 a /\ outermost nd target gs (-1) a /\ wide nd target gs a) ->
  exists m', join_two_meshes shp shuffle sh m mi = Ok m' /\ good (gs ++ [g]) m'.
Proof.
  intros G Rm Sd Wl Inj Sep Out. pose proof G as (V & N & D & U & sls & F & Sh).
  assert (G1 : good [g] mi) by (eapply good_one; [exact Rm|exact Sd|]; intros g' idx k idx' k' y [<-|[]]; apply Inj; apply in_or_app; right; left; reflexivity).
  assert (Fr : framed shuffle m). { apply (good_framed gs m G); [intros g' I; apply Wl; apply in_or_app; left; exact I| |exact Out]. intros g' idx k idx' k' y I. apply Inj. apply in_or_app. left. exact I. }
  pose proof G1 as (V1 & N1 & D1 & U1 & sls1 & F1 & Sh1).
  destruct (join_exact' shp shuffle sh m mi (concat sls) (concat sls1) AO V V1 ltac:(congruence) (region_markers _ _ _ _ _ _ Rm) Fr) as (m' & E & V' & N' & D' & U' & Sh'); try assumption.
  - intros i j x y X Y. destruct (good_node gs m i x G X) as (g0 & idx & k & Ig & Z). destruct (good_node [g] mi j y G1 Y) as (g1 & idx1 & k1 & Ig1 & Z1). rewrite N. eapply Sep; [apply in_or_app; left; exact Ig|apply in_or_app; right; exact Ig1|exact Z|exact Z1].
  - exists m'. split; [exact E|]. split; [exact V'|]. split; [congruence|]. split; [exact D'|]. split; [exact U'|]. exists (sls ++ sls1). split; [apply Forall2_app; assumption|]. rewrite concat_app. exact Sh'.
Qed.

Definition parts (em fm : region -> nat -> Z -> Prop) (gs : list region) (ms : list (mesh R)) : Prop := Forall2 (fun g mi => region_mesh nd target (em g) (fm g) g mi /\ shared g mi) gs ms.
Lemma good_list em fm gs2 ms : parts em fm gs2 ms -> forall gs1 m, gs1 <> [] -> good gs1 m -> (forall g, In g (gs1 ++ gs2) -> List.length (g_weights g) = nd) -> one_to_one nd target (gs1 ++ gs2) -> separated nd (tolR nd) target (gs1 ++ gs2) ->
  enclosing nd target (gs1 ++ gs2) -> exists m', foldM (join_two_meshes shp shuffle sh) ms m = Ok m' /\ good (gs1 ++ gs2) m'.
Proof.
  intros F. induction F as [|g mi gs2 ms (Rm & Sd) F IH]; intros gs1 m Ne G Wl Inj Sep En; cbn [foldM].
  - rewrite app_nil_r in *. eauto.
  - replace (gs1 ++ g :: gs2) with ((gs1 ++ [g]) ++ gs2) in * by (rewrite <- app_assoc; reflexivity).
    assert (Sub : forall x, In x (gs1 ++ [g]) -> In x ((gs1 ++ [g]) ++ gs2)) by (intros x I; apply in_or_app; left; exact I).
    destruct (good_more gs1 g m mi _ _ G Rm Sd) as (m' & E & G').
    + intros x I. apply Wl. apply Sub. exact I.
    + intros x idx k idx' k' y I. apply Inj. apply Sub. exact I.
    + intros x x' idx k y idx' k' y' I I'. apply Sep; apply Sub; assumption.
    + intros a Ha. specialize (En (List.length gs1) a). rewrite <- app_assoc in En. rewrite firstn_app, Nat.sub_diag, firstn_all in En. cbn [firstn] in En. rewrite app_nil_r in En. apply En; [|exact Ha].
      rewrite !app_length. cbn. destruct gs1; [congruence|cbn; lia].
    + rewrite E. cbn [bind]. apply IH; try assumption. destruct gs1; discriminate.
Qed.
Lemma good_join em fm gs ms : (2 <= List.length gs)%nat -> parts em fm gs ms -> (forall g, In g gs -> List.length (g_weights g) = nd) -> one_to_one nd target gs -> separated nd (tolR nd) target gs -> enclosing nd target gs ->
  exists m, join_meshes shp shuffle sh ms = Ok m /\ good gs m.
Proof.
  intros L F Wl Inj Sep En. destruct F as [|g mi gs ms (Rm & Sd) F]; [cbn in L; lia|]. destruct F as [|g2 m2 gs ms (Rm2 & Sd2) F]; [cbn in L; lia|].
  destruct (good_list em fm (g2 :: gs) (m2 :: ms) (Forall2_cons _ _ (conj Rm2 Sd2) F) [g] mi) as (m & E & G); try assumption; [discriminate| |exists m; split; [exact E|exact G]].
  eapply good_one; [exact Rm|exact Sd|]. intros g' idx k idx' k' y [<-|[]]. apply Inj. left. reflexivity.
Qed.

End Exact.

(* the mesh of a block *)
Lemma region_shared zdet sh shc nd em fm g b target m : 0 <= zdet -> (forall c, Permutation (sh c) c) -> (forall l, Permutation (shc l) l) -> of_region zdet nd em fm g b ->
  (forall w, In w (g_weights g) -> not_fine (tolR nd) target w) -> fits b target -> subdivide sh shc b target = Ok m -> shared target g m.
Proof.
  intros Hz P Q O Fine Ft E. pose proof (sub_region zdet sh shc Hz P Q nd em fm g b target O Fine m Ft E) as Sb. intros idx idx' k k' c c' p p' I I' Ec Ec' Ep Ep'. pose proof (o_ndiv _ _ _ _ _ _ O) as D.
  assert (Ln : forall idx c, in_region g idx -> nth_error (cells m) (rank (divs g) idx) = Some c -> List.length (c_points c) = kind_nnode target).
  { intros i0 c0 I0 E0. destruct (r_cells _ _ _ _ _ _ (region_meshed zdet sh shc Hz P Q nd em fm g b target O Fine m Ft E) i0 I0) as (c1 & E1 & _ & _ & L & _). congruence. }
  apply (C45_conforming zdet sh shc b target m idx k p idx' k' p' Sb).
  - eapply index_iff; eassumption.
  - eapply index_iff; eassumption.
  - rewrite <- (Ln idx c I Ec). apply nth_error_Some. congruence.
  - rewrite <- (Ln idx' c' I' Ec'). apply nth_error_Some. congruence.
  - exists c. rewrite D. auto.
  - exists c'. rewrite D. auto.
Qed.
