(* C101: edges, faces, boundary and neighbours of joined meshes *)
From Coq Require Import String Reals List Arith Bool Lia Lra ZArith Permutation Sorted.
From Verif Require Import Base BaseFacts Kind MeshModel GraphModel MeshQuerySpec MeshQueryProof TopoModel TopoSpec TopoMaps TopoProof TopoFeat3 TopoFeat5 TopoFeat6 TopoFinal
  GeomModel GeomSpec GeomProof GridSpec GridProof SearchProof SearchProof2 JoinModel JoinSpec JoinProof JoinProof2 JoinProof3 PropJoin BalanceSpec JoinFeatSpec JoinFeatProof.
Import ListNotations.
Local Open Scope list_scope.
Local Open Scope nat_scope.

(* m is the result of joining a and b; the points of b are farther apart than twice the tolerance sqrt n / 10000;
   point p of b is point f p of m *)
Definition joins (shp : list nat -> list nat) shuffle sh (a b m : mesh R) (f : nat -> nat) : Prop :=
  any_order shp shuffle sh /\ valid a /\ consistent b /\ coords_complete b /\ join_two_meshes shp shuffle sh a b = Ok m /\ apart (2 * tolR (ndim a)) b /\
  placed (tolR (ndim a)) b m f /\ carries_cells (List.length (cells a)) b m f /\
  forall p q, p < List.length (points b) -> q < List.length (points b) -> f p = f q -> p = q.

(** there is such an f; a point of b at the position of a point of a becomes this point *)
Theorem C101_points : forall shp shuffle sh a b m, any_order shp shuffle sh -> valid a -> consistent b -> coords_complete b -> join_two_meshes shp shuffle sh a b = Ok m -> apart (2 * tolR (ndim a)) b ->
  exists f, joins shp shuffle sh a b m f /\
    (apart (tolR (ndim a)) a -> forall ft, features_new Rleb shuffle a false = Ok ft -> forall p x i y, nth_error (points b) p = Some x -> nth_error (points a) i = Some y -> enclosed a ft (pt_coords y) ->
       pt_coords x = pt_coords y -> f p = i).
Proof.
  intros shp shuffle sh a b m O V Cb CCb H Ap. destruct (C28_join shp shuffle sh a b m O V Cb CCb H) as (Vm & Dm & Db & Kp & Kc & Ln & f & Pl & Cc & M & _).
  destruct V as (Ca & CCa & Da). destruct (new_total Rleb shuffle (proj1 (proj2 O)) a false Ca CCa Da) as (ft & F). exists f.
  assert (Lf : forall p, p < List.length (points b) -> f p < List.length (points m)).
  { intros p P. destruct (nth_error (points b) p) as [x|] eqn:X; [|apply nth_error_None in X; lia]. destruct (Pl p x X) as (y & Y & _). apply nth_error_Some. congruence. }
  split.
  - repeat (split; [assumption || (split; auto)|]).
    exact (placed_inj _ _ _ a b m f Ap CCb (proj1 (proj2 Vm)) ltac:(congruence) Lf Kp (M ft F)).
  - intros Aa ft' F' p x i y X Y N E. exact (merged_same _ (/ 10000) _ a b m f p x i y ltac:(lra) Aa (M ft' F') X Y N E).
Qed.
Print Assumptions C101_points.

Lemma joins_facts shp shuffle sh a b m f : joins shp shuffle sh a b m f -> consistent a /\ consistent b /\ consistent m /\ ndim m = ndim a /\ ndim b = ndim a /\
  (forall i c, nth_error (cells a) i = Some c -> nth_error (cells m) i = Some c) /\ List.length (cells m) = List.length (cells a) + List.length (cells b) /\
  carries_cells (List.length (cells a)) b m f /\ (forall p q, p < List.length (points b) -> q < List.length (points b) -> f p = f q -> p = q).
Proof.
  intros (O & V & Cb & CCb & H & Ap & Pl & Cc & Inj). destruct (C28_join shp shuffle sh a b m O V Cb CCb H) as (Vm & Dm & Db & Kp & Kc & Ln & _).
  split; [apply V|]. split; [exact Cb|]. split; [apply Vm|]. auto 8.
Qed.

(** two dimensions: the edges of the joined mesh are the edges of a and those of b; its boundary consists of the
    boundary edges of a that no edge of b meets and of the boundary edges of b that meet no edge of a *)
Theorem C101_edges_2d : forall shp shuffle sh a b m f (leb : R -> R -> bool) (s1 s2 s3 : emap -> emap) ea fa fb fm, joins shp shuffle sh a b m f -> ndim a = 2 ->
  (forall l, Permutation (s1 l) l) -> (forall l, Permutation (s2 l) l) -> (forall l, Permutation (s3 l) l) ->
  features_new leb s1 a ea = Ok fa -> features_new leb s2 b ea = Ok fb -> features_new leb s3 m ea = Ok fm ->
  forall x y, x <= y -> ((exists ed, get_edge fm x y = Ok ed) <->
    ((exists ed, get_edge fa x y = Ok ed) /\ (ea = false -> ~ moved_edge f b x y)) \/
    ((exists p q ed, get_edge fb p q = Ok ed /\ same_pair x y (f p) (f q)) /\ (ea = false -> forall c e p q, edge_of a c e p q -> ~ same_pair x y p q))).
Proof.
  intros shp shuffle sh a b m f leb s1 s2 s3 ea fa fb fm J D S1 S2 S3 Fa Fb Fm x y L. destruct (joins_facts _ _ _ _ _ _ _ J) as (Ca & Cb & Cm & Dm & Db & Ka & Ln & Kb & Inj).
  rewrite (listed_edges_2d leb s3 S3 m ea fm Cm ltac:(congruence) Fm x y), (listed_edges_2d leb s1 S1 a ea fa Ca D Fa x y), (edges_wanted a b m f Ca Cb Cm Ka Ln Kb Inj ea x y).
  assert (B : (exists p q ed, get_edge fb p q = Ok ed /\ same_pair x y (f p) (f q)) <->
              exists p q, p < List.length (points b) /\ q < List.length (points b) /\ same_pair x y (f p) (f q) /\ wanted ea (has_edge b p q)).
  { split.
    - intros (p & q & ed & G & S). assert (W : exists ed, get_edge fb p q = Ok ed) by eauto. apply (listed_edges_2d leb s2 S2 b ea fb Cb ltac:(congruence) Fb p q) in W as (_ & W). exists p, q.
      destruct (wanted_some ea _ W) as (z & u & v & E & Sz). destruct (edge_b_points b Cb _ _ _ _ E) as (Lu & Lv). assert (p < List.length (points b) /\ q < List.length (points b)) as (Lp & Lq) by (destruct Sz as [(-> & ->)|(-> & ->)]; auto). auto.
    - intros (p & q & Lp & Lq & S & W). destruct (le_lt_dec p q) as [Le|Lt].
      + destruct (proj2 (listed_edges_2d leb s2 S2 b ea fb Cb ltac:(congruence) Fb p q) (conj Le W)) as (ed & G). exists p, q, ed. auto.
      + assert (W' : wanted ea (has_edge b q p)) by (apply (wanted_ext ea (has_edge b p q)); [|exact W]; intros z; split; intros (u & v & E & Sz); exists u, v; (split; [exact E|]); unfold same_pair in *; tauto).
        destruct (proj2 (listed_edges_2d leb s2 S2 b ea fb Cb ltac:(congruence) Fb q p) (conj (Nat.lt_le_incl _ _ Lt) W')) as (ed & G). exists q, p, ed. split; [exact G|]. unfold same_pair in *; tauto. }
  rewrite B. destruct ea.
  - split.
    + intros (_ & [W|(c & e & p & q & E & S)]); [left; split; [auto|discriminate]|right; split; [|discriminate]]. destruct (edge_b_points b Cb _ _ _ _ E) as (Lp & Lq). exists p, q. split; [exact Lp|]. split; [exact Lq|]. split; [exact S|]. exists (c, e), p, q. split; [exact E|left; auto].
    + intros [((_ & W) & _)|((p & q & Lp & Lq & S & ((c & e) & u & v & E & Sz)) & _)]; (split; [exact L|]); [left; exact W|right]. exists c, e, u, v. split; [exact E|]. unfold same_pair in *. destruct Sz as [(-> & ->)|(-> & ->)]; tauto.
  - assert (N : (forall z, ~ has_edge a x y z) <-> forall c e p q, edge_of a c e p q -> ~ same_pair x y p q).
    { split; [intros H c e p q E S; apply (H (c, e)); exists p, q; auto|]. intros H (c, e) (p & q & E & S). exact (H c e p q E S). }
    rewrite N. split.
    + intros (_ & [(W & M)|(W & M)]); [left; split; [split; [exact L|exact W]|intros _; exact M]|right; split; [exact W|intros _; exact M]].
    + intros [((_ & W) & M)|(W & M)]; (split; [exact L|]); [left|right]; (split; [exact W|exact (M eq_refl)]).
Qed.
Print Assumptions C101_edges_2d.

(** three dimensions: the same for faces *)
Theorem C101_faces_3d : forall shp shuffle sh a b m f (leb : R -> R -> bool) (s1 s2 s3 : emap -> emap) ea fa fb fm, joins shp shuffle sh a b m f -> ndim a = 3 -> no_quadratic_tets a -> no_quadratic_tets b ->
  features_new leb s1 a ea = Ok fa -> features_new leb s2 b ea = Ok fb -> features_new leb s3 m ea = Ok fm ->
  forall ks, StronglySorted le ks -> ((exists fc, get_face fm ks = Ok fc) <->
    ((exists fc, get_face fa ks = Ok fc) /\ (ea = false -> ~ moved_face f b ks)) \/
    ((exists ps fc, get_face fb ps = Ok fc /\ Permutation ks (map f ps)) /\ (ea = false -> forall c e ps, face_of a c e ps -> ~ Permutation ks ps))).
Proof.
  intros shp shuffle sh a b m f leb s1 s2 s3 ea fa fb fm J D Ta Tb Fa Fb Fm ks L. destruct (joins_facts _ _ _ _ _ _ _ J) as (Ca & Cb & Cm & Dm & Db & Ka & Ln & Kb & Inj).
  rewrite (listed_faces_3d leb s3 m ea fm Cm ltac:(congruence) (tets_join a b m f Ka Ln Kb Ta Tb) Fm ks), (listed_faces_3d leb s1 a ea fa Ca D Ta Fa ks), (faces_wanted a b m f Ca Cb Cm Ka Ln Kb Inj ea ks).
  assert (B : (exists ps fc, get_face fb ps = Ok fc /\ Permutation ks (map f ps)) <->
              exists ps, (forall p, In p ps -> p < List.length (points b)) /\ Permutation ks (map f ps) /\ wanted ea (has_face b ps)).
  { split.
    - intros (ps & fc & G & S). assert (W : exists fc, get_face fb ps = Ok fc) by eauto. apply (listed_faces_3d leb s2 b ea fb Cb ltac:(congruence) Tb Fb ps) in W as (_ & W). exists ps.
      destruct (wanted_some ea _ W) as (z & qs & E & Sz). split; [|auto]. intros p Hp. apply (face_b_points b Cb _ _ _ E). exact (Permutation_in _ Sz Hp).
    - intros (ps & Lp & S & W). destruct (sorted_exists ps) as (qs & P & SS).
      assert (W' : wanted ea (has_face b qs)).
      { apply (wanted_ext ea (has_face b ps)); [|exact W]. intros z; split; intros (u & E & Sz); exists u; (split; [exact E|]); [exact (Permutation_trans (Permutation_sym P) Sz)|exact (Permutation_trans P Sz)]. }
      destruct (proj2 (listed_faces_3d leb s2 b ea fb Cb ltac:(congruence) Tb Fb _) (conj SS W')) as (fc & G). exists qs, fc. split; [exact G|]. exact (Permutation_trans S (Permutation_map f P)). }
  rewrite B. destruct ea.
  - split.
    + intros (_ & [W|(c & e & ps & E & S)]); [left; split; [auto|discriminate]|right; split; [|discriminate]]. exists ps. split; [exact (face_b_points b Cb _ _ _ E)|]. split; [exact S|]. exists (c, e), ps. split; [exact E|apply Permutation_refl].
    + intros [((_ & W) & _)|((ps & Lp & S & ((c & e) & u & E & Sz)) & _)]; (split; [exact L|]); [left; exact W|right]. exists c, e, u. split; [exact E|]. exact (Permutation_trans S (Permutation_map f Sz)).
  - assert (N : (forall z, ~ has_face a ks z) <-> forall c e ps, face_of a c e ps -> ~ Permutation ks ps).
    { split; [intros H c e ps E S; apply (H (c, e)); exists ps; auto|]. intros H (c, e) (ps & E & S). exact (H c e ps E S). }
    rewrite N. split.
    + intros (_ & [(W & M)|(W & M)]); [left; split; [split; [exact L|exact W]|intros _; exact M]|right; split; [exact W|intros _; exact M]].
    + intros [((_ & W) & M)|(W & M)]; (split; [exact L|]); [left|right]; (split; [exact W|exact (M eq_refl)]).
Qed.
Print Assumptions C101_faces_3d.

(** neighbours: those in a, those in b, and the pairs across the edges at which a and b meet *)
Theorem C101_neighbors : forall shp shuffle sh a b m f (leb : R -> R -> bool) (s1 s2 s3 : emap -> emap) e1 e2 e3 fa fb fm, joins shp shuffle sh a b m f -> ndim a = 2 -> fits a -> fits b ->
  (forall l, Permutation (s1 l) l) -> (forall l, Permutation (s2 l) l) -> (forall l, Permutation (s3 l) l) ->
  features_new leb s1 a e1 = Ok fa -> features_new leb s2 b e2 = Ok fb -> features_new leb s3 m e3 = Ok fm ->
  (forall c r, get_neighbors_2d a fa c = Ok r -> exists r', get_neighbors_2d m fm c = Ok r' /\ NoDup r' /\ forall e n ne, In (e, n, ne) r' <->
     In (e, n, ne) r \/ exists n0 x y p q, n = List.length (cells a) + n0 /\ edge_of a c e x y /\ edge_of b n0 ne p q /\ same_pair x y (f p) (f q)) /\
  (forall c r, get_neighbors_2d b fb c = Ok r -> exists r', get_neighbors_2d m fm (List.length (cells a) + c) = Ok r' /\ NoDup r' /\ forall e n ne, In (e, n, ne) r' <->
     (exists n0, n = List.length (cells a) + n0 /\ In (e, n0, ne) r) \/ exists x y p q, edge_of a n ne x y /\ edge_of b c e p q /\ same_pair x y (f p) (f q)).
Proof.
  intros shp shuffle sh a b m f leb s1 s2 s3 e1 e2 e3 fa fb fm J D Ia Ib S1 S2 S3 Fa Fb Fm. destruct (joins_facts _ _ _ _ _ _ _ J) as (Ca & Cb & Cm & Dm & Db & Ka & Ln & Kb & Inj).
  pose proof (fits_join a b m f Ka Ln Kb Dm Db Ia Ib) as Im. set (na := List.length (cells a)) in *.
  assert (Ranges : forall k ft' c r, get_neighbors_2d (T:=R) k ft' c = Ok r -> c < List.length (cells k)).
  { intros k ft' c r G. unfold get_neighbors_2d in G. destruct (ndim k =? 2); cbn [negb] in G; [|discriminate]. apply bind_ok in G. destruct G as (cl & G & _). apply get_iff in G. apply nth_error_Some. congruence. }
  assert (Ra : forall x y c e, has_edge a x y (c, e) -> c < na) by (intros x y c e (p & q & E & _); exact (edge_a_lt a Ca _ _ _ _ E)).
  split.
  - intros c r G. pose proof (Ranges _ _ _ _ G) as Lc. destruct (neighbors_total leb s3 m e3 fm c Cm Im ltac:(congruence) Fm ltac:(lia)) as (r' & G'). exists r'. split; [exact G'|].
    destruct (neighbors_iff leb s3 m e3 fm c r' Cm Im ltac:(congruence) Fm G') as (ND & X). split; [exact ND|]. intros e n ne. rewrite X.
    destruct (neighbors_iff leb s1 a e1 fa c r Ca Ia D Fa G) as (_ & Y). rewrite Y. destruct (le_lt_dec na n) as [Ge|Lt].
    + pose proof (next_ab a b m f Ca Cb Cm Ka Ln Kb c e (n - na) ne Lc) as Z. fold na in Z. replace (na + (n - na)) with n in Z by lia. unfold next_to in Z. rewrite Z. split.
      * intros (x & y & p & q & (u & v & E & S0) & Eb & S). right. exists (n - na), u, v, p, q. split; [lia|]. split; [exact E|]. split; [exact Eb|]. unfold same_pair in *. destruct S0 as [(-> & ->)|(-> & ->)]; tauto.
      * intros [(_ & x & y & _ & H2)|(n0 & x & y & p & q & -> & E & Eb & S)]; [apply Ra in H2; lia|]. exists x, y, p, q. split; [exists x, y; split; [exact E|left; auto]|]. replace (na + n0 - na) with n0 by lia. auto.
    + pose proof (next_a a b m f Ca Cb Cm Ka Ln Kb c e n ne Lc Lt) as Z. unfold next_to in Z. rewrite Z. split; [auto|]. intros [H|(n0 & _ & _ & _ & _ & -> & _)]; [exact H|lia].
  - intros c r G. pose proof (Ranges _ _ _ _ G) as Lc. destruct (neighbors_total leb s3 m e3 fm (na + c) Cm Im ltac:(congruence) Fm ltac:(lia)) as (r' & G'). exists r'. split; [exact G'|].
    destruct (neighbors_iff leb s3 m e3 fm _ r' Cm Im ltac:(congruence) Fm G') as (ND & X). split; [exact ND|]. intros e n ne. rewrite X.
    destruct (neighbors_iff leb s2 b e2 fb c r Cb Ib ltac:(congruence) Fb G) as (_ & Y). destruct (le_lt_dec na n) as [Ge|Lt].
    + pose proof (next_b a b m f Ca Cb Cm Ka Ln Kb Inj c e (n - na) ne) as Z. fold na in Z. replace (na + (n - na)) with n in Z by lia. unfold next_to in Z. rewrite Z. split.
      * intros H. left. exists (n - na). split; [lia|]. apply Y, H.
      * intros [(n0 & -> & H)|(x & y & p & q & E & _)]; [replace (na + n0 - na) with n0 by lia; apply Y, H|]. apply (edge_a_lt a Ca) in E. fold na in E. lia.
    + pose proof (next_ab a b m f Ca Cb Cm Ka Ln Kb n ne c e Lt) as Z. fold na in Z. unfold next_to in Z. split.
      * intros (N & x & y & H1 & H2). destruct (proj1 Z (conj (not_eq_sym N) (ex_intro _ x (ex_intro _ y (conj H2 H1))))) as (x' & y' & p & q & (u & v & E & S0) & Eb & S). right. exists u, v, p, q. split; [exact E|]. split; [exact Eb|]. unfold same_pair in *. destruct S0 as [(-> & ->)|(-> & ->)]; tauto.
      * intros [(n0 & -> & _)|(x & y & p & q & E & Eb & S)]; [lia|]. destruct (proj2 Z) as (N & x' & y' & H1 & H2); [exists x, y, p, q; split; [exists x, y; split; [exact E|left; auto]|auto]|]. split; [auto|]. exists x', y'. auto.
Qed.
Print Assumptions C101_neighbors.

(** the joined mesh is numbered in one sense (C96, C99) if a and b are and no edge of b has the direction of an edge of a *)
Theorem C101_directed : forall shp shuffle sh a b m f, joins shp shuffle sh a b m f -> directed a -> directed b ->
  (forall c e c' e' p q, edge_of a c e (f p) (f q) -> ~ edge_of b c' e' p q) -> directed m.
Proof.
  intros shp shuffle sh a b m f J A B N. destruct (joins_facts _ _ _ _ _ _ _ J) as (Ca & Cb & Cm & Dm & Db & Ka & Ln & Kb & Inj). exact (directed_join a b m f Ca Cb Cm Ka Ln Kb Inj A B N).
Qed.
Print Assumptions C101_directed.

(* two triangles that share an edge *)
Definition jtA : mesh R := mkMesh 2 [mkPoint 0 0%Z [0; 0]%R; mkPoint 1 0%Z [1; 0]%R; mkPoint 2 0%Z [0; 1]%R] [mkCell 0 1%Z Tri3 [0; 1; 2]] [] [].
Definition jtB : mesh R := mkMesh 2 [mkPoint 0 0%Z [1; 0]%R; mkPoint 1 0%Z [1; 1]%R; mkPoint 2 0%Z [0; 1]%R] [mkCell 0 2%Z Tri3 [0; 1; 2]] [] [].
Lemma jtA_valid : valid jtA.
Proof. split; [apply check_iff; reflexivity|]. split; [|left; reflexivity]. intros p H. simpl in H. repeat (destruct H as [<-|H]; [reflexivity|]). destruct H. Qed.
Lemma jtB_valid : consistent jtB /\ coords_complete jtB.
Proof. split; [apply check_iff; reflexivity|]. intros p H. simpl in H. repeat (destruct H as [<-|H]; [reflexivity|]). destruct H. Qed.
Lemma jt_edge k mk c e p q : cells k = [mkCell 0 mk Tri3 [0; 1; 2]] -> (edge_of (T:=R) k c e p q <-> c = 0 /\ ((e = 0 /\ p = 1 /\ q = 0) \/ (e = 1 /\ p = 2 /\ q = 1) \/ (e = 2 /\ p = 0 /\ q = 2))).
Proof.
  intros K. split.
  - intros (cl & I & Ec & _ & He & P & Q). rewrite K in I. destruct I as [<-|[]]. cbn [c_id c_kind c_points] in *. split; [congruence|]. change (e < 3) in He.
    destruct e as [|[|[|e]]]; [| | |lia]; vm_compute in P, Q; injection P as <-; injection Q as <-; lia.
  - intros (-> & H). exists (mkCell 0 mk Tri3 [0; 1; 2]). rewrite K. split; [left; reflexivity|]. split; [reflexivity|]. split; [vm_compute; tauto|]. cbn [c_kind c_points].
    destruct H as [(-> & -> & ->)|[(-> & -> & ->)|(-> & -> & ->)]]; (split; [apply Nat.ltb_lt; reflexivity|split; reflexivity]).
Qed.
Lemma jtA_listed x y : x < y < 3 -> wanted false (has_edge jtA x y).
Proof.
  intros L. assert (X : exists e p q, edge_of jtA 0 e p q /\ same_pair x y p q).
  { assert ((x = 0 /\ y = 1) \/ (x = 1 /\ y = 2) \/ (x = 0 /\ y = 2)) as [(-> & ->)|[(-> & ->)|(-> & ->)]] by lia;
    [exists 0, 1, 0|exists 1, 2, 1|exists 2, 0, 2]; (split; [apply (jt_edge jtA 1%Z _ _ _ _ eq_refl); lia|unfold same_pair; lia]). }
  destruct X as (e & p & q & E & S). exists (0, e). split; [exists p, q; auto|]. intros [c' e'] (p' & q' & E' & S'). apply (jt_edge jtA 1%Z _ _ _ _ eq_refl) in E, E'. cbn [fst snd] in *. unfold same_pair in *. f_equal; lia.
Qed.
Lemma jtA_ready shuffle : (forall l, Permutation (shuffle l) l) -> exists ft, features_new Rleb shuffle jtA false = Ok ft /\ forall p, p < 3 -> In p (ft_points ft).
Proof.
  intros Sh. destruct jtA_valid as (C & CC & D). destruct (new_total Rleb shuffle Sh jtA false C CC D) as (ft & F). exists ft. split; [exact F|].
  destruct (points_and_limits Rleb shuffle Sh jtA false ft Rleb_total C D F) as (_ & U & _).
  destruct (edges_2d Rleb shuffle Sh jtA false ft C eq_refl F) as (_ & _ & W & N).
  intros p Hp. apply U. left.
  assert (X : exists x y, x < y < 3 /\ (p = x \/ p = y)) by (destruct p as [|[|[|p]]]; [exists 0, 1|exists 0, 1|exists 0, 2|]; lia). destruct X as (x & y & L & X).
  destruct (proj2 (W x y) (conj (Nat.lt_le_incl _ _ (proj1 L)) (jtA_listed x y L))) as (ed & G).
  exists x, y, ed. split; [exact G|]. destruct (N x y ed G) as (_ & [c e] & ((u & v & E & S) & _) & (cl & I & _ & _ & He & _ & P)). cbn [fst snd] in *. cbn in I. destruct I as [<-|[]]. cbn [c_kind c_points] in *.
  apply (jt_edge jtA 1%Z _ _ _ _ eq_refl) in E as (_ & E). unfold same_pair in S.
  assert (Q : In u (e_points ed) /\ In v (e_points ed)).
  { destruct E as [(-> & -> & ->)|[(-> & -> & ->)|(-> & -> & ->)]]; destruct (e_points ed) as [|e0 [|e1 [|e2 r]]]; vm_compute in P; try discriminate P; injection P as <- <-; cbn; auto. }
  destruct X as [-> | ->]; destruct S as [(-> & ->)|(-> & ->)]; apply Q.
Qed.
Lemma jtA_wide ft : (forall p, p < 3 -> In p (ft_points (ft : features))) ->
  (forall j, j < ndim jtA -> exists p q x y, In p (ft_points ft) /\ In q (ft_points ft) /\ coord_is jtA p j x /\ coord_is jtA q j y /\ x <> y) /\
  (forall pt, In pt (points jtA) -> enclosed jtA ft (pt_coords pt)).
Proof.
  intros P.
  assert (X : forall j, j < 2 -> coord_is jtA 0 j 0%R /\ coord_is jtA (S j) j 1%R) by (intros j Hj; destruct j as [|[|j]]; [| |lia]; split; eexists; split; reflexivity). split.
  - intros j Hj. change (j < 2) in Hj. destruct (X j Hj) as (X0 & X1). exists 0, (S j), 0%R, 1%R. split; [apply P; lia|]. split; [apply P; lia|]. split; [exact X0|]. split; [exact X1|lra].
  - intros pt Hp j Hj. change (j < 2) in Hj. destruct (X j Hj) as (X0 & X1). exists 0, (S j), 0%R, 1%R. split; [apply P; lia|]. split; [apply P; lia|]. split; [exact X0|]. split; [exact X1|].
    cbn in Hp. destruct Hp as [<-|[<-|[<-|[]]]]; destruct j as [|[|j]]; try lia; cbn; lra.
Qed.
Lemma tol_small n : n <= 3 -> (2 * tolR n < 1 / 2)%R.
Proof. intros L. pose proof tol3. unfold tolR in *. assert (sqrt (INR n) <= sqrt (INR 3))%R by (apply sqrt_le_1_alt, le_INR; exact L). lra. Qed.
(* points with different coordinates that are 0 or 1 are apart *)
Lemma unit_apart e (k : mesh R) : (e < 1 / 2)%R -> (forall p q x y, nth_error (points k) p = Some x -> nth_error (points k) q = Some y -> p <> q -> exists j u v, nth_error (pt_coords x) j = Some u /\ nth_error (pt_coords y) j = Some v /\
  ((u = 0 /\ v = 1) \/ (u = 1 /\ v = 0))%R) -> apart e k.
Proof.
  intros E H p q x y X Y N. destruct (H p q x y X Y N) as (j & u & v & U & V & D). pose proof (coord_le_euclid _ _ j u v U V) as L.
  assert (Rabs (u - v) = 1)%R; [|lra]. destruct D as [(-> & ->)|(-> & ->)]; [rewrite <- Rabs_Ropp|]; rewrite Rabs_right; lra.
Qed.
Ltac apart_tac := intros p q x y X Y N;
  repeat (destruct p as [|p]; [cbn in X; injection X as <-|]); try (destruct p; discriminate X);
  repeat (destruct q as [|q]; [cbn in Y; injection Y as <-|]); try (destruct q; discriminate Y); try lia;
  first [exists 0; do 2 eexists; (split; [reflexivity|]); (split; [reflexivity|]); lra
        |exists 1; do 2 eexists; (split; [reflexivity|]); (split; [reflexivity|]); lra
        |exists 2; do 2 eexists; (split; [reflexivity|]); (split; [reflexivity|]); lra].
Lemma jt_join shp shuffle sh : any_order shp shuffle sh -> exists m f, joins shp shuffle sh jtA jtB m f /\ f 0 = 1 /\ f 2 = 2 /\ f 1 <> 0.
Proof.
  intros O. pose proof O as (O1 & O2 & O3). destruct (jtA_ready shuffle O2) as (ft & F & P). destruct (jtA_wide ft P) as (W & En).
  destruct (C28_total shp shuffle sh jtA jtB ft O jtA_valid (proj1 jtB_valid) (proj2 jtB_valid) eq_refl F W En) as (m & H); [split; [intros mk p q []|intros mk p q r s []]|]. exists m.
  destruct (C101_points shp shuffle sh jtA jtB m O jtA_valid (proj1 jtB_valid) (proj2 jtB_valid) H) as (f & J & Same); [apply unit_apart; [apply tol_small; cbn; lia|apart_tac]|]. exists f. split; [exact J|].
  assert (Aa : apart (tolR (ndim jtA)) jtA) by (apply unit_apart; [pose proof (tol_small 2 ltac:(lia)); change (ndim jtA) with 2; assert (0 <= tolR 2)%R by (unfold tolR; pose proof (sqrt_pos (INR 2)); lra); lra|apart_tac]).
  specialize (Same Aa ft F). split; [eapply (Same 0 _ 1); [reflexivity|reflexivity|apply En; cbn; auto|reflexivity]|split; [eapply (Same 2 _ 2); [reflexivity|reflexivity|apply En; cbn; auto|reflexivity]|]].
  intros E1. destruct J as (_ & _ & _ & _ & _ & _ & Pl & _). destruct (Pl 1 (mkPoint 1 0%Z [1; 1]%R) eq_refl) as (u & U & _ & D). rewrite E1 in U.
  destruct (C28_join _ _ _ _ _ _ O jtA_valid (proj1 jtB_valid) (proj2 jtB_valid) H) as (_ & _ & _ & Kp & _). specialize (Kp 0 _ eq_refl). assert (u = mkPoint 0 0%Z [0; 0]%R) by congruence. subst u. cbn [pt_coords] in D.
  pose proof (coord_le_euclid [0; 0]%R [1; 1]%R 0 0%R 1%R eq_refl eq_refl) as B. rewrite <- Rabs_Ropp, Rabs_right in B by lra. pose proof (tol_small 2 ltac:(lia)). change (ndim jtA) with 2 in D. lra.
Qed.
(* the common edge is no boundary edge of the joined mesh, and the two triangles are neighbours *)
Example C101_ex : forall shp shuffle sh, any_order shp shuffle sh -> exists m f fm r, joins shp shuffle sh jtA jtB m f /\ directed m /\
  features_new Rleb shuffle m false = Ok fm /\ (exists ed, get_edge fm 0 1 = Ok ed) /\ (forall ed, get_edge fm 1 2 <> Ok ed) /\ get_neighbors_2d m fm 0 = Ok r /\ In (1, 1, 2) r.
Proof.
  intros shp shuffle sh O. destruct (jt_join shp shuffle sh O) as (m & f & J & F0 & F2 & F1). pose proof O as (O1 & O2 & O3).
  destruct (joins_facts _ _ _ _ _ _ _ J) as (Ca & Cb & Cm & Dm & Db & Ka & Ln & Kb & Inj).
  assert (Vm : valid m) by (pose proof J as (_ & V & Cb' & CCb & H & _); exact (proj1 (C28_join _ _ _ _ _ _ O V Cb' CCb H))).
  destruct (new_total Rleb shuffle O2 m false Cm (proj1 (proj2 Vm)) (proj2 (proj2 Vm))) as (fm & Fm).
  destruct (jtA_ready shuffle O2) as (fa & Fa & _). destruct (new_total Rleb shuffle O2 jtB false Cb (proj2 jtB_valid) (or_introl eq_refl)) as (fb & Fb).
  pose proof (C101_edges_2d _ _ _ _ _ _ _ Rleb shuffle shuffle shuffle false fa fb fm J eq_refl O2 O2 O2 Fa Fb Fm) as Ed.
  assert (FitA : fits jtA) by (intros c [<-|[]]; apply Nat.leb_le; reflexivity). assert (FitB : fits jtB) by (intros c [<-|[]]; apply Nat.leb_le; reflexivity).
  destruct (C101_neighbors _ _ _ _ _ _ _ Rleb shuffle shuffle shuffle false false false fa fb fm J eq_refl FitA FitB O2 O2 O2 Fa Fb Fm) as (Na & _).
  destruct (neighbors_total Rleb shuffle jtA false fa 0 Ca FitA eq_refl Fa ltac:(cbn; lia)) as (ra & Ra). destruct (Na 0 ra Ra) as (r & Rm & _ & Iff).
  assert (M12 : moved_edge f jtB 1 2) by (exists 0, 2, 0, 2; split; [apply (jt_edge jtB 2%Z _ _ _ _ eq_refl); lia|left; auto]).
  exists m, f, fm, r. split; [exact J|]. split; [|split; [exact Fm|split; [|split; [|split; [exact Rm|]]]]].
  - apply (C101_directed _ _ _ _ _ _ _ J).
    + intros c e c' e' p q E E'. apply (jt_edge jtA 1%Z _ _ _ _ eq_refl) in E, E'. f_equal; lia.
    + intros c e c' e' p q E E'. apply (jt_edge jtB 2%Z _ _ _ _ eq_refl) in E, E'. f_equal; lia.
    + intros c e c' e' p q E E'. apply (jt_edge jtA 1%Z _ _ _ _ eq_refl) in E. apply (jt_edge jtB 2%Z _ _ _ _ eq_refl) in E'.
      pose proof (Inj 1 0 ltac:(cbn; lia) ltac:(cbn; lia)) as I10. pose proof (Inj 1 2 ltac:(cbn; lia) ltac:(cbn; lia)) as I12.
      destruct E' as (_ & [(-> & -> & ->)|[(-> & -> & ->)|(-> & -> & ->)]]); rewrite ?F0, ?F2 in *; lia.
  - apply (Ed 0 1 ltac:(lia)). left. split.
    + apply (listed_edges_2d Rleb shuffle O2 jtA false fa Ca eq_refl Fa). split; [lia|apply jtA_listed; lia].
    + intros _ (c & e & p & q & E & S). apply (jt_edge jtB 2%Z _ _ _ _ eq_refl) in E. unfold same_pair in S.
      pose proof (Inj 1 0 ltac:(cbn; lia) ltac:(cbn; lia)) as I10.
      destruct E as (_ & [(-> & -> & ->)|[(-> & -> & ->)|(-> & -> & ->)]]); rewrite ?F0, ?F2 in *; lia.
  - intros ed G. assert (G' : exists ed, get_edge fm 1 2 = Ok ed) by eauto. apply (Ed 1 2 ltac:(lia)) in G' as [(_ & N)|(_ & N)]; [exact (N eq_refl M12)|].
    apply (N eq_refl 0 1 2 1); [apply (jt_edge jtA 1%Z _ _ _ _ eq_refl); lia|unfold same_pair; lia].
  - apply Iff. right. exists 0, 2, 1, 0, 2. split; [reflexivity|]. split; [apply (jt_edge jtA 1%Z _ _ _ _ eq_refl); lia|]. split; [apply (jt_edge jtB 2%Z _ _ _ _ eq_refl); lia|]. unfold same_pair. lia.
Qed.

(* the tetrahedra of PropJoin.v: the common face is no boundary face *)
Example C101_tets_ex : forall shp shuffle sh, any_order shp shuffle sh -> exists m f fm, joins shp shuffle sh tetA (tetB []) m f /\ features_new Rleb shuffle m false = Ok fm /\
  (exists fc, get_face fm [0; 1; 3] = Ok fc) /\ forall fc, get_face fm [1; 2; 3] <> Ok fc.
Proof.
  intros shp shuffle sh O. pose proof O as (O1 & O2 & O3). destruct (PropJoin.tets_join shp shuffle sh O) as (m & H). exists m. destruct (tetB_valid []) as (CB & CCB).
  destruct (C101_points shp shuffle sh tetA (tetB []) m O tetA_valid CB CCB H) as (f & J & Same); [apply unit_apart; [apply tol_small; cbn; lia|apart_tac]|]. exists f.
  destruct (tetA_ready shuffle O2) as (fa & Fa & P). destruct (tetA_wide shuffle fa P Fa) as (W & En).
  assert (Aa : apart (tolR (ndim tetA)) tetA) by (apply unit_apart; [pose proof (tol_small 3 ltac:(lia)); change (ndim tetA) with 3; assert (0 <= tolR 3)%R by (unfold tolR; pose proof (sqrt_pos (INR 3)); lra); lra|apart_tac]).
  specialize (Same Aa fa Fa).
  assert (FA : forall p, p < 3 -> f p = S p).
  { intros p L. destruct p as [|[|[|p]]]; [| | |lia]; (eapply Same; [reflexivity|reflexivity|apply En; cbn; auto|reflexivity]). }
  destruct (joins_facts _ _ _ _ _ _ _ J) as (Ca & _ & Cm & Dm & Db & Ka & Ln & Kb & Inj).
  assert (Vm : valid m) by exact (proj1 (C28_join _ _ _ _ _ _ O tetA_valid CB CCB H)).
  destruct (new_total Rleb shuffle O2 m false Cm (proj1 (proj2 Vm)) (proj2 (proj2 Vm))) as (fm & Fm). exists fm.
  destruct (new_total Rleb shuffle O2 (tetB []) false CB CCB (or_intror eq_refl)) as (fb & Fb).
  assert (Ta : no_quadratic_tets tetA) by (intros c [<-|[]]; split; discriminate). assert (Tb : no_quadratic_tets (tetB [])) by (intros c [<-|[]]; split; discriminate).
  pose proof (C101_faces_3d _ _ _ _ _ _ _ Rleb shuffle shuffle shuffle false fa fb fm J eq_refl Ta Tb Fa Fb Fm) as Fc.
  split; [exact J|]. split; [exact Fm|]. split.
  - apply (Fc [0; 1; 3] ltac:(repeat constructor)). left. split.
    + apply (listed_faces_3d Rleb shuffle tetA false fa Ca eq_refl Ta Fa). split; [repeat constructor|]. exact (tetA_face 1 [0; 1; 3] ltac:(lia) eq_refl).
    + intros _ (c & e & ps & (cl & I & _ & _ & He & Ps) & Pm). destruct I as [<-|[]]. cbn [c_kind c_points] in *. change (e < 4) in He.
      assert (I0 : In 0 (map f ps)) by (apply (Permutation_in _ Pm); left; reflexivity). apply in_map_iff in I0 as (p & E0 & Ip).
      assert (Lp : p < 4). { assert (X : In (Some p) (map Some ps)) by now apply in_map. rewrite <- Ps in X. apply in_map_iff in X as (i & X & _). apply nth_error_In in X. cbn in X. lia. }
      destruct (Nat.eq_dec p 3) as [->|Np]; [|rewrite FA in E0 by lia; lia].
      destruct J as (_ & _ & _ & _ & _ & _ & Pl & _). destruct (Pl 3 (mkPoint 3 7%Z [1; 1; 1]%R) eq_refl) as (u & U & _ & D). rewrite E0 in U.
      destruct (C28_join _ _ _ _ _ _ O tetA_valid CB CCB H) as (_ & _ & _ & Kp & _). specialize (Kp 0 _ eq_refl). assert (u = mkPoint 0 0%Z [0; 0; 0]%R) by congruence. subst u. cbn [pt_coords] in D.
      pose proof (coord_le_euclid [0; 0; 0]%R [1; 1; 1]%R 0 0%R 1%R eq_refl eq_refl) as B. rewrite <- Rabs_Ropp, Rabs_right in B by lra. pose proof tol3. change (ndim tetA) with 3 in D. lra.
  - intros fc G. assert (G' : exists fc, get_face fm [1; 2; 3] = Ok fc) by eauto. apply (Fc [1; 2; 3] ltac:(repeat constructor)) in G' as [(_ & N)|(_ & N)].
    + apply (N eq_refl). exists 0, 2, [0; 2; 1]. split; [|cbn [map]; rewrite !FA by lia; apply perm_skip, perm_swap].
      exists (mkCell 0 2%Z Tet4 [0; 1; 2; 3]). split; [left; reflexivity|]. split; [reflexivity|]. split; [reflexivity|]. split; [apply Nat.ltb_lt; reflexivity|reflexivity].
    + apply (N eq_refl 0 3 [1; 2; 3]); [|apply Permutation_refl]. exists (mkCell 0 1%Z Tet4 [0; 1; 2; 3]). split; [left; reflexivity|]. split; [reflexivity|]. split; [reflexivity|]. split; [apply Nat.ltb_lt; reflexivity|reflexivity].
Qed.
