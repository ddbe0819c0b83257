(* Properties of the searches of /repo/src/mesh/features.rs: C25, C26, C58.
   [ready]: the features of a valid mesh; [made]: with their search grid. *)
From Coq Require Import String List Arith Bool ZArith Reals Lra Lia Permutation Sorted.
From Verif Require Import Base BaseFacts Kind MeshModel MeshQueryModel MeshQuerySpec MeshQueryProof TopoModel TopoSpec TopoMaps TopoProof TopoFeat3 TopoFinal
  GeomModel GeomSpec GeomProof GridModel GridSpec GridProof SearchModel SearchSpec SearchProof SearchProof2.
Import ListNotations.
Open Scope nat_scope.

(* iteration orders of hash containers are arbitrary *)
Definition orders (shp shk : list nat -> list nat) (shuffle : emap -> emap) (sh : container -> container) : Prop :=
  (forall l, Permutation (shp l) l) /\ (forall l, Permutation (shk l) l) /\ (forall l, Permutation (shuffle l) l) /\ forall c, Permutation (sh c) c.

(* the square [0,1] x [0,1] cut along a diagonal, and a cable from (1,1) to (2,1) *)
Definition sqR : mesh R :=
  mkMesh 2 [mkPoint 0 0%Z [0%R; 0%R]; mkPoint 1 0%Z [1%R; 0%R]; mkPoint 2 0%Z [1%R; 1%R]; mkPoint 3 0%Z [0%R; 1%R]; mkPoint 4 0%Z [2%R; 1%R]]
    [mkCell 0 1%Z Tri3 [0; 1; 2]; mkCell 1 1%Z Tri3 [2; 3; 0]; mkCell 2 1%Z Lin2 [2; 4]] [] [].
Lemma sqR_consistent : consistent sqR. Proof. apply check_iff. reflexivity. Qed.
Lemma sqR_complete : coords_complete sqR.
Proof. intros p H. simpl in H. repeat (destruct H as [<-|H]; [reflexivity|]). destruct H. Qed.
Lemma sqR_edge01 : wanted false (has_edge sqR 0 1).
Proof.
  exists (0, 0). split.
  - exists 1, 0. split; [|right; auto]. exists (mkCell 0 1%Z Tri3 [0; 1; 2]). split; [left; reflexivity|]. vm_compute. repeat split; auto.
  - intros [c e] (p & q & (cl & I & Ec & D & L & P & Q) & S). cbn [fst snd] in *. subst c. cbn in I. destruct I as [<-|[<-|[<-|[]]]]; cbn in D; try discriminate; change (e < 3) in L; cbn [c_kind c_points c_id] in *.
    + destruct e as [|[|[|e]]]; try lia; vm_compute in P, Q; injection P as <-; injection Q as <-; destruct S as [[? ?]|[? ?]]; try lia; reflexivity.
    + destruct e as [|[|[|e]]]; try lia; vm_compute in P, Q; injection P as <-; injection Q as <-; destruct S as [[? ?]|[? ?]]; try lia.
Qed.
Lemma sqR_ready shuffle : (forall l, Permutation (shuffle l) l) -> exists ft, ready shuffle sqR false ft /\
   (exists ed, get_edge ft 0 1 = Ok ed) /\ forall p, In p [0; 1; 2; 4] -> In p (ft_points ft).
Proof.
  intros S. destruct (new_total Rleb shuffle S sqR false sqR_consistent sqR_complete (or_introl eq_refl)) as (ft & F). exists ft.
  assert (Rd : ready shuffle sqR false ft) by (split; [exact sqR_consistent|split; [exact sqR_complete|split; [left; reflexivity|exact F]]]). split; [exact Rd|].
  destruct (points_and_limits Rleb shuffle S sqR false ft Rleb_total sqR_consistent (or_introl eq_refl) F) as (_ & U & _).
  assert (G : exists ed, get_edge ft 0 1 = Ok ed) by (apply (listed_edges_2d Rleb shuffle S sqR false ft sqR_consistent eq_refl F); split; [lia|exact sqR_edge01]).
  split; [exact G|]. destruct G as (ed & G).
  destruct (TopoFeat6.get_edge_key Rleb shuffle S sqR false ft 0 1 ed sqR_consistent (or_introl eq_refl) F G) as (K & _). apply key_points in K as (K0 & K1).
  intros p Hp. apply U. destruct Hp as [<-|[<-|Hp]]; [left; eauto|left; eauto|]. right. right. exists (mkCell 2 1%Z Lin2 [2; 4]). split; [split; [cbn; auto|left; reflexivity]|].
  destruct Hp as [<-|[<-|[]]]; cbn; auto.
Qed.
Lemma sqR_made shp shk shuffle sh : orders shp shk shuffle sh -> exists ft g, made shp shuffle sqR false ft g /\
   (exists ed, get_edge ft 0 1 = Ok ed) /\ forall p, In p [0; 1; 2; 4] -> In p (ft_points ft).
Proof.
  intros (O1 & O2 & O3 & O4). destruct (sqR_ready shuffle O3) as (ft & Rd & G & P). exists ft.
  destruct (grid_total shp O1 shuffle O3 sqR false ft Rd) as (g & Gr).
  - intros j Hj. cbn in Hj. destruct j as [|[|j]]; [| |lia].
    + exists 0, 1, 0%R, 1%R. split; [apply P; cbn; auto|]. split; [apply P; cbn; auto|]. split; [eexists; split; reflexivity|]. split; [eexists; split; reflexivity|lra].
    + exists 0, 2, 0%R, 1%R. split; [apply P; cbn; auto|]. split; [apply P; cbn; auto|]. split; [eexists; split; reflexivity|]. split; [eexists; split; reflexivity|lra].
  - exists g. split; [split; [exact Rd|exact Gr]|]. auto.
Qed.

(* ------------------------------------------------------------------ C58 *)
Theorem C58_grid_total : forall shp shk shuffle sh m ea ft, orders shp shk shuffle sh -> ready shuffle m ea ft ->
  (forall j, j < ndim m -> exists p q x y, In p (ft_points ft) /\ In q (ft_points ft) /\ coord_is m p j x /\ coord_is m q j y /\ x <> y) ->
  exists g, features_grid shp m ft = Ok g.
Proof. intros shp shk shuffle sh m ea ft (O1 & _ & O3 & _). exact (grid_total shp O1 shuffle O3 m ea ft). Qed.
Print Assumptions C58_grid_total.
Theorem C58_flat_panics : forall shp shk shuffle sh m ea ft j, orders shp shk shuffle sh -> ready shuffle m ea ft -> j < ndim m ->
  (forall p q x y, In p (ft_points ft) -> In q (ft_points ft) -> coord_is m p j x -> coord_is m q j y -> x = y) ->
  features_grid shp m ft = Panic.
Proof. intros shp shk shuffle sh m ea ft j (O1 & _ & O3 & _). exact (grid_flat shp shuffle O3 m ea ft j). Qed.
Print Assumptions C58_flat_panics.
Lemma orders_id : orders (fun l => l) (fun l => l) (fun l => l) (fun l => l).
Proof. repeat split; intros; apply Permutation_refl. Qed.
Example C58_ex : exists ft g, made (fun l => l) (fun l => l) sqR false ft g.
Proof. destruct (sqR_made _ _ _ _ orders_id) as (ft & g & M & _). eauto. Qed.

(* A valid mesh for which Features::new panics: one horizontal cable. *)
Definition cableR : mesh R := mkMesh 2 [mkPoint 0 0%Z [0%R; 0%R]; mkPoint 1 0%Z [1%R; 0%R]] [mkCell 0 1%Z Lin2 [0; 1]] [] [].
Theorem C58_new_never_panics_refuted : exists (m : mesh R) ft, check_ids_and_kind m = Ok tt /\ coords_complete m /\ ndim m = 2 /\
  features_new Rleb (fun l => l) m false = Ok ft /\ features_grid (fun l => l) m ft = Panic.
Proof.
  exists cableR. assert (C : consistent cableR) by (apply check_iff; reflexivity).
  assert (CC : coords_complete cableR) by (intros p H; simpl in H; repeat (destruct H as [<-|H]; [reflexivity|]); destruct H).
  destruct (new_total Rleb (fun l => l) (fun l => Permutation_refl l) cableR false C CC (or_introl eq_refl)) as (ft & F). exists ft.
  split; [reflexivity|]. split; [exact CC|]. split; [reflexivity|]. split; [exact F|].
  apply (C58_flat_panics _ _ _ _ cableR false ft 1 orders_id); [split; [exact C|split; [exact CC|split; [left; reflexivity|exact F]]]|cbn; lia|].
  assert (Z : forall p x, coord_is cableR p 1 x -> x = 0%R).
  { intros p x (pt & N & X). destruct p as [|[|p]]; cbn in N; [injection N as <-|injection N as <-|destruct p; discriminate]; cbn in X; congruence. }
  intros p q x y _ _ X Y. rewrite (Z p x X), (Z q y Y). reflexivity.
Qed.
Print Assumptions C58_new_never_panics_refuted.

(* ------------------------------------------------------------------ C26 *)
(* the tolerance is sqrt(ndim)/10000 *)
Theorem C26_point_ids : forall shp shk shuffle sh m ea ft g a filter, orders shp shk shuffle sh -> made shp shuffle m ea ft g ->
  at_dim (ndim m) a -> ~ single (ndim m) a -> sound_query EPSILON a ->
  (exists ids, search_point_ids shk sh m g a filter = Ok ids /\ ids <> [] /\ StronglySorted lt ids /\
     forall p, In p ids <-> is_near m (ft_points ft) (sqrt (INR (ndim m)) * / 10000) a filter p) \/
  (exists msg, search_point_ids shk sh m g a filter = Err msg /\ forall p, ~ is_near m (ft_points ft) (sqrt (INR (ndim m)) * / 10000) a filter p).
Proof. intros shp shk shuffle sh m ea ft g a filter (O1 & O2 & O3 & O4). exact (point_ids_spec shp O1 shuffle O3 shk O2 sh O4 m ea ft g a filter). Qed.
Print Assumptions C26_point_ids.
Theorem C26_wrong_query : forall shp shk shuffle sh m ea ft g a filter, orders shp shk shuffle sh -> made shp shuffle m ea ft g ->
  ~ at_dim (ndim m) a \/
  (ft_points ft <> [] /\ match a with AtCylinder ax ay az bx by_ bz _ => (sqdist [bx; by_; bz] [ax; ay; az] <= EPSILON)%R | _ => False end) ->
  exists msg, search_point_ids shk sh m g a filter = Err msg.
Proof.
  intros shp shk shuffle sh m ea ft g a filter (O1 & O2 & O3 & O4) M [N|(NE & U)]; [eapply wrong_dim; eauto|].
  assert (D : at_dim (ndim m) a \/ ~ at_dim (ndim m) a) by (destruct a; try contradiction; cbn; lia).
  destruct D as [D|D]; [exact (unsound_query shp O1 shuffle O3 shk O2 sh m ea ft g a filter M D NE U)|eapply wrong_dim; eauto].
Qed.
Print Assumptions C26_wrong_query.
(* queries of one point: at most one point is returned, a near one; one is returned if there is one within
   1/10000 in every direction *)
Theorem C26_single : forall shp shk shuffle sh m ea ft g a filter, orders shp shk shuffle sh -> made shp shuffle m ea ft g -> single (ndim m) a ->
  ((exists p, search_point_ids shk sh m g a filter = Ok [p] /\ is_near m (ft_points ft) (sqrt (INR (ndim m)) * / 10000) a (fun _ => true) p) \/
   (exists msg, search_point_ids shk sh m g a filter = Err msg)) /\
  (forall p c y, In p (ft_points ft) -> coords_of m p c -> on_at (ndim m) a y -> close (/ 10000) c y ->
     exists q, search_point_ids shk sh m g a filter = Ok [q]).
Proof. intros shp shk shuffle sh m ea ft g a filter (O1 & O2 & O3 & O4). exact (single_spec shp O1 shuffle O3 shk sh O4 m ea ft g a filter). Qed.
Print Assumptions C26_single.

Lemma euclid_refl c : euclid c c = 0%R.
Proof.
  unfold euclid. assert (E : sqdist c c = 0%R). { induction c as [|x t IH]; cbn; [reflexivity|]. rewrite IH. lra. } rewrite E. apply sqrt_0.
Qed.
Lemma near_exact (m : mesh R) pts a filter p c tol : (0 <= tol)%R -> In p pts -> coords_of m p c -> on_at (ndim m) a c -> filter c = true -> is_near m pts tol a filter p.
Proof. intros T I C O F. split; [exact I|]. exists c. split; [exact C|]. split; [|exact F]. exists c. split; [exact O|]. rewrite euclid_refl. exact T. Qed.
Lemma tol_pos n : (0 <= sqrt (INR n) * / 10000)%R.
Proof. apply Rmult_le_pos; [apply sqrt_pos|lra]. Qed.
Example C26_ex : exists ft g, made (fun l => l) (fun l => l) sqR false ft g /\ at_dim (ndim sqR) (AtY 0%R) /\ ~ single (ndim sqR) (AtY 0%R) /\ sound_query EPSILON (AtY 0%R) /\
  is_near sqR (ft_points ft) (sqrt (INR (ndim sqR)) * / 10000) (AtY 0%R) (fun _ => true) 0 /\ is_near sqR (ft_points ft) (sqrt (INR (ndim sqR)) * / 10000) (AtY 0%R) (fun _ => true) 1 /\
  ~ is_near sqR (ft_points ft) (sqrt (INR (ndim sqR)) * / 10000) (AtY 0%R) (fun _ => true) 2.
Proof.
  destruct (sqR_made _ _ _ _ orders_id) as (ft & g & M & _ & P). exists ft, g. split; [exact M|]. split; [left; reflexivity|]. split; [intros []|]. split; [exact I|].
  split; [|split].
  - eapply near_exact; [apply tol_pos|apply P; cbn; auto|eexists; split; reflexivity|split; reflexivity|reflexivity].
  - eapply near_exact; [apply tol_pos|apply P; cbn; auto|eexists; split; reflexivity|split; reflexivity|reflexivity].
  - intros (_ & c & (pt & N & <-) & (p & (L & O) & E) & _). cbn in N. injection N as <-. cbn [pt_coords] in E. cbn in L. destruct p as [|p0 [|p1 [|p2 p]]]; try discriminate. cbn in O. subst p1.
    assert (Z : (Rabs (1 - 0) <= sqrt (INR (ndim sqR)) * / 10000)%R) by (eapply Rle_trans; [|exact E]; apply coord_le_euclid with (i := 1%nat); reflexivity).
    pose proof PropGrid.sqrt2_bounds as B. change (INR (ndim sqR)) with 2%R in Z. apply abs_le in Z. lra.
Qed.
(* The filter is not applied to queries of one point. *)
Theorem C26_filter_refuted : exists shp shk shuffle sh (m : mesh R) ea ft g a p, orders shp shk shuffle sh /\ made shp shuffle m ea ft g /\ single (ndim m) a /\
  search_point_ids shk sh m g a (fun _ => false) = Ok [p].
Proof.
  destruct (sqR_made _ _ _ _ orders_id) as (ft & g & M & _ & P).
  destruct (C26_single _ _ _ _ sqR false ft g (AtXY 1%R 1%R) (fun _ => false) orders_id M eq_refl) as (_ & C).
  destruct (C 2 [1%R; 1%R] [1%R; 1%R]) as (q & Q).
  - apply P. cbn. auto.
  - eexists. split; reflexivity.
  - split; [reflexivity|]. split; reflexivity.
  - split; [reflexivity|]. intros i _. replace (nth i [1%R; 1%R] 0%R - nth i [1%R; 1%R] 0%R)%R with 0%R by lra. rewrite Rabs_R0. lra.
  - exists (fun l => l), (fun l => l), (fun l => l), (fun l => l), sqR, false, ft, g, (AtXY 1%R 1%R), q. split; [exact orders_id|]. split; [exact M|]. split; [reflexivity|exact Q].
Qed.
Print Assumptions C26_filter_refuted.

(* ------------------------------------------------------------------ C25 *)
(* ids: the answer to the same query for points (C26) *)
Theorem C25_edge_keys : forall shp shk shuffle sh m ea ft g a filter ids, orders shp shk shuffle sh -> ready shuffle m ea ft -> search_point_ids shk sh m g a filter = Ok ids ->
  (exists keys, search_edge_keys shk sh m ft g a filter = Ok keys /\ keys <> [] /\ StronglySorted lex keys /\
     forall i j, In (i, j) keys <-> (exists ed, get_edge ft i j = Ok ed) /\ In i ids /\ In j ids) \/
  (exists msg, search_edge_keys shk sh m ft g a filter = Err msg /\ forall i j ed, get_edge ft i j = Ok ed -> ~ (In i ids /\ In j ids)).
Proof.
  intros shp shk shuffle sh m ea ft g a filter ids (O1 & O2 & O3 & O4) Rd E.
  destruct (edge_keys_spec shuffle O3 shk sh m ea ft g a filter ids Rd E) as [X|(msg & X & N)]; [left; exact X|right].
  exists msg. split; [exact X|]. intros i j ed G Y. apply (N i j). split; eauto.
Qed.
Print Assumptions C25_edge_keys.
Theorem C25_edges : forall shp shk shuffle sh m ea ft g a filter ids, orders shp shk shuffle sh -> ready shuffle m ea ft -> search_point_ids shk sh m g a filter = Ok ids ->
  (exists eds, search_edges shk sh m ft g a filter = Ok eds /\ eds <> [] /\ edges_sorted eds /\
     forall ed, In ed eds <-> exists i j, get_edge ft i j = Ok ed /\ In i ids /\ In j ids) \/
  (exists msg, search_edges shk sh m ft g a filter = Err msg /\ forall i j ed, get_edge ft i j = Ok ed -> ~ (In i ids /\ In j ids)).
Proof. intros shp shk shuffle sh m ea ft g a filter ids (O1 & O2 & O3 & O4). exact (edges_spec shuffle O3 shk sh m ea ft g a filter ids). Qed.
Print Assumptions C25_edges.
Theorem C25_face_keys : forall shp shk shuffle sh m ea ft g a filter ids, orders shp shk shuffle sh -> ready shuffle m ea ft -> ndim m = 3 -> search_point_ids shk sh m g a filter = Ok ids ->
  (exists keys, search_face_keys shk sh m ft g a filter = Ok keys /\ keys <> [] /\ StronglySorted (fun k k' => fkey_leb k' k = false) keys /\
     forall k, In k keys <-> (exists fc, get_face ft k = Ok fc) /\ forall p, In p k -> In p ids) \/
  (exists msg, search_face_keys shk sh m ft g a filter = Err msg /\ forall k fc, get_face ft k = Ok fc -> ~ (forall p, In p k -> In p ids)).
Proof.
  intros shp shk shuffle sh m ea ft g a filter ids (O1 & O2 & O3 & O4) Rd D E.
  destruct (face_keys_spec shuffle O3 shk sh m ea ft g a filter ids Rd D E) as [X|(msg & X & N)]; [left; exact X|right].
  exists msg. split; [exact X|]. intros k fc G Y. apply (N k). split; eauto.
Qed.
Print Assumptions C25_face_keys.
Theorem C25_faces : forall shp shk shuffle sh m ea ft g a filter ids, orders shp shk shuffle sh -> ready shuffle m ea ft -> ndim m = 3 -> search_point_ids shk sh m g a filter = Ok ids ->
  (exists fcs, search_faces shk sh m ft g a filter = Ok fcs /\ fcs <> [] /\ faces_sorted fcs /\
     forall fc, In fc fcs <-> exists k, get_face ft k = Ok fc /\ forall p, In p k -> In p ids) \/
  (exists msg, search_faces shk sh m ft g a filter = Err msg /\ forall k fc, get_face ft k = Ok fc -> ~ (forall p, In p k -> In p ids)).
Proof. intros shp shk shuffle sh m ea ft g a filter ids (O1 & O2 & O3 & O4). exact (faces_spec shuffle O3 shk sh m ea ft g a filter ids). Qed.
Print Assumptions C25_faces.
(* errors of the search for points are passed on; there are no faces in 2D *)
Theorem C25_errors : forall shk sh m ft g a filter,
  (forall msg, search_point_ids shk sh m g a filter = Err msg ->
    search_edge_keys shk sh m ft g a filter = Err msg /\ search_edges shk sh m ft g a filter = Err msg /\
    (ndim m = 3 -> search_face_keys shk sh m ft g a filter = Err msg /\ search_faces shk sh m ft g a filter = Err msg) /\
    (ndim m = 2 -> forall byp, search_features_2d shk sh m ft g byp a filter = Err msg)) /\
  (ndim m <> 3 -> (exists msg, search_face_keys shk sh m ft g a filter = Err msg) /\ exists msg, search_faces shk sh m ft g a filter = Err msg) /\
  (ndim m <> 2 -> forall byp, exists msg, search_features_2d shk sh m ft g byp a filter = Err msg).
Proof.
  intros shk sh m ft g a filter. split; [|split].
  - intros msg E. destruct (search_err_keys shk sh m ft g a filter msg E) as (A & B & C). split; [auto|]. split; [auto|]. split; [auto|]. intros D byp. unfold search_features_2d. rewrite D, E. reflexivity.
  - intros D. unfold search_faces, search_face_keys. rewrite (proj2 (Nat.eqb_neq _ _) D). cbn. eauto.
  - intros D byp. unfold search_features_2d. rewrite (proj2 (Nat.eqb_neq _ _) D). cbn. eauto.
Qed.
Print Assumptions C25_errors.
(* several queries: the union, sorted *)
Theorem C25_many_edges : forall shp shk shuffle sh m ea ft g ats filter, orders shp shk shuffle sh -> ready shuffle m ea ft ->
  (forall a, In a ats -> exists eds, search_edges shk sh m ft g a filter = Ok eds) ->
  exists eds, search_many_edges shk sh m ft g ats filter = Ok eds /\ edges_sorted eds /\
    forall ed, In ed eds <-> exists a eds', In a ats /\ search_edges shk sh m ft g a filter = Ok eds' /\ In ed eds'.
Proof. intros shp shk shuffle sh m ea ft g ats filter (O1 & O2 & O3 & O4). exact (many_edges_spec shuffle O3 shk sh m ea ft g ats filter). Qed.
Print Assumptions C25_many_edges.
Theorem C25_many_faces : forall shp shk shuffle sh m ea ft g ats filter, orders shp shk shuffle sh -> ready shuffle m ea ft -> ndim m = 3 ->
  (forall a, In a ats -> exists fcs, search_faces shk sh m ft g a filter = Ok fcs) ->
  exists fcs, search_many_faces shk sh m ft g ats filter = Ok fcs /\ faces_sorted fcs /\
    forall fc, In fc fcs <-> exists a fcs', In a ats /\ search_faces shk sh m ft g a filter = Ok fcs' /\ In fc fcs'.
Proof. intros shp shk shuffle sh m ea ft g ats filter (O1 & O2 & O3 & O4). exact (many_faces_spec shuffle O3 shk sh m ea ft g ats filter). Qed.
Print Assumptions C25_many_faces.
(* the cells of search_features_2d are those with a listed edge that has a found point (or both end points found) *)
Theorem C25_features_2d : forall shp shk shuffle sh m ea ft g by_points a filter ids, orders shp shk shuffle sh -> ready shuffle m ea ft -> ndim m = 2 ->
  search_point_ids shk sh m g a filter = Ok ids ->
  exists cs eds, search_features_2d shk sh m ft g by_points a filter = Ok (ids, cs, eds) /\
    StronglySorted lt cs /\ edges_sorted eds /\
    (forall ed, In ed eds <-> exists i j, get_edge ft i j = Ok ed /\ In i ids /\ In j ids) /\
    (forall c, In c cs <-> exists i j ed e, get_edge ft i j = Ok ed /\ has_edge m i j (c, e) /\
       (exists p, In p ids /\ In p (e_points ed)) /\ (by_points = true \/ (In i ids /\ In j ids))).
Proof. intros shp shk shuffle sh m ea ft g byp a filter ids (O1 & O2 & O3 & O4). exact (features_2d_spec shuffle O3 shk sh m ea ft g byp a filter ids). Qed.
Print Assumptions C25_features_2d.
(* the edge 0-1 of the square is found on the line y = 0 *)
Example C25_ex : exists ft g ids ed, made (fun l => l) (fun l => l) sqR false ft g /\ search_point_ids (fun l => l) (fun l => l) sqR g (AtY 0%R) (fun _ => true) = Ok ids /\
  get_edge ft 0 1 = Ok ed /\ In 0 ids /\ In 1 ids /\ ~ In 2 ids.
Proof.
  destruct C26_ex as (ft & g & M & A & B & C & N0 & N1 & N2). 
  assert (G : exists ed, get_edge ft 0 1 = Ok ed).
  { destruct M as ((_ & _ & _ & F) & _). apply (listed_edges_2d Rleb (fun l => l) (fun l => Permutation_refl l) sqR false ft sqR_consistent eq_refl F). split; [lia|exact sqR_edge01]. }
  destruct G as (ed & G). destruct (C26_point_ids _ _ _ _ sqR false ft g (AtY 0%R) (fun _ => true) orders_id M A B C) as [(ids & E & _ & _ & I)|(msg & _ & I)]; [|destruct (I 0 N0)].
  exists ft, g, ids, ed. split; [exact M|]. split; [exact E|]. split; [exact G|]. split; [apply I; exact N0|]. split; [apply I; exact N1|]. intros X. apply N2, I, X.
Qed.
