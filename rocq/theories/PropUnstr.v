(* Properties of the unstructured generators, Unstructured (/repo/src/mesh/generators_tri_tet.rs): C81-C85.
   The generators Triangle and Tetgen themselves (crate tritet) are oracles: [gen2] and [gen3] map the
   input and the options to an error or to any output.  [tri_fine], [tet_fine]: the output has two points
   and one cell at least and cells with the number of nodes announced;  [tri_in_range], [tet_in_range]:
   its cells (and faces) use points of the output;  [placed rmin rmax p q]: q is p, moved to the circle of
   radius rmin / rmax if its marker is -5 / -6. *)
From Coq Require Import String Reals List Arith Bool ZArith Lia Lra Permutation Sorted.
From Verif Require Import Base BaseFacts Kind MeshModel MeshQuerySpec GraphModel GraphSpec TopoModel TopoSpec GeomModel JoinSpec ConvertModel ConvertSpec
  PropTopo UnstrModel UnstrSpec UnstrProof UnstrProof2 UnstrProof3 UnstrProof4 UnstrProof5 UnstrProof7 UnstrProof8 UnstrProof9 UnstrProof10 UnstrProof11 UnstrProof12.
Import ListNotations.
Local Open Scope list_scope.
Local Open Scope R_scope.

(** C81: the adapters copy the output of the generator *)
Theorem C81_from_trigen : forall t, tri_fine t -> exists m, from_trigen t = Ok m /\ ndim m = 2%nat /\
  List.length (points m) = List.length (to_points t) /\
  (forall i mk x y, nth_error (to_points t) i = Some (mk, x, y) -> nth_error (points m) i = Some (mkPoint i mk [x; y])) /\
  holds_cells (to_cells t) (if (to_nnode t =? 6)%nat then Tri6 else Tri3) m /\
  marked_edges m = filter (fun s => negb (fst (fst s) =? 0)%Z) (to_segments t) /\ marked_faces m = [] /\
  (tri_in_range t -> consistent m /\ coords_complete m).
Proof.
  intros t F. destruct (from_trigen_ok t F) as (m & E & A1 & A2 & A3 & A4 & A5). exists m. split; [exact E|]. split; [exact A1|].
  split; [rewrite A2; unfold tri_points; now rewrite map_length, seq_length|]. split; [intros i mk x y H; rewrite A2, tri_points_nth, H; reflexivity|].
  split; [exact A3|]. split; [exact A4|]. split; [exact A5|]. intros Rg. exact (from_trigen_valid t m F Rg E).
Qed.
Print Assumptions C81_from_trigen.
Theorem C81_from_tetgen : forall t, tet_fine t -> exists m, from_tetgen t = Ok m /\ ndim m = 3%nat /\
  List.length (points m) = List.length (eo_points t) /\
  (forall i mk x y z, nth_error (eo_points t) i = Some (mk, x, y, z) -> nth_error (points m) i = Some (mkPoint i (if (mk =? 1)%Z then 0%Z else mk) [x; y; z])) /\
  holds_cells (eo_cells t) (if (eo_nnode t =? 10)%nat then Tet10 else Tet4) m /\ marked_edges m = [] /\
  marked_faces m = map (fun f => (fst f, nth 0 (snd f) 0%nat, nth 1 (snd f) 0%nat, nth 2 (snd f) 0%nat, None)) (filter (fun f => negb (fst f =? 0)%Z) (eo_faces t)) /\
  (tet_in_range t -> consistent m /\ coords_complete m).
Proof.
  intros t F. destruct (from_tetgen_ok t F) as (m & E & A1 & A2 & A3 & A4 & A5). exists m. split; [exact E|]. split; [exact A1|].
  split; [rewrite A2; unfold tet_points; now rewrite map_length, seq_length|]. split; [intros i mk x y z H; rewrite A2, tet_points_nth, H; reflexivity|].
  split; [exact A3|]. split; [exact A4|]. split; [exact A5|]. intros Rg. exact (from_tetgen_valid t m F Rg E).
Qed.
Print Assumptions C81_from_tetgen.
Theorem C81_empty_output : forall t, (List.length (to_points t) < 2)%nat \/ (List.length (to_cells t) < 1)%nat -> from_trigen t = Panic.
Proof. exact from_trigen_panic. Qed.
Print Assumptions C81_empty_output.
Theorem C81_empty_output_3d : forall t, (List.length (eo_points t) < 2)%nat \/ (List.length (eo_cells t) < 1)%nat -> from_tetgen t = Panic.
Proof.
  intros t H. unfold from_tetgen, zero_mesh. change ((3 <? 2) || (3 <? 3))%nat with false. cbn iota.
  destruct (List.length (eo_points t) <? 2)%nat eqn:E; [reflexivity|]. apply Nat.ltb_ge in E.
  destruct H as [H|H]; [lia|]. now rewrite (proj2 (Nat.ltb_lt _ _) H).
Qed.
Print Assumptions C81_empty_output_3d.
(* two triangles with the corners A, C, D, B of a quarter ring; a tetrahedron *)
Definition ex_tri : tri_out := mkTriOut [((-1)%Z, 1, 0); ((-3)%Z, 2, 0); ((-4)%Z, 0, 2); ((-2)%Z, 0, 1)] 3
  [(1%Z, [0; 1; 2]%nat); (1%Z, [0; 2; 3]%nat)] [((-7)%Z, 0, 1)%nat; ((-6)%Z, 1, 2)%nat; ((-8)%Z, 2, 3)%nat; ((-5)%Z, 3, 0)%nat; (0%Z, 0, 2)%nat].
Lemma ex_tri_fine : tri_fine ex_tri /\ tri_in_range ex_tri.
Proof.
  split; [split; [cbn; lia|]; split; [cbn; lia|]; split; [now left|]; intros o [<-|[<-|[]]]; reflexivity|].
  intros o p [<-|[<-|[]]] Hp; cbn in *; lia.
Qed.
Definition ex_tet : tet_out := mkTetOut [((-1)%Z, 1, 0, 0); ((-3)%Z, 2, 0, 0); (0%Z, 1, 1, 0); (1%Z, 1, 0, 1)] 4 [(1%Z, [0; 1; 2; 3]%nat)]
  [((-9)%Z, [0; 2; 1]%nat); ((-7)%Z, [0; 1; 3]%nat); ((-5)%Z, [0; 3; 2]%nat); ((-6)%Z, [1; 2; 3]%nat)].
Lemma ex_tet_fine : tet_fine ex_tet /\ tet_in_range ex_tet.
Proof.
  split.
  - split; [cbn; lia|]. split; [cbn; lia|]. split; [now left|]. split; [intros o [<-|[]]; reflexivity|]. intros f [<-|[<-|[<-|[<-|[]]]]]; cbn; lia.
  - split; [intros o p [<-|[]] Hp|intros f p [<-|[<-|[<-|[<-|[]]]]] Hp]; cbn in *; lia.
Qed.
Example C81_ex : exists m m3, from_trigen ex_tri = Ok m /\ from_tetgen ex_tet = Ok m3 /\
  marked_edges m = [((-7)%Z, 0, 1)%nat; ((-6)%Z, 1, 2)%nat; ((-8)%Z, 2, 3)%nat; ((-5)%Z, 3, 0)%nat] /\
  map pt_marker (points m3) = [-1; -3; 0; 0]%Z /\ List.length (marked_faces m3) = 4%nat.
Proof.
  destruct (C81_from_trigen _ (proj1 ex_tri_fine)) as (m & E & _ & _ & _ & _ & A & _). destruct (C81_from_tetgen _ (proj1 ex_tet_fine)) as (m3 & E3 & _ & L & P & _ & _ & B & _).
  exists m, m3. split; [exact E|]. split; [exact E3|]. split; [exact A|]. split; [|rewrite B; reflexivity].
  destruct (points m3) as [|p0 [|p1 [|p2 [|p3 [|? ?]]]]]; try discriminate L. cbn [map].
  pose proof (P 0%nat _ _ _ _ eq_refl) as P0. pose proof (P 1%nat _ _ _ _ eq_refl) as P1. pose proof (P 2%nat _ _ _ _ eq_refl) as P2. pose proof (P 3%nat _ _ _ _ eq_refl) as P3.
  cbn [nth_error] in *. injection P0 as ->. injection P1 as ->. injection P2 as ->. injection P3 as ->. reflexivity.
Qed.

(** C82: the input of Triangle made from a mesh *)
Theorem C82_input : forall leb shuffle gen2, (forall l, Permutation (shuffle l) l) -> forall m holes o2 ma gma gmi ren,
  consistent m -> coords_complete m -> ndim m = 2%nat -> simple_edges m -> (3 <= List.length (points m))%nat -> three_edges m ->
  exists t segs, call_trigen leb shuffle gen2 m holes o2 ma gma gmi ren =
      (let! out := gen2 t o2 true gma gmi in let! r := from_trigen out in if ren then renumber_mesh r false else Ok r) /\
    ti_points t = map (fun p => Some (pt_marker p, nth 0 (pt_coords p) 0, nth 1 (pt_coords p) 0)) (points m) /\
    ti_segments t = map Some segs /\
    StronglySorted lex (map (fun s => (Nat.min (snd (fst s)) (snd s), Nat.max (snd (fst s)) (snd s))) segs) /\
    (forall mk a b, In (mk, a, b) segs -> edge_marker m a b mk /\ exists ce, first_with (has_edge m a b) ce /\ edge_of m (fst ce) (snd ce) a b) /\
    (forall a b, (exists ce, has_edge m a b ce) -> exists mk p q, In (mk, p, q) segs /\ same_pair a b p q) /\
    ti_regions t = map (fun c => Some (c_marker c, mean (cell_coord m c 0), mean (cell_coord m c 1), entry ma (c_marker c))) (cells m) /\
    ti_holes t = map Some holes.
Proof.
  intros leb shuffle gen2 Sh m holes o2 ma gma gmi ren C K D SE L3 T3. destruct (C21_new_total R leb shuffle Sh m true C K (or_introl D)) as (ft & HF).
  apply trigen_run; auto. exists ft. split; [exact HF|]. eapply three_listed; eauto.
Qed.
Print Assumptions C82_input.
Theorem C82_errors : forall leb shuffle gen2, (forall l, Permutation (shuffle l) l) -> forall m holes o2 ma gma gmi ren,
  (ndim m <> 2%nat -> exists e, call_trigen leb shuffle gen2 m holes o2 ma gma gmi ren = Err e) /\
  (consistent m -> coords_complete m -> ndim m = 2%nat ->
   (exists a b ce cl, first_with (has_edge m a b) ce /\ In cl (cells m) /\ c_id cl = fst ce /\ kind_edge_nnode (c_kind cl) <> 2%nat) ->
   exists e, call_trigen leb shuffle gen2 m holes o2 ma gma gmi ren = Err e).
Proof.
  intros leb shuffle gen2 Sh m holes o2 ma gma gmi ren. split.
  - intros N. unfold call_trigen. apply Nat.eqb_neq in N. rewrite N. eexists. reflexivity.
  - intros C K D X. destruct (C21_new_total R leb shuffle Sh m true C K (or_introl D)) as (ft & HF). eapply trigen_quadratic; eauto.
Qed.
Print Assumptions C82_errors.
(* a square made of two triangles, one marked edge *)
Definition ex_sq : mesh R := mkMesh 2 [mkPoint 0 0%Z [0; 0]; mkPoint 1 (-1)%Z [1; 0]; mkPoint 2 0%Z [1; 1]; mkPoint 3 0%Z [0; 1]]
  [mkCell 0 1%Z Tri3 [0; 1; 3]%nat; mkCell 1 2%Z Tri3 [1; 2; 3]%nat] [((-10)%Z, 0, 1)%nat] [].
Ltac small_mesh := split; [intros [|[|[|[|[|i]]]]] ? H; try discriminate H; try (destruct i; discriminate H); injection H as <-; reflexivity|
  intros [|[|[|i]]] ? H; try discriminate H; try (destruct i; discriminate H); injection H as <-; (split; [reflexivity|]; split; [reflexivity|]; cbn; intros; lia)].
Example C82_ex : consistent ex_sq /\ coords_complete ex_sq /\ ndim ex_sq = 2%nat /\ simple_edges ex_sq /\ (3 <= List.length (points ex_sq))%nat /\ three_edges ex_sq /\
  edge_marker ex_sq 0 1 (-10).
Proof.
  split; [small_mesh|]. split; [intros p [<-|[<-|[<-|[<-|[]]]]]; reflexivity|]. split; [reflexivity|]. split; [intros c [<-|[<-|[]]] _; reflexivity|]. split; [cbn; lia|]. split.
  - exists 0%nat, 1%nat, 1%nat, 3%nat, 3%nat, 0%nat.
    assert (EO : forall e a b, (e < 3)%nat -> nth_error [0; 1; 3]%nat (edge_node_id Tri3 e 0) = Some a -> nth_error [0; 1; 3]%nat (edge_node_id Tri3 e 1) = Some b -> exists ce, has_edge ex_sq a b ce).
    { intros e a b He E1 E2. exists (0%nat, e). exists a, b. split; [|left; auto]. exists (mkCell 0 1%Z Tri3 [0; 1; 3]%nat). cbn [fst snd c_id c_kind c_points].
      split; [now left|]. repeat (split; [reflexivity || exact He|]). auto. }
    split; [|split; [|split]].
    + destruct (EO 0%nat 1%nat 0%nat) as (ce & u & v & A & B); [lia|reflexivity|reflexivity|]. exists ce, u, v. split; [exact A|]. unfold same_pair in *. lia.
    + destruct (EO 1%nat 3%nat 1%nat) as (ce & u & v & A & B); [lia|reflexivity|reflexivity|]. exists ce, u, v. split; [exact A|]. unfold same_pair in *. lia.
    + destruct (EO 2%nat 0%nat 3%nat) as (ce & u & v & A & B); [lia|reflexivity|reflexivity|]. exists ce, u, v. split; [exact A|]. unfold same_pair in *. lia.
    + unfold same_pair. lia.
  - left. exists [], [], 0%nat, 1%nat. split; [reflexivity|]. split; [unfold same_pair; lia|]. intros ? ? ? [].
Qed.
(* the point of a region is the mean of the points of the cell: it lies outside of a cell that is not convex *)
Definition in_triangle (a b c p : R * R) : Prop := exists u v w, 0 <= u /\ 0 <= v /\ 0 <= w /\ u + v + w = 1 /\
  fst p = u * fst a + v * fst b + w * fst c /\ snd p = u * snd a + v * snd b + w * snd c.
Definition dart : mesh R := mkMesh 2 [mkPoint 0 0%Z [0; 0]; mkPoint 1 0%Z [10; -10]; mkPoint 2 0%Z [1; 0]; mkPoint 3 0%Z [10; 10]] [mkCell 0 1%Z Qua4 [0; 1; 2; 3]%nat] [] [].
Theorem C82_region_inside_refuted : forall leb shuffle gen2, (forall l, Permutation (shuffle l) l) ->
  exists m t x y, consistent m /\ coords_complete m /\ (forall o2 gma gmi, call_trigen leb shuffle gen2 m [] o2 None gma gmi false = (let! out := gen2 t o2 true gma gmi in from_trigen out)) /\
    cells m = [mkCell 0 1%Z Qua4 [0; 1; 2; 3]%nat] /\ points m = [mkPoint 0 0%Z [0; 0]; mkPoint 1 0%Z [10; -10]; mkPoint 2 0%Z [1; 0]; mkPoint 3 0%Z [10; 10]] /\
    ti_regions t = [Some (1%Z, x, y, None)] /\ ~ in_triangle (0, 0) (10, -10) (1, 0) (x, y) /\ ~ in_triangle (0, 0) (1, 0) (10, 10) (x, y).
Proof.
  intros leb shuffle gen2 Sh. exists dart.
  assert (C : consistent dart) by small_mesh. assert (K : coords_complete dart) by (intros p [<-|[<-|[<-|[<-|[]]]]]; reflexivity).
  assert (SE : simple_edges dart) by (intros c [<-|[]] _; reflexivity).
  assert (T3 : three_edges dart).
  { exists 0%nat, 1%nat, 1%nat, 2%nat, 2%nat, 3%nat.
    assert (EO : forall e a b, (e < 4)%nat -> nth_error [0; 1; 2; 3]%nat (edge_node_id Qua4 e 0) = Some a -> nth_error [0; 1; 2; 3]%nat (edge_node_id Qua4 e 1) = Some b -> has_edge dart a b (0%nat, e)).
    { intros e a b He E1 E2. exists a, b. split; [|left; auto]. exists (mkCell 0 1%Z Qua4 [0; 1; 2; 3]%nat). cbn [fst snd c_id c_kind c_points]. split; [now left|]. repeat (split; [reflexivity || exact He|]). auto. }
    split; [|split; [|split]].
    + destruct (EO 0%nat 1%nat 0%nat) as (u & v & A & B); [lia|reflexivity|reflexivity|]. exists (0%nat, 0%nat), u, v. split; [exact A|]. unfold same_pair in *. lia.
    + destruct (EO 1%nat 2%nat 1%nat) as (u & v & A & B); [lia|reflexivity|reflexivity|]. exists (0%nat, 1%nat), u, v. split; [exact A|]. unfold same_pair in *. lia.
    + destruct (EO 2%nat 3%nat 2%nat) as (u & v & A & B); [lia|reflexivity|reflexivity|]. exists (0%nat, 2%nat), u, v. split; [exact A|]. unfold same_pair in *. lia.
    + unfold same_pair. lia. }
  destruct (C21_new_total R leb shuffle Sh dart true C K (or_introl eq_refl)) as (ft & HF).
  exists (mkTriIn (map (fun p => Some (fpoint p)) (points dart)) (map Some (segs ft)) (map (fun c => Some (fregion dart None c)) (cells dart)) (map Some [])), (21 / 4), 0.
  split; [exact C|]. split; [exact K|]. split.
  { intros o2 gma gmi. unfold call_trigen. change (negb (ndim dart =? 2)%nat) with false. cbv iota zeta. rewrite HF. cbn [bind].
    pose proof (three_listed leb shuffle dart ft Sh C eq_refl HF T3) as L3. unfold trigen_new. change (List.length (points dart) <? 3)%nat with false. cbv iota. rewrite (proj2 (Nat.ltb_ge _ 3%nat) L3). cbn [bind].
    rewrite (points_loop dart K eq_refl). cbn [bind]. rewrite (segments_loop leb shuffle Sh dart C eq_refl ft HF _ _ _ SE) by (now rewrite map_length). cbn [bind].
    rewrite (regions_loop dart C K eq_refl). cbn [bind]. rewrite holes_loop. cbn [bind]. destruct (gen2 _ _ _ _ _) as [out| | |]; cbn [bind]; try reflexivity.
    destruct (from_trigen out); reflexivity. }
  split; [reflexivity|]. split; [reflexivity|]. cbn [ti_regions]. split.
  - unfold dart at 2. cbn [cells map]. unfold fregion. cbn [c_marker]. f_equal. f_equal. f_equal. f_equal; [f_equal|].
    + unfold mean, cell_coord. cbn [c_points map nth_error dart points nth pt_coords fold_right List.length INR]. field.
    + unfold mean, cell_coord. cbn [c_points map nth_error dart points nth pt_coords fold_right List.length INR]. field.
  - split; intros (u & v & w & A & B & C' & S & X & Y); cbn [fst snd] in *; nra.
Qed.
Print Assumptions C82_region_inside_refuted.

(** C83: the input of Tetgen made from a mesh *)
Theorem C83_input : forall leb shuffle gen3, (forall l, Permutation (shuffle l) l) -> forall m regions holes o2 mv gmv gmi ren,
  consistent m -> coords_complete m -> ndim m = 3%nat -> no_quadratic_tets m -> (4 <= List.length (points m))%nat ->
  exists fl, let facets := map (fun c => (c_marker c, c_points c)) (filter (fun c => kind_ndim (c_kind c) =? 2)%nat (cells m)) ++ map snd fl in
    (StronglySorted lex_list (map fst fl) /\
     (forall k mk ps, In (k, (mk, ps)) fl -> StronglySorted le k /\ face_marker m k mk /\ exists cf kd, first_with (has_face m k) cf /\ face_nodes m (fst cf) (snd cf) kd ps) /\
     (forall k, StronglySorted le k -> (exists cf, has_face m k cf) -> exists mk ps, In (k, (mk, ps)) fl)) /\
    ((4 <= List.length facets)%nat -> (forall f, In f facets -> (3 <= List.length (snd f))%nat) ->
      call_tetgen leb shuffle gen3 m regions holes o2 mv gmv gmi ren =
      (let! out := gen3 (mkTetIn (map (fun p => Some (pt_marker p, nth 0 (pt_coords p) 0, nth 1 (pt_coords p) 0, nth 2 (pt_coords p) 0)) (points m))
                         (map (fun f => Some (fst f)) facets) (map (fun f => map Some (snd f)) facets)
                         (map (fun r => Some (r, entry mv (fst (fst (fst r))))) regions) (map Some holes)) o2 gmv gmi in
       let! r := from_tetgen out in if ren then renumber_mesh r false else Ok r)) /\
    (~ ((4 <= List.length facets)%nat /\ forall f, In f facets -> (3 <= List.length (snd f))%nat) -> exists e, call_tetgen leb shuffle gen3 m regions holes o2 mv gmv gmi ren = Err e).
Proof.
  intros leb shuffle gen3 Sh m regions holes o2 mv gmv gmi ren C K D Q L. apply (tetgen_run leb shuffle gen3 m regions holes o2 mv gmv gmi ren C K D Q L).
  exact (C21_new_total R leb shuffle Sh m true C K (or_intror D)).
Qed.
Print Assumptions C83_input.
Theorem C83_not_3d : forall leb shuffle gen3 m regions holes o2 mv gmv gmi ren, ndim m <> 3%nat -> exists e, call_tetgen leb shuffle gen3 m regions holes o2 mv gmv gmi ren = Err e.
Proof. intros leb shuffle gen3 m regions holes o2 mv gmv gmi ren N. unfold call_tetgen. apply Nat.eqb_neq in N. rewrite N. eexists. reflexivity. Qed.
Print Assumptions C83_not_3d.
(* four triangles around a tetrahedron *)
Definition ex_plc : mesh R := mkMesh 3 [mkPoint 0 0%Z [0; 0; 0]; mkPoint 1 (-1)%Z [1; 0; 0]; mkPoint 2 0%Z [0; 1; 0]; mkPoint 3 0%Z [0; 0; 1]]
  [mkCell 0 (-10)%Z Tri3 [0; 2; 1]%nat; mkCell 1 (-20)%Z Tri3 [0; 1; 3]%nat; mkCell 2 (-30)%Z Tri3 [0; 3; 2]%nat; mkCell 3 (-40)%Z Tri3 [1; 2; 3]%nat] [] [].
Example C83_ex : consistent ex_plc /\ coords_complete ex_plc /\ no_quadratic_tets ex_plc /\
  forall leb shuffle gen3, (forall l, Permutation (shuffle l) l) -> exists t, call_tetgen leb shuffle gen3 ex_plc [] [] false None None None false =
    (let! out := gen3 t false None None in let! r := from_tetgen out in Ok r) /\
    ei_facets t = [[Some 0; Some 2; Some 1]; [Some 0; Some 1; Some 3]; [Some 0; Some 3; Some 2]; [Some 1; Some 2; Some 3]]%nat /\
    ei_facet_markers t = [Some (-10); Some (-20); Some (-30); Some (-40)]%Z.
Proof.
  assert (C : consistent ex_plc).
  { split; [intros [|[|[|[|i]]]] ? H; try (destruct i; discriminate H); injection H as <-; reflexivity|].
    intros [|[|[|[|i]]]] ? H; try (destruct i; discriminate H); injection H as <-; (split; [reflexivity|]; split; [reflexivity|]; cbn; intros; lia). }
  assert (K : coords_complete ex_plc) by (intros p [<-|[<-|[<-|[<-|[]]]]]; reflexivity).
  assert (Q : no_quadratic_tets ex_plc) by (intros c [<-|[<-|[<-|[<-|[]]]]]; split; discriminate).
  split; [exact C|]. split; [exact K|]. split; [exact Q|]. intros leb shuffle gen3 Sh.
  destruct (C83_input leb shuffle gen3 Sh ex_plc [] [] false None None None false C K eq_refl Q ltac:(cbn; lia)) as (fl & H). cbv zeta in H. destruct H as ((_ & B & _) & H & _).
  assert (fl = []) as ->.
  { destruct fl as [|[k [mk ps]] fl]; [reflexivity|]. exfalso. destruct (B k mk ps (or_introl eq_refl)) as (_ & _ & cf & kd & _ & (cl & I & _ & D3 & _)).
    destruct I as [<-|[<-|[<-|[<-|[]]]]]; discriminate D3. }
  eexists. split; [apply H|].
  - cbn. lia.
  - intros f. cbn. intros [<-|[<-|[<-|[<-|[]]]]]; cbn; lia.
  - split; reflexivity.
Qed.

(** C84: quarter ring in 2D *)
Theorem C84_polygon : forall rmin rmax nr na, (1 <= nr)%nat -> (1 <= na)%nat -> let n := (2 * nr + 2 * na)%nat in
  exists t, ring_input rmin rmax nr na = Ok t /\
    ti_points t = map (fun i => Some (ring_corner_marker nr na i, fst (ring_corner rmin rmax nr na i), snd (ring_corner rmin rmax nr na i))) (seq 0 n) /\
    ti_segments t = map (fun i => Some (ring_side_marker nr na i, i, (i + 1) mod n)%nat) (seq 0 n) /\
    ti_regions t = [Some (1%Z, rmin + / 10 ^ 4, / 10 ^ 4, None)] /\ ti_holes t = [].
Proof. exact ring_polygon. Qed.
Print Assumptions C84_polygon.
Theorem C84_corners : forall rmin rmax nr na, 0 < rmin -> rmin < rmax -> (1 <= nr)%nat -> (1 <= na)%nat ->
  let n := (2 * nr + 2 * na)%nat in let P := ring_corner rmin rmax nr na in
  (forall i j, (i < j < n)%nat -> P i <> P j) /\
  forall i, (i < n)%nat -> let q := P ((i + 1) mod n)%nat in
    (ring_side_marker nr na i = (-7)%Z -> snd (P i) = 0 /\ snd q = 0) /\
    (ring_side_marker nr na i = (-6)%Z -> fst (P i) ^ 2 + snd (P i) ^ 2 = rmax ^ 2 /\ fst q ^ 2 + snd q ^ 2 = rmax ^ 2) /\
    (ring_side_marker nr na i = (-8)%Z -> fst (P i) = 0 /\ fst q = 0) /\
    (ring_side_marker nr na i = (-5)%Z -> fst (P i) ^ 2 + snd (P i) ^ 2 = rmin ^ 2 /\ fst q ^ 2 + snd q ^ 2 = rmin ^ 2).
Proof.
  intros rmin rmax nr na H0 H1 Hr Ha. cbv zeta. split; [intros i j Hij; apply corners_differ; auto; lia|]. intros i Hi. exact (corner_places rmin rmax nr na i Hr Ha Hi).
Qed.
Print Assumptions C84_corners.
(* the point that makes Triangle keep the region is inside of the polygon if the ring is thick enough *)
Theorem C84_region_point : forall rmin rmax nr na, 0 < rmin -> rmin + 2 / 10 ^ 4 < rmax -> (1 <= nr)%nat -> (1 <= na)%nat ->
  let s := (rmin + / 10 ^ 4, / 10 ^ 4) in
  0 < fst s /\ 0 < snd s /\ rmin < radius [fst s; snd s] /\
  forall i, (nr <= i < nr + na)%nat -> left_of (ring_corner rmin rmax nr na i) (ring_corner rmin rmax nr na (i + 1)) s.
Proof. exact seed_inside. Qed.
Print Assumptions C84_region_point.
(* it is outside of thin rings *)
Theorem C84_region_point_refuted : exists rmin rmax t x y, 0 < rmin /\ rmin < rmax /\ ring_input rmin rmax 1 1 = Ok t /\
  ti_regions t = [Some (1%Z, x, y, None)] /\ rmax < radius [x; y].
Proof.
  exists 1, (1 + / 10 ^ 5). destruct (ring_polygon 1 (1 + / 10 ^ 5) 1 1 (le_n 1) (le_n 1)) as (t & E & _ & _ & Rg & _). exists t, (1 + / 10 ^ 4), (/ 10 ^ 4).
  assert (0 < / 10 ^ 5) by (apply Rinv_0_lt_compat, pow_lt; lra). split; [lra|]. split; [lra|]. split; [exact E|]. split; [exact Rg|].
  unfold radius. cbn [nth]. rewrite <- (sqrt_pow2 (1 + / 10 ^ 5)) by lra. apply sqrt_lt_1; [apply pow2_ge_0| |]; lra.
Qed.
Print Assumptions C84_region_point_refuted.
Theorem C84_result : forall leb shuffle gen2 rmin rmax nr na target gma t out,
  (1 <= nr)%nat -> (1 <= na)%nat -> 0 <= rmin -> 0 <= rmax -> target = Tri3 \/ target = Tri6 ->
  ring_input rmin rmax nr na = Ok t -> gen2 t (3 <? kind_nnode target)%nat true gma None = Ok out -> tri_fine out -> tri_in_range out ->
  exists m, quarter_ring_2d leb shuffle gen2 rmin rmax nr na target gma false = Ok m /\ consistent m /\ coords_complete m /\ ndim m = 2%nat /\
    holds_cells (to_cells out) (if (to_nnode out =? 6)%nat then Tri6 else Tri3) m /\
    marked_edges m = filter (fun s => negb (fst (fst s) =? 0)%Z) (to_segments out) /\ marked_faces m = [] /\ List.length (points m) = List.length (to_points out) /\
    (forall i mk x y, nth_error (to_points out) i = Some (mk, x, y) -> exists pt, nth_error (points m) i = Some pt /\ placed rmin rmax (mkPoint i mk [x; y]) pt) /\
    quarter_ring_2d leb shuffle gen2 rmin rmax nr na target gma true = renumber_mesh m false.
Proof.
  intros leb shuffle gen2 rmin rmax nr na target gma t out Hr Ha H0 H1 Ht Et Eo Fi Rg.
  destruct (ring2_result leb shuffle gen2 rmin rmax nr na target gma Hr Ha t out H0 H1 Ht Et Eo Fi Rg) as (m & E & A1 & A2 & A3 & A4 & A5 & A6 & A7 & A8).
  exists m. repeat (split; [assumption|]). rewrite (ring2_renumber leb shuffle gen2 rmin rmax nr na target gma Hr Ha Ht), E. reflexivity.
Qed.
Print Assumptions C84_result.
(* targets with 10 and 15 nodes: the mesh is converted; renumbering is not done and the marked edges are lost *)
Theorem C84_converted : forall leb shuffle gen2 rmin rmax nr na target gma t out, (forall l, Permutation (shuffle l) l) ->
  (1 <= nr)%nat -> (1 <= na)%nat -> 0 <= rmin -> 0 <= rmax -> target = Tri10 \/ target = Tri15 ->
  ring_input rmin rmax nr na = Ok t -> gen2 t true true gma None = Ok out -> tri_fine out -> tri_in_range out -> to_nnode out = 6%nat ->
  exists m0 d, from_trigen out = Ok m0 /\ (forall ren, quarter_ring_2d leb shuffle gen2 rmin rmax nr na target gma ren = Ok d) /\
    consistent d /\ coords_complete d /\ ndim d = 2%nat /\ marked_edges d = [] /\ List.length (cells d) = List.length (to_cells out) /\
    (forall c mk ps, nth_error (to_cells out) c = Some (mk, ps) -> exists dc, nth_error (cells d) c = Some dc /\ c_marker dc = mk /\ c_kind dc = target) /\
    (forall r mk c z ps e a pt, two_per_edge m0 -> / 10 ^ 10 <= r -> ((mk = (-5)%Z /\ r = rmin) \/ (mk = (-6)%Z /\ r = rmax)) ->
      nth_error (to_cells out) c = Some (z, ps) -> on_edge target e a -> (forall n ne, (n < c)%nat -> ~ shares m0 c e n ne) ->
      (exists x y, nth_error (to_points out) (nth (edge_node_id Tri6 e 2) ps 0%nat) = Some (mk, x, y)) ->
      (forall j, (j < 3)%nat -> on_arc out r mk (nth (edge_node_id Tri6 e j) ps 0%nat)) ->
      node_point d c a pt -> pt_marker pt = mk /\ on_circle r (pt_coords pt)).
Proof.
  intros leb shuffle gen2 rmin rmax nr na target gma t out Sh Hr Ha H0 H1 Ht Et Eo Fi Rg N6.
  destruct (ring2_converted leb shuffle Sh gen2 rmin rmax nr na target gma Hr Ha t out H0 H1 Ht Et Eo Fi Rg N6) as (m0 & d & A1 & A2 & A3 & A4 & A5 & A6 & A7 & A8 & _ & A9).
  exists m0, d. repeat (split; [assumption|]). exact A9.
Qed.
Print Assumptions C84_converted.
Theorem C84_errors : forall leb shuffle gen2 rmin rmax nr na target gma ren,
  ((nr < 1)%nat \/ (na < 1)%nat \/ kind_class target <> CTri -> exists e, quarter_ring_2d leb shuffle gen2 rmin rmax nr na target gma ren = Err e) /\
  ((1 <= nr)%nat -> (1 <= na)%nat -> kind_class target = CTri -> forall e, (forall t, gen2 t (3 <? kind_nnode target)%nat true gma None = Err e) ->
     quarter_ring_2d leb shuffle gen2 rmin rmax nr na target gma ren = Err e).
Proof.
  intros leb shuffle gen2 rmin rmax nr na target gma ren. split.
  - intros H. unfold quarter_ring_2d. destruct (nr <? 1)%nat eqn:E1; [eexists; reflexivity|]. destruct (na <? 1)%nat eqn:E2; [eexists; reflexivity|].
    apply Nat.ltb_ge in E1, E2. destruct H as [H|[H|H]]; [lia|lia|]. replace (class_eqb (kind_class target) CTri) with false by (destruct target; try reflexivity; destruct (H eq_refl)). eexists. reflexivity.
  - intros Hr Ha Ht e He. rewrite (ring2_unfold leb shuffle gen2 rmin rmax nr na target gma Hr Ha ren Ht). destruct (ring_polygon rmin rmax nr na Hr Ha) as (t & E & _). rewrite E. cbn [bind]. rewrite He. reflexivity.
Qed.
Print Assumptions C84_errors.
(* the output of a generator with one segment of each side; all hypotheses hold *)
Definition ex_tri6 : tri_out := mkTriOut
  [((-1)%Z, 1, 0); ((-3)%Z, 2, 0); ((-4)%Z, 0, 2); ((-2)%Z, 0, 1); ((-7)%Z, 3 / 2, 0); ((-6)%Z, 1, 1); (0%Z, 1 / 2, 1); ((-8)%Z, 0, 3 / 2); ((-5)%Z, 1 / 2, 1 / 2)] 6
  [(1%Z, [0; 1; 2; 4; 5; 6]%nat); (1%Z, [0; 2; 3; 6; 7; 8]%nat)] [((-7)%Z, 0, 1)%nat; ((-6)%Z, 1, 2)%nat; ((-8)%Z, 2, 3)%nat; ((-5)%Z, 3, 0)%nat; (0%Z, 0, 2)%nat].
Lemma ex_tri6_fine : tri_fine ex_tri6 /\ tri_in_range ex_tri6.
Proof.
  split; [split; [cbn; lia|]; split; [cbn; lia|]; split; [now right|]; intros o [<-|[<-|[]]]; reflexivity|].
  intros o p [<-|[<-|[]]] Hp; cbn in *; lia.
Qed.
Example C84_ex : forall leb shuffle, (forall l, Permutation (shuffle l) l) -> let gen2 := fun _ _ _ _ _ => Ok ex_tri6 in
  (exists m pt, quarter_ring_2d leb shuffle gen2 1 2 1 1 Tri6 None false = Ok m /\ nth_error (points m) 8 = Some pt /\ on_circle 1 (pt_coords pt)) /\
  exists d, quarter_ring_2d leb shuffle gen2 1 2 1 1 Tri15 None false = Ok d /\ consistent d.
Proof.
  intros leb shuffle Sh gen2. destruct ex_tri6_fine as (F & Rg). destruct (ring_polygon 1 2 1 1 (le_n 1) (le_n 1)) as (t & E & _). split.
  - destruct (C84_result leb shuffle gen2 1 2 1 1 Tri6 None t ex_tri6 (le_n 1) (le_n 1) ltac:(lra) ltac:(lra) (or_intror eq_refl) E eq_refl F Rg) as (m & E1 & _ & _ & _ & _ & _ & _ & _ & P & _).
    destruct (P 8%nat (-5)%Z (1 / 2) (1 / 2) eq_refl) as (pt & G & (_ & _ & Q & _)). exists m, pt. split; [exact E1|]. split; [exact G|]. apply Q; [reflexivity|].
    unfold radius. cbn [pt_coords nth]. apply Rgt_not_eq, sqrt_lt_R0. lra.
  - destruct (C84_converted leb shuffle gen2 1 2 1 1 Tri15 None t ex_tri6 Sh (le_n 1) (le_n 1) ltac:(lra) ltac:(lra) (or_intror eq_refl) E eq_refl F Rg eq_refl) as (m0 & d & _ & A & B & _). exists d. auto.
Qed.
(* renumbering: the marked edges keep the old numbers and leave their circles *)
Lemma ring_renumbered a a' b b' c c' d d' rmin rmax : let out := mkTriOut [((-1)%Z, a, a'); ((-3)%Z, b, b'); ((-4)%Z, c, c'); ((-2)%Z, d, d')] 3
    [(1%Z, [0; 1; 2]%nat); (1%Z, [0; 2; 3]%nat)] [((-7)%Z, 0, 1)%nat; ((-6)%Z, 1, 2)%nat; ((-8)%Z, 2, 3)%nat; ((-5)%Z, 3, 0)%nat; (0%Z, 0, 2)%nat] in
  (let! m := from_trigen out in renumber_mesh (apply_constraints m rmin rmax) false) =
  Ok (mkMesh 2 [mkPoint 0 (-3)%Z [b; b']; mkPoint 1 (-4)%Z [c; c']; mkPoint 2 (-1)%Z [a; a']; mkPoint 3 (-2)%Z [d; d']]
        [mkCell 0 1%Z Tri3 [2; 0; 1]%nat; mkCell 1 1%Z Tri3 [2; 1; 3]%nat] [((-7)%Z, 0, 1)%nat; ((-6)%Z, 1, 2)%nat; ((-8)%Z, 2, 3)%nat; ((-5)%Z, 3, 0)%nat] []).
Proof. vm_compute. reflexivity. Qed.
Theorem C84_renumber_refuted : forall leb shuffle, exists gen2 m p q, quarter_ring_2d leb shuffle gen2 1 2 1 1 Tri3 None true = Ok m /\
  (forall t o2 g mi an, gen2 t o2 g mi an = Ok ex_tri) /\ consistent m /\ In ((-5)%Z, 3, 0)%nat (marked_edges m) /\
  nth_error (points m) 3 = Some p /\ nth_error (points m) 0 = Some q /\ radius (pt_coords p) = 1 /\ radius (pt_coords q) = 2.
Proof.
  intros leb shuffle. exists (fun _ _ _ _ _ => Ok ex_tri). pose proof (ring_renumbered 1 0 2 0 0 2 0 1 1 2) as E. cbv zeta in E. fold ex_tri in E.
  eexists _, _, _. split.
  - rewrite ring2_unfold by (reflexivity || apply le_n). destruct (ring_polygon 1 2 1 1 (le_n 1) (le_n 1)) as (t & Et & _). rewrite Et. cbn [bind]. exact E.
  - split; [reflexivity|]. split; [small_mesh|]. split; [cbn; auto 8|]. split; [reflexivity|]. split; [reflexivity|]. unfold radius. cbn [pt_coords nth]. split.
    + replace (0 ^ 2 + 1 ^ 2) with (1 ^ 2) by ring. apply sqrt_pow2. lra.
    + replace (2 ^ 2 + 0 ^ 2) with (2 ^ 2) by ring. apply sqrt_pow2. lra.
Qed.
Print Assumptions C84_renumber_refuted.

(** C85: quarter ring in 3D *)
Theorem C85_solid : forall rmin rmax thickness nr na, (1 <= nr)%nat -> (1 <= na)%nat -> let n := (2 * nr + 2 * na)%nat in
  exists t, ring_input_3d rmin rmax thickness nr na = Ok t /\
    ei_points t = map (fun i => Some (ring_point rmin rmax thickness nr na i)) (seq 0 (2 * n)) /\
    ei_facets t = map (map Some) (ring_facets nr na) /\
    ei_facet_markers t = map (fun f => Some (ring_facet_marker na f)) (seq 0 (4 + 2 * na)) /\
    ei_regions t = [Some (1%Z, rmin + / 10 ^ 4, / 10 ^ 4, / 10 ^ 4, None)] /\ ei_holes t = [].
Proof. exact ring_solid. Qed.
Print Assumptions C85_solid.
Theorem C85_closed : forall nr na, (1 <= nr)%nat -> (1 <= na)%nat -> closed_surface (ring_facets nr na).
Proof. exact ring_closed. Qed.
Print Assumptions C85_closed.
Theorem C85_places : forall rmin rmax thickness nr na f p, (1 <= nr)%nat -> (1 <= na)%nat -> (f < 4 + 2 * na)%nat -> In p (ring_facet nr na f) ->
  let '(_, x, y, z) := ring_point rmin rmax thickness nr na p in let mk := ring_facet_marker na f in
  (p < 2 * (2 * nr + 2 * na))%nat /\
  (mk = (-9)%Z -> z = 0) /\ (mk = (-10)%Z -> z = thickness) /\ (mk = (-7)%Z -> y = 0) /\ (mk = (-8)%Z -> x = 0) /\
  (mk = (-5)%Z -> x ^ 2 + y ^ 2 = rmin ^ 2) /\ (mk = (-6)%Z -> x ^ 2 + y ^ 2 = rmax ^ 2).
Proof.
  intros rmin rmax thickness nr na f p Hr Ha Hf Hp. pose proof (facet_places rmin rmax thickness nr na f p Hr Ha Hf Hp) as H. cbv zeta in H.
  destruct (ring_point rmin rmax thickness nr na p) as [[[mk x] y] z]. exact H.
Qed.
Print Assumptions C85_places.
(* higher markers have priority: the marker of a point is the greatest of its own and those of its faces *)
Theorem C85_result : forall gen3 rmin rmax thickness nr na target gmv t out,
  (1 <= nr)%nat -> (1 <= na)%nat -> target = Tet4 \/ target = Tet10 -> 0 < thickness -> 0 <= rmin -> 0 <= rmax ->
  ring_input_3d rmin rmax thickness nr na = Ok t -> gen3 t (4 <? kind_nnode target)%nat gmv None = Ok out -> tet_fine out -> tet_in_range out ->
  let k := (if (4 <? kind_nnode target)%nat then 6 else 3)%nat in
  (forall f, In f (eo_faces out) -> fst f <> 0%Z /\ (k <= List.length (snd f))%nat) ->
  exists m, quarter_ring_3d gen3 rmin rmax thickness nr na target gmv false = Ok m /\ consistent m /\ coords_complete m /\ ndim m = 3%nat /\
    holds_cells (eo_cells out) (if (eo_nnode out =? 10)%nat then Tet10 else Tet4) m /\ marked_edges m = [] /\
    marked_faces m = map (fun f => (fst f, nth 0 (snd f) 0%nat, nth 1 (snd f) 0%nat, nth 2 (snd f) 0%nat, None)) (eo_faces out) /\
    List.length (points m) = List.length (eo_points out) /\
    (forall i mk x y z, nth_error (eo_points out) i = Some (mk, x, y, z) -> exists pt, nth_error (points m) i = Some pt /\
      let own := (if (mk =? 1)%Z then 0%Z else mk) in
      (pt_marker pt = own \/ on_face k (eo_faces out) (pt_marker pt) i) /\
      (own <> 0%Z -> (own <= pt_marker pt)%Z /\ pt_marker pt <> 0%Z) /\
      (forall f, on_face k (eo_faces out) f i -> (f <= pt_marker pt)%Z /\ pt_marker pt <> 0%Z) /\
      placed rmin rmax (mkPoint i (pt_marker pt) [x; y; z]) pt) /\
    quarter_ring_3d gen3 rmin rmax thickness nr na target gmv true = renumber_mesh m false.
Proof.
  intros gen3 rmin rmax thickness nr na target gmv t out Hr Ha Ht Hz H0 H1 Et Eo Fi Rg k Hf.
  destruct (ring3_result gen3 rmin rmax thickness nr na target gmv Hr Ha Ht Hz t out H0 H1 Et Eo Fi Rg Hf) as (m & E & A1 & A2 & A3 & A4 & A5 & A6 & A7 & A8).
  exists m. repeat (split; [assumption|]). rewrite (ring3_renumber gen3 rmin rmax thickness nr na target gmv Hr Ha Ht Hz), E. reflexivity.
Qed.
Print Assumptions C85_result.
(* points on the inner surface are marked -5 (and moved to the cylinder) unless they have a corner marker *)
Theorem C85_inner : forall k faces i (base z : Z), (forall f, In f faces -> (-10 <= fst f <= -5)%Z) -> (base = 0%Z \/ (base <= -5)%Z) ->
  (z = base \/ on_face k faces z i) -> (forall f, on_face k faces f i -> (f <= z)%Z /\ z <> 0%Z) -> on_face k faces (-5)%Z i -> z = (-5)%Z.
Proof. intros k faces i base z A B C D E. exact (face_on_cylinder k faces i base z (-5)%Z A B C D E eq_refl). Qed.
Print Assumptions C85_inner.
Theorem C85_errors : forall gen3 rmin rmax thickness nr na target gmv ren,
  (nr < 1)%nat \/ (na < 1)%nat \/ thickness <= 0 \/ (target <> Tet4 /\ target <> Tet10) -> exists e, quarter_ring_3d gen3 rmin rmax thickness nr na target gmv ren = Err e.
Proof.
  intros gen3 rmin rmax thickness nr na target gmv ren H. unfold quarter_ring_3d. destruct (nr <? 1)%nat eqn:E1; [eexists; reflexivity|]. destruct (na <? 1)%nat eqn:E2; [eexists; reflexivity|].
  apply Nat.ltb_ge in E1, E2. destruct (Rleb thickness 0) eqn:E3; [eexists; reflexivity|]. destruct (negb (class_eqb _ _)) eqn:E4; [eexists; reflexivity|].
  destruct H as [H|[H|[H|(H & H')]]]; [lia|lia| |].
  - exfalso. unfold Rleb in E3. destruct (Rle_dec thickness 0); [discriminate|contradiction].
  - replace (kind_eqb target Tet4) with false by (destruct target; try reflexivity; contradiction). replace (kind_eqb target Tet10) with false by (destruct target; try reflexivity; contradiction). eexists. reflexivity.
Qed.
Print Assumptions C85_errors.
(* the point of the region is above solids with a thickness below its height *)
Theorem C85_region_point_refuted : exists thickness t x y z, 0 < thickness /\ ring_input_3d 1 2 thickness 1 1 = Ok t /\
  ei_regions t = [Some (1%Z, x, y, z, None)] /\ thickness < z.
Proof.
  exists (/ 10 ^ 5). destruct (ring_solid 1 2 (/ 10 ^ 5) 1 1 (le_n 1) (le_n 1)) as (t & E & _ & _ & _ & Rg & _). exists t, (1 + / 10 ^ 4), (/ 10 ^ 4), (/ 10 ^ 4).
  split; [apply Rinv_0_lt_compat, pow_lt; lra|]. split; [exact E|]. split; [exact Rg|]. lra.
Qed.
Print Assumptions C85_region_point_refuted.
Example C85_ex : let gen3 := fun _ _ _ _ => Ok ex_tet in exists m pt, quarter_ring_3d gen3 1 2 1 1 1 Tet4 None false = Ok m /\
  nth_error (points m) 2 = Some pt /\ pt_marker pt = (-5)%Z /\ on_circle 1 (pt_coords pt).
Proof.
  intros gen3. destruct ex_tet_fine as (F & Rg). destruct (ring_solid 1 2 1 1 1 (le_n 1) (le_n 1)) as (t & E & _).
  destruct (C85_result gen3 1 2 1 1 1 Tet4 None t ex_tet (le_n 1) (le_n 1) (or_introl eq_refl) ltac:(lra) ltac:(lra) ltac:(lra) E eq_refl F Rg) as (m & E1 & _ & _ & _ & _ & _ & _ & _ & P & _).
  { intros f [<-|[<-|[<-|[<-|[]]]]]; cbn; (split; [lia|lia]). }
  destruct (P 2%nat 0%Z 1 1 0 eq_refl) as (pt & G & A & B & C & D). exists m, pt. split; [exact E1|]. split; [exact G|].
  assert (M : pt_marker pt = (-5)%Z).
  { apply (C85_inner 3 (eo_faces ex_tet) 2 0%Z); auto.
    - intros f [<-|[<-|[<-|[<-|[]]]]]; cbn; lia.
    - exists ((-5)%Z, [0; 3; 2]%nat). split; [cbn; auto|]. split; [reflexivity|]. cbn. auto. }
  split; [exact M|]. destruct D as (_ & _ & Q & _). apply Q; [exact M|]. unfold radius. cbn [pt_coords nth]. apply Rgt_not_eq, sqrt_lt_R0. lra.
Qed.
