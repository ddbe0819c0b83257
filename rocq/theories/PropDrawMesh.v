(* Properties C90 to C93: what Draw shows of a mesh besides the outlines of single cells. *)
From Coq Require Import String Reals QArith Qreals List Arith Bool ZArith Lia Lra Permutation.
From Verif Require Import Base BaseFacts ShapesData Kind MeshModel GraphModel MeshQuerySpec TopoModel TopoSpec TopoProof TopoFinal ShapesModel ShapesSpec GeomModel PadModel PadSpec PadProof
  TriSurfModel TriSurfSpec DrawModel DrawSpec DrawMeshModel DrawMeshSpec DrawMeshProof4 DrawMeshProof5 DrawMeshProof6 DrawMeshProof7 DrawMeshProof8 PropPad PropDraw.
Import ListNotations.
Local Open Scope list_scope.
Local Open Scope R_scope.

(* two squares side by side; the common edge and a boundary edge are marked *)
Definition squares : mesh R :=
  mkMesh 2 [mkPoint 0 0%Z [0; 0]; mkPoint 1 0%Z [1; 0]; mkPoint 2 0%Z [2; 0]; mkPoint 3 0%Z [0; 1]; mkPoint 4 0%Z [1; 1]; mkPoint 5 (-3)%Z [2; 1]]
    [mkCell 0 1%Z Qua4 [0; 1; 4; 3]%nat; mkCell 1 2%Z Qua4 [1; 2; 5; 4]%nat] [((-7)%Z, 4%nat, 1%nat); ((-8)%Z, 2%nat, 5%nat)] [].
Lemma squares_ok : consistent squares /\ coords_complete squares.
Proof.
  split; [split|].
  - intros i p H. do 6 (destruct i as [|i]; [injection H as <-; reflexivity|]). destruct i; discriminate.
  - intros i c H. do 2 (destruct i as [|i]; [injection H as <-; split; [reflexivity|split; [reflexivity|]]; intros q Hq; cbn in Hq |- *; lia|]). destruct i; discriminate.
  - intros p H. cbn in H. do 6 (destruct H as [<-|H]; [reflexivity|]). destruct H.
Qed.
Lemma squares_edge a b c e : has_edge squares a b (c, e) -> exists p q, same_pair a b p q /\
  In (c, e, p, q) [(0, 0, 1, 0); (0, 1, 4, 1); (0, 2, 3, 4); (0, 3, 0, 3); (1, 0, 2, 1); (1, 1, 5, 2); (1, 2, 4, 5); (1, 3, 1, 4)]%nat.
Proof.
  intros (p & q & (cl & Hc & Ei & _ & He & Ep & Eq) & S2). exists p, q. split; [exact S2|]. cbn [fst snd] in *. cbn [cells squares In] in Hc.
  destruct Hc as [<-|[<-|[]]]; cbn [c_id c_kind c_points] in *; subst c; change (kind_nedge Qua4) with 4%nat in He;
    do 4 (destruct e as [|e]; [vm_compute in Ep, Eq; injection Ep as <-; injection Eq as <-; cbn; tauto|]); lia.
Qed.
Lemma squares_has c e p q : In (c, e, p, q) [(0, 0, 1, 0); (0, 1, 4, 1); (0, 2, 3, 4); (0, 3, 0, 3); (1, 0, 2, 1); (1, 1, 5, 2); (1, 2, 4, 5); (1, 3, 1, 4)]%nat -> has_edge squares p q (c, e).
Proof.
  intros H. exists p, q. split; [|left; auto]. cbn [fst snd]. cbn [In] in H.
  repeat (destruct H as [H|H]; [injection H as <- <- <- <-;
    first [solve [exists (mkCell 0 1%Z Qua4 [0; 1; 4; 3]%nat); split; [left; reflexivity|vm_compute; repeat split; lia]]
          |exists (mkCell 1 2%Z Qua4 [1; 2; 5; 4]%nat); split; [right; left; reflexivity|vm_compute; repeat split; lia]]|]). destruct H.
Qed.
Lemma squares_lone : forall y, has_edge squares 2 5 y <-> y = (1, 1)%nat.
Proof.
  intros [c e]. split.
  - intros H. destruct (squares_edge _ _ _ _ H) as (p & q & S2 & I). cbn [In] in I. unfold same_pair in S2.
    repeat (destruct I as [I|I]; [injection I as <- <- <- <-; first [reflexivity|exfalso; lia]|]). destruct I.
  - intros [= -> ->]. destruct (squares_has 1 1 5 2) as (p & q & E & S2); [cbn; tauto|]. exists p, q. split; [exact E|]. unfold same_pair in *. lia.
Qed.

(* the point x is missing from the list l *)
Ltac not_in x Pq l := assert (Z : In x l) by (eapply Permutation_in; [exact Pq|cbn; tauto]); cbn in Z; lia.

(** C90: in the plane, normal_vectors draws one arrow for each edge that belongs to one cell only, and no other.  The arrow starts at the
    middle of the edge, its length is the multiplier times the diagonal of the box around the listed points, and it points out of the
    cell (into the cell where the cell is inverted). *)
Theorem C90_plane : forall shuffle sh2 sh3 big mult m ea ft, (forall l, Permutation (shuffle l) l) -> (forall l, Permutation (sh2 l) l) ->
  consistent m -> coords_complete m -> ndim m = 2%nat -> features_new Rleb shuffle m ea = Ok ft ->
  exists arrows own d, normal_vectors sh2 sh3 big mult m ft = Ok arrows /\ NoDup own /\
    (forall ce, In ce own <-> exists a b, forall y, has_edge m a b y <-> y = ce) /\ Forall2 (edge_arrow m (mult * d)) own arrows /\
    (arrows <> [] -> diagonal m (fun p => In p (ft_points ft)) d).
Proof. intros shuffle sh2 sh3 big mult m ea ft Sh Sh2. exact (normals_plane shuffle Sh sh2 sh3 big mult m ea ft Sh2). Qed.
Print Assumptions C90_plane.
Example C90_plane_ex : exists ft arrows d, features_new Rleb (fun l => l) squares false = Ok ft /\
  normal_vectors (fun l => l) (fun l => l) 0 (1/10) squares ft = Ok arrows /\ (exists ar, In ar arrows /\ edge_arrow squares (1/10 * d) (1, 1)%nat ar).
Proof.
  destruct squares_ok as (C & K). assert (P : forall A (l : list A), Permutation l l) by (intros; apply Permutation_refl).
  destruct (new_total Rleb (fun l => l) (fun l => P _ l) squares false C K (or_introl eq_refl)) as (ft & F).
  destruct (C90_plane (fun l => l) (fun l => l) (fun l => l) 0 (1/10) squares false ft (fun l => P _ l) (fun l => P _ l) C K eq_refl F) as (arrows & own & d & E & N & O & A & _).
  exists ft, arrows, d. split; auto. split; auto.
  assert (H : In (1, 1)%nat own) by (apply O; exists 2%nat, 5%nat; exact squares_lone).
  clear - A H. induction A as [|x y l l' Hx A IH]; [destruct H|]. destruct H as [->|H]; [exists y; split; [now left|auto]|]. destruct (IH H) as (ar & H1 & H2). exists ar. split; [now right|auto].
Qed.

(** in space: one arrow for each face that belongs to one solid only, and then one for each shell.  The former start at the middle of the face
    and point out of the solid; the latter are orthogonal to the shell, on the side given by the right-hand rule *)
Theorem C90_space : forall shuffle sh2 sh3 big mult m ea ft, (forall l, Permutation (shuffle l) l) -> (forall l, Permutation (sh3 l) l) ->
  consistent m -> coords_complete m -> ndim m = 3%nat -> features_new Rleb shuffle m ea = Ok ft ->
  exists af ash own d, normal_vectors sh2 sh3 big mult m ft = Ok (af ++ ash) /\ NoDup own /\ (forall cf, In cf own <-> lone_face m cf) /\
    Forall2 (face_arrow m (mult * d)) own af /\
    Forall2 (fun cl ar => shell_arrow m (mult * d) (c_id cl) ar) (filter (fun cl => (kind_ndim (c_kind cl) =? 2)%nat) (cells m)) ash /\
    (af ++ ash <> [] -> diagonal m (fun p => In p (ft_points ft)) d).
Proof. intros shuffle sh2 sh3 big mult m ea ft Sh Sh3. exact (normals_space shuffle Sh sh2 sh3 big mult m ea ft Sh3). Qed.
Print Assumptions C90_space.
Example C90_space_ex (X : nat -> list R) : (forall i, List.length (X i) = 3%nat) ->
  exists ft ar d, features_new Rleb (fun l => l) (one_cell 3 Tri6 X) false = Ok ft /\
    normal_vectors (fun l => l) (fun l => l) 0 (1/10) (one_cell 3 Tri6 X) ft = Ok [ar] /\ shell_arrow (one_cell 3 Tri6 X) (1/10 * d) 0 ar.
Proof.
  intros LX. destruct (one_cell_ok 3 Tri6 X LX) as (C & K). assert (P : forall A (l : list A), Permutation l l) by (intros; apply Permutation_refl).
  destruct (new_total Rleb (fun l => l) (fun l => P _ l) _ false C K (or_intror eq_refl)) as (ft & F).
  destruct (C90_space (fun l => l) (fun l => l) (fun l => l) 0 (1/10) _ false ft (fun l => P _ l) (fun l => P _ l) C K eq_refl F) as (af & ash & own & d & E & N & O & A & B & _).
  assert (own = []).
  { destruct own as [|cf own]; auto. exfalso. destruct (proj1 (O cf) (or_introl eq_refl)) as (ps & U).
    destruct (proj2 (U cf) eq_refl) as (qs & (cl & [<-|[]] & _ & D3 & _) & _). discriminate D3. }
  subst own. inversion A; subst. cbn [filter cells one_cell c_kind] in B. change (kind_ndim Tri6 =? 2)%nat with true in B. cbn [c_id] in B.
  inversion B as [|? ar ? l' H1 H2]; subst. inversion H2; subst. exists ft, ar, d. auto.
Qed.
(* a solid: each of the faces of a single solid is drawn *)
Example C90_solid_ex (X : nat -> list R) : (forall i, List.length (X i) = 3%nat) ->
  exists ft arrows d, features_new Rleb (fun l => l) (one_cell 3 Hex8 X) false = Ok ft /\
    normal_vectors (fun l => l) (fun l => l) 0 (1/10) (one_cell 3 Hex8 X) ft = Ok arrows /\ exists ar, In ar arrows /\ face_arrow (one_cell 3 Hex8 X) (1/10 * d) (0, 2)%nat ar.
Proof.
  intros LX. destruct (one_cell_ok 3 Hex8 X LX) as (C & K). assert (P : forall A (l : list A), Permutation l l) by (intros; apply Permutation_refl).
  destruct (new_total Rleb (fun l => l) (fun l => P _ l) _ false C K (or_intror eq_refl)) as (ft & F).
  destruct (C90_space (fun l => l) (fun l => l) (fun l => l) 0 (1/10) _ false ft (fun l => P _ l) (fun l => P _ l) C K eq_refl F) as (af & ash & own & d & E & N & O & A & B & _).
  exists ft, (af ++ ash), d. split; auto. split; auto.
  assert (H : In (0, 2)%nat own).
  { apply O. exists [0; 1; 5; 4]%nat. intros [c f]. split.
    - intros (qs & (cl & [<-|[]] & Ei & _ & Hf & Eq) & Pq). cbn [fst snd c_id c_kind c_points one_cell] in *. subst c.
      change (kind_nface Hex8) with 6%nat in Hf. change (first_four Hex8) with 4%nat in Eq.
      do 6 (destruct f as [|f]; [try reflexivity; exfalso; vm_compute in Eq; destruct qs as [|q0 [|q1 [|q2 [|q3 [|]]]]]; try discriminate Eq; injection Eq as <- <- <- <-;
        match type of Pq with Permutation _ ?l => first [not_in 0%nat Pq l|not_in 1%nat Pq l|not_in 5%nat Pq l|not_in 4%nat Pq l] end|]); lia.
    - intros [= -> ->]. exists [0; 1; 5; 4]%nat. split; [|reflexivity]. eexists. split; [left; reflexivity|]. vm_compute. repeat split; lia. }
  clear - A H. induction A as [|x y l l' Hx A IH]; [destruct H|]. destruct H as [->|H]; [exists y; split; [now left|auto]|]. destruct (IH H) as (ar & H1 & H2). exists ar. split; [now right|auto].
Qed.

(** C91: in the plane, each marked edge that is among the edges of the features gets the label with its marker; the label is half way along a line
    that starts at the middle of the edge and points out of the cell, and the text runs along the line *)
Theorem C91_edges_plane : forall shuffle big mult tol m ea ft, (forall l, Permutation (shuffle l) l) ->
  consistent m -> coords_complete m -> ndim m = 2%nat -> 0 < tol -> features_new Rleb shuffle m ea = Ok ft ->
  exists sel ll d, edge_markers big mult tol m ft = Ok (map fst ll, map snd ll) /\
    (forall me, sel me = true <-> wanted ea (has_edge m (snd (fst me)) (snd me))) /\
    Forall2 (edge_label m (mult * d) tol) (filter sel (marked_edges m)) ll /\ (ll <> [] -> diagonal m (fun p => In p (ft_points ft)) d).
Proof. intros shuffle big mult tol m ea ft Sh. exact (edge_labels_plane shuffle Sh big mult tol m ea ft). Qed.
Print Assumptions C91_edges_plane.
Lemma squares_shared : ~ wanted false (has_edge squares 4 1).
Proof.
  intros (x & _ & U). assert (A : x = (0, 1)%nat) by (apply U, squares_has; cbn; tauto).
  assert (B : x = (1, 3)%nat). { apply U. destruct (squares_has 1 3 1 4) as (p & q & E & S2); [cbn; tauto|]. exists p, q. split; [exact E|]. unfold same_pair in *. lia. }
  congruence.
Qed.
Example C91_edges_plane_ex : exists ft lb ar, features_new Rleb (fun l => l) squares false = Ok ft /\
  edge_markers 0 (1/10) (1/1000) squares ft = Ok ([lb], [ar]) /\ lb_number lb = (-8)%Z.
Proof.
  destruct squares_ok as (C & K). assert (P : forall A (l : list A), Permutation l l) by (intros; apply Permutation_refl).
  destruct (new_total Rleb (fun l => l) (fun l => P _ l) squares false C K (or_introl eq_refl)) as (ft & F).
  destruct (C91_edges_plane (fun l => l) 0 (1/10) (1/1000) squares false ft (fun l => P _ l) C K eq_refl ltac:(lra) F) as (sel & ll & d & E & S1 & A & _).
  assert (S7 : sel ((-7)%Z, 4%nat, 1%nat) = false). { destruct (sel ((-7)%Z, 4%nat, 1%nat)) eqn:Q; auto. exfalso. apply S1 in Q. exact (squares_shared Q). }
  assert (S8 : sel ((-8)%Z, 2%nat, 5%nat) = true). { apply S1. cbn [fst snd]. exists (1, 1)%nat. split; [now apply squares_lone|]. intros y Hy. symmetry. now apply squares_lone. }
  cbn [marked_edges squares filter] in A. rewrite S7, S8 in A. inversion A as [|? [lb ar] ? l' H1 H2]; subst. inversion H2; subst.
  exists ft, lb, ar. split; auto. split; auto. destruct H1 as (ce & _ & _ & H1 & _). exact H1.
Qed.

(** in space, each marked edge gets its label at the middle of its end points *)
Theorem C91_edges_space : forall big mult tol m ft, coords_complete m -> ndim m = 3%nat ->
  (forall mk p q, In (mk, p, q) (marked_edges m) -> (p < List.length (points m))%nat /\ (q < List.length (points m))%nat) ->
  exists ls, edge_markers big mult tol m ft = Ok (ls, []) /\ Forall2 (mid_label m) (marked_edges m) ls.
Proof. exact edge_labels_space. Qed.
Print Assumptions C91_edges_space.

(** and each marked face that is among the faces of the features gets its label half way along a line that points out of the solid *)
Theorem C91_faces : forall shuffle big mult m ea ft, (forall l, Permutation (shuffle l) l) ->
  consistent m -> coords_complete m -> ndim m = 3%nat -> features_new Rleb shuffle m ea = Ok ft ->
  exists sel ll d, face_markers big mult m ft = Ok (map fst ll, map snd ll) /\
    (forall mf, sel mf = true <-> wanted ea (has_face4 m (marked_face_points mf))) /\
    Forall2 (face_label m (mult * d)) (filter sel (marked_faces m)) ll /\ (ll <> [] -> diagonal m (fun p => In p (ft_points ft)) d).
Proof. intros shuffle big mult m ea ft Sh. exact (face_labels shuffle Sh big mult m ea ft). Qed.
Print Assumptions C91_faces.

(* a tetrahedron with a marked face and a marked edge *)
Definition marked_tet : mesh R :=
  mkMesh 3 [mkPoint 0 0%Z [0; 0; 0]; mkPoint 1 0%Z [1; 0; 0]; mkPoint 2 0%Z [0; 1; 0]; mkPoint 3 0%Z [0; 0; 1]]
    [mkCell 0 1%Z Tet4 [0; 1; 2; 3]%nat] [((-5)%Z, 1%nat, 3%nat)] [((-9)%Z, 2%nat, 1%nat, 0%nat, None)].
Lemma marked_tet_ok : consistent marked_tet /\ coords_complete marked_tet.
Proof.
  split; [split|].
  - intros i p H. do 4 (destruct i as [|i]; [injection H as <-; reflexivity|]). destruct i; discriminate.
  - intros i c H. destruct i as [|i]; [injection H as <-; split; [reflexivity|split; [reflexivity|]]; intros q Hq; cbn in Hq |- *; lia|]. destruct i; discriminate.
  - intros p H. cbn in H. do 4 (destruct H as [<-|H]; [reflexivity|]). destruct H.
Qed.
Lemma tet_face : forall y, has_face4 marked_tet [2; 1; 0]%nat y <-> y = (0, 2)%nat.
Proof.
  intros [c f]. split.
  - intros (qs & (cl & [<-|[]] & Ei & _ & Hf & Eq) & Pq). cbn [fst snd c_id c_kind c_points] in *. subst c.
    change (kind_nface Tet4) with 4%nat in Hf. change (first_four Tet4) with 3%nat in Eq.
    do 4 (destruct f as [|f]; [try reflexivity; exfalso; vm_compute in Eq; destruct qs as [|q0 [|q1 [|q2 [|]]]]; try discriminate Eq; injection Eq as <- <- <-;
      match type of Pq with Permutation _ ?l => first [not_in 0%nat Pq l|not_in 1%nat Pq l|not_in 2%nat Pq l] end|]); lia.
  - intros [= -> ->]. exists [0; 2; 1]%nat. split; [eexists; split; [left; reflexivity|]; vm_compute; repeat split; lia|].
    apply (perm_trans (l' := [2; 0; 1]%nat)); [apply perm_skip, perm_swap|apply perm_swap].
Qed.
Example C91_space_ex : exists ft lb lf ar, features_new Rleb (fun l => l) marked_tet false = Ok ft /\
  edge_markers 0 (1/10) (1/1000) marked_tet ft = Ok ([lb], []) /\ lb_number lb = (-5)%Z /\ lb_pos lb = [1/2; 0; 1/2] /\
  face_markers 0 (1/10) marked_tet ft = Ok ([lf], [ar]) /\ lb_number lf = (-9)%Z.
Proof.
  destruct marked_tet_ok as (C & K). assert (P : forall A (l : list A), Permutation l l) by (intros; apply Permutation_refl).
  destruct (new_total Rleb (fun l => l) (fun l => P _ l) marked_tet false C K (or_intror eq_refl)) as (ft & F).
  destruct (C91_edges_space 0 (1/10) (1/1000) marked_tet ft K eq_refl) as (ls & E & A). { intros mk p q [[= <- <- <-]|[]]. cbn. lia. }
  inversion A as [|? lb ? l' H1 H2]; subst. inversion H2; subst.
  destruct (C91_faces (fun l => l) 0 (1/10) marked_tet false ft (fun l => P _ l) C K eq_refl F) as (sel & ll & d & E2 & S1 & A2 & _).
  assert (S9 : sel ((-9)%Z, 2%nat, 1%nat, 0%nat, None) = true).
  { apply S1. cbn [marked_face_points app]. 
    exists (0, 2)%nat. split; [now apply tet_face|]. intros y Hy. symmetry. now apply tet_face. }
  cbn [marked_faces marked_tet filter] in A2. rewrite S9 in A2. inversion A2 as [|? [lf ar] ? l2 B1 B2]; subst. inversion B2; subst.
  exists ft, lb, lf, ar. split; auto. split; auto. destruct H1 as (N & _ & _ & L & Hi). split; auto. split.
  - destruct (lb_pos lb) as [|x [|y [|z [|]]]]; try discriminate L.
    destruct (Hi 0%nat ltac:(lia)) as (a0 & b0 & (p0 & G0 & G0') & (q0 & H0 & H0') & X0). destruct (Hi 1%nat ltac:(lia)) as (a1 & b1 & (p1 & G1 & G1') & (q1 & I1 & I1') & X1).
    destruct (Hi 2%nat ltac:(lia)) as (a2 & b2 & (p2 & G2 & G2') & (q2 & I2 & I2') & X2). cbn [fst snd marked_tet points nth_error nth] in *.
    injection G0 as <-. injection H0 as <-. injection G1 as <-. injection I1 as <-. injection G2 as <-. injection I2 as <-. cbn [pt_coords nth_error] in *.
    injection G0' as <-. injection H0' as <-. injection G1' as <-. injection I1' as <-. injection G2' as <-. injection I2' as <-. subst x y z. repeat f_equal; lra.
  - split; auto. destruct B1 as (cf & _ & _ & B1 & _). exact B1.
Qed.

(** marked edges inside the domain are not shown in the plane: Draw::all takes the features of the boundary *)
Theorem C91_interior_refuted : exists m mk a b ce, consistent m /\ coords_complete m /\ ndim m = 2%nat /\ marked_edges m = [(mk, a, b)] /\ has_edge m a b ce /\
  forall big mult tol ft, 0 < tol -> features_new Rleb (fun l => l) m false = Ok ft -> edge_markers big mult tol m ft = Ok ([], []).
Proof.
  destruct squares_ok as (C & K). set (m := mkMesh 2 (points squares) (cells squares) [((-7)%Z, 4%nat, 1%nat)] []).
  exists m, (-7)%Z, 4%nat, 1%nat, (0, 1)%nat. split; [exact C|]. split; [exact K|]. split; [reflexivity|]. split; [reflexivity|].
  split; [exact (squares_has 0 1 4 1 ltac:(cbn; tauto))|]. intros big mult tol ft T F.
  destruct (C91_edges_plane (fun l => l) big mult tol m false ft (fun l => Permutation_refl l) C K eq_refl T F) as (sel & ll & d & E & S1 & A & _).
  assert (S7 : sel ((-7)%Z, 4%nat, 1%nat) = false). { destruct (sel ((-7)%Z, 4%nat, 1%nat)) eqn:Q; auto. exfalso. apply S1 in Q. exact (squares_shared Q). }
  cbn [marked_edges m filter] in A. rewrite S7 in A. inversion A; subst. exact E.
Qed.
Print Assumptions C91_interior_refuted.

(** C92: every point gets a dot, and a label with its id and, in parentheses, its marker unless this is zero *)
Theorem C92_points : forall show m, coords_complete m -> ndim m = 2%nat \/ ndim m = 3%nat ->
  point_dots m = Ok (map (fun p => pt_coords p) (points m)) /\ exists ls, point_ids show m = Ok ls /\ Forall2 (point_label m show) (points m) ls.
Proof. exact point_ids_ok. Qed.
Print Assumptions C92_points.
(** every cell gets a label with its id (and marker, zero or not) at a convex combination of its nodes *)
Theorem C92_cells : forall show m, consistent m -> coords_complete m -> ndim m = 2%nat \/ ndim m = 3%nat ->
  exists ls, cell_ids show m = Ok ls /\ Forall2 (cell_label m show) (cells m) ls.
Proof. exact cell_ids_ok. Qed.
Print Assumptions C92_cells.
Theorem C92_convex : forall k, convex (kind_nnode k) (label_weight k).
Proof. exact label_weight_convex. Qed.
Print Assumptions C92_convex.
Example C92_ex : exists ls lb lp, cell_ids true squares = Ok ls /\ nth_error ls 1 = Some lb /\ lb_number lb = 1%Z /\ lb_paren lb = Some 2%Z /\
  point_ids true squares = Ok (firstn 5 lp ++ skipn 5 lp) /\ option_map lb_paren (nth_error lp 5) = Some (Some (-3)%Z) /\ option_map lb_paren (nth_error lp 0) = Some None.
Proof.
  destruct squares_ok as (C & K). destruct (C92_cells true squares C K (or_introl eq_refl)) as (ls & E & A).
  destruct (C92_points true squares K (or_introl eq_refl)) as (_ & lp & E2 & A2).
  inversion A as [|? l0 ? t0 H0 A0]; subst. inversion A0 as [|? l1 ? t1 H1 A1]; subst. exists (l0 :: l1 :: t1), l1, lp. split; auto. split; [reflexivity|].
  destruct H1 as (N1 & P1 & _). split; [exact N1|]. split; [exact P1|]. rewrite firstn_skipn. split; [exact E2|].
  do 6 (let x := fresh "x" in let t := fresh "t" in let H := fresh "Hx" in let A' := fresh "A" in inversion A2 as [|? x ? t H A']; subst; clear A2; rename A' into A2).
  inversion A2; subst. cbn [nth_error option_map]. split; f_equal.
  - destruct Hx4 as (_ & _ & _ & Z). apply Z. cbn. repeat split. discriminate.
  - destruct Hx as (_ & _ & _ & Z). destruct (lb_paren x) as [z|] eqn:Ez; auto. exfalso. specialize (Z z). destruct Z as (Z & _). destruct (Z eq_refl) as (_ & -> & H). now apply H.
Qed.

(** the label of a cell that is an affine image of the reference cell is not on one of its nodes, but for lines *)
Theorem C92_off_nodes : forall p a b x, (2 <= kind_ndim (p_kind p))%nat -> affine_pad p a b -> injective (p_space p) (kind_ndim (p_kind p)) a ->
  combined p (label_weight (p_kind p)) x -> forall n, (n < kind_nnode (p_kind p))%nat -> exists i, (i < p_space p)%nat /\ nth i x 0 <> node_x p i n.
Proof. exact label_off_nodes. Qed.
Print Assumptions C92_off_nodes.

Example C92_off_nodes_ex : exists a b x, affine_pad (tri_pad true) a b /\ injective 2 2 a /\ combined (tri_pad true) (label_weight Tri3) x.
Proof.
  destruct C43_affine_ex as (a & b & A & D). exists a, b, [sum_n 3 (fun n => 1/3 * node_x (tri_pad true) 0 n); sum_n 3 (fun n => 1/3 * node_x (tri_pad true) 1 n)].
  split; [exact A|]. split.
  - intros v V. pose proof (V 0%nat ltac:(lia)) as V0. pose proof (V 1%nat ltac:(lia)) as V1. cbn in V0, V1, D.
    assert (Z0 : v 0%nat * (a 0%nat 0%nat * a 1%nat 1%nat - a 0%nat 1%nat * a 1%nat 0%nat) = 0).
    { transitivity (a 1%nat 1%nat * (a 0%nat 0%nat * v 0%nat + (a 0%nat 1%nat * v 1%nat + 0)) - a 0%nat 1%nat * (a 1%nat 0%nat * v 0%nat + (a 1%nat 1%nat * v 1%nat + 0))); [ring|]. rewrite V0, V1. ring. }
    assert (Z1 : v 1%nat * (a 0%nat 0%nat * a 1%nat 1%nat - a 0%nat 1%nat * a 1%nat 0%nat) = 0).
    { transitivity (a 0%nat 0%nat * (a 1%nat 0%nat * v 0%nat + (a 1%nat 1%nat * v 1%nat + 0)) - a 1%nat 0%nat * (a 0%nat 0%nat * v 0%nat + (a 0%nat 1%nat * v 1%nat + 0))); [ring|]. rewrite V0, V1. ring. }
    replace (a 0%nat 0%nat * a 1%nat 1%nat - a 0%nat 1%nat * a 1%nat 0%nat) with 6 in Z0, Z1 by (rewrite <- D; cbn; ring).
    intros j Hj. destruct j as [|[|j]]; [lra|lra|lia].
  - split; [reflexivity|]. intros i Hi. change (i < 2)%nat in Hi. assert (W : forall n, label_weight Tri3 n = 1/3) by (intros n; unfold label_weight; change (kind_nnode Tri3) with 3%nat; cbn [INR]; field).
    change (kind_nnode (p_kind (tri_pad true))) with 3%nat. destruct i as [|[|i]]; [| |lia]; cbn [nth]; apply sum_n_ext; intros n _; now rewrite W.
Qed.
(** lines are the exception: the label of a straight line with three nodes is on the node in the middle *)
Theorem C92_line_refuted : exists m lb p, consistent m /\ coords_complete m /\ cell_ids false m = Ok [lb] /\ In p (points m) /\ lb_pos lb = pt_coords p.
Proof.
  set (X := fun i => match i with 0%nat => [0; 0] | 1%nat => [2; 0] | _ => [1; 0] end).
  destruct (one_cell_ok 2 Lin3 X) as (C & K). { intros [|[|i]]; reflexivity. }
  destruct (C92_cells false (one_cell 2 Lin3 X) C K (or_introl eq_refl)) as (ls & E & A). inversion A as [|? lb ? t H A0]; subst. inversion A0; subst.
  exists (one_cell 2 Lin3 X), lb, (mkPoint 2 0%Z [1; 0]). split; [exact C|]. split; [exact K|]. split; [exact E|]. split; [vm_compute; tauto|].
  destruct (C88_line_plane (one_cell 2 Lin3 X) 0 _ C K eq_refl eq_refl eq_refl) as (q & _ & _ & _ & El & _).
  destruct H as (_ & _ & _ & H). specialize (H q El). destruct H as (L & H).
  assert (W : forall n, label_weight Lin3 n = 1/3) by (intros n; unfold label_weight; change (kind_nnode Lin3) with 3%nat; cbn [INR]; field).
  assert (N : forall i n, (i < 2)%nat -> (n < 3)%nat -> node_x q i n = nth i (X n) 0).
  { intros i n Hi Hn. rewrite (DrawMeshProof6.node_cx (one_cell 2 Lin3 X) _ q i n C K (or_introl eq_refl) El Hn Hi). destruct n as [|[|[|n]]]; [| | |lia]; reflexivity. }
  destruct El as (_ & Ek & Es & _). cbn [c_kind one_cell ndim] in *. rewrite Es in L, H. rewrite Ek in H. change (kind_nnode Lin3) with 3%nat in H.
  destruct (lb_pos lb) as [|x [|y [|]]]; try discriminate L. pose proof (H 0%nat ltac:(lia)) as H0. pose proof (H 1%nat ltac:(lia)) as H1.
  unfold sum_n in H0, H1. cbn [seq map sum fold_right nth] in H0, H1. rewrite !W, !N in H0, H1 by lia. cbn in H0, H1. cbn [pt_coords]. repeat f_equal; lra.
Qed.
Print Assumptions C92_line_refuted.

(** C93: the outlines of all cells are drawn, cell by cell; those of lines are kept apart.  In space, the shells and nothing else are also triangulated *)
Theorem C93_cells : forall m, consistent m -> coords_complete m -> ndim m = 2%nat \/ ndim m = 3%nat ->
  (forall cl, In cl (cells m) -> (kind_ndim (c_kind cl) <= ndim m)%nat) ->
  exists wire lines tri pss, draw_cells m = Ok (wire, lines, tri) /\
    Forall2 (fun cl ps => exists cmds, (forall cv, draw_cell m cv (c_id cl) = Ok (cv ++ cmds)) /\ draws cmds ps) (cells m) pss /\
    draws wire (concat (map snd (filter (fun x => negb (kind_ndim (c_kind (fst x)) =? 1)%nat) (combine (cells m) pss)))) /\
    draws lines (concat (map snd (filter (fun x => (kind_ndim (c_kind (fst x)) =? 1)%nat) (combine (cells m) pss)))) /\
    match tri with
    | None => ndim m = 2%nat \/ forall cl, In cl (cells m) -> kind_ndim (c_kind cl) <> 2%nat
    | Some tr => ndim m = 3%nat /\ exists lab, triangulates m (map (fun cl => (c_kind cl, c_points cl)) (filter (fun cl => (kind_ndim (c_kind cl) =? 2)%nat) (cells m))) tr lab
    end.
Proof. exact all_cells. Qed.
Print Assumptions C93_cells.
Example C93_cells_ex : exists wire tri, draw_cells squares = Ok (wire, [], tri) /\ tri = None /\ exists ps, draws wire ps /\ List.length ps = 2%nat.
Proof.
  destruct squares_ok as (C & K). destruct (C93_cells squares C K (or_introl eq_refl)) as (wire & lines & tri & pss & E & A & W & L & T).
  { intros cl [<-|[<-|[]]]; vm_compute; lia. }
  inversion A as [|? p0 ? t0 H0 A0]; subst. inversion A0 as [|? p1 ? t1 H1 A1]; subst. inversion A1; subst.
  cbn [combine filter cells squares fst c_kind] in W, L. change (kind_ndim Qua4 =? 1)%nat with false in W, L. cbn [negb map snd concat] in W, L.
  assert (lines = []) by (inversion L; reflexivity). subst lines. exists wire, tri. split; auto. split.
  { destruct tri as [tr|]; auto. destruct T as (T & _). discriminate T. }
  eexists. split; [exact W|]. destruct H0 as (c0 & G0 & D0), H1 as (c1 & G1 & D1).
  destruct (C88_plane squares 0 _ C K eq_refl eq_refl eq_refl) as (q0 & d0 & path0 & _ & _ & F0 & B0 & _).
  destruct (C88_plane squares 1 _ C K eq_refl eq_refl eq_refl) as (q1 & d1 & path1 & _ & _ & F1 & B1 & _).
  assert (d0 = c0). { pose proof (F0 []) as Z0. pose proof (G0 []) as Z0'. cbn [c_id app] in Z0, Z0'. congruence. }
  assert (d1 = c1). { pose proof (F1 []) as Z0. pose proof (G1 []) as Z0'. cbn [c_id app] in Z0, Z0'. congruence. }
  subst d0 d1. rewrite (C88_determined _ _ _ D0 B0), (C88_determined _ _ _ D1 B1). reflexivity.
Qed.

(** the boundary edges of solids are drawn as straight lines between their end points, each once *)
Theorem C93_boundary_edges : forall leb shuffle m ea ft, consistent m -> coords_complete m -> ndim m = 3%nat -> features_new leb shuffle m ea = Ok ft ->
  exists ks lines, boundary_edges_3d m ft = Ok lines /\ NoDup ks /\ Forall2 (line_of m) ks lines /\
    forall a b, In (a, b) ks <-> (a <= b)%nat /\ exists cf kd pts e p q, lone_face m cf /\ face_nodes m (fst cf) (snd cf) kd pts /\
      side_of kd pts e p q /\ same_pair a b p q.
Proof. exact boundary_lines. Qed.
Print Assumptions C93_boundary_edges.
(** and the faces that belong to one solid only are triangulated; nothing is drawn if there are none *)
Theorem C93_boundary_faces : forall leb shuffle sh3 m ea ft, (forall l, Permutation (sh3 l) l) ->
  consistent m -> coords_complete m -> ndim m = 3%nat -> features_new leb shuffle m ea = Ok ft ->
  exists own sf tr lab, draw_boundary_faces sh3 m ft = Ok (match t_tris tr with [] => None | _ => Some tr end) /\ NoDup own /\ (forall cf, In cf own <-> lone_face m cf) /\
    Forall2 (fun cf kp => face_nodes m (fst cf) (snd cf) (fst kp) (snd kp)) own sf /\ triangulates m sf tr lab.
Proof. exact boundary_surface. Qed.
Print Assumptions C93_boundary_faces.

Example C93_boundary_ex : exists ft lines tr, features_new Rleb (fun l => l) marked_tet false = Ok ft /\
  boundary_edges_3d marked_tet ft = Ok lines /\ In ([1; 0; 0], [0; 1; 0]) lines /\ draw_boundary_faces (fun l => l) marked_tet ft = Ok (Some tr).
Proof.
  destruct marked_tet_ok as (C & K). assert (P : forall A (l : list A), Permutation l l) by (intros; apply Permutation_refl).
  destruct (new_total Rleb (fun l => l) (fun l => P _ l) marked_tet false C K (or_intror eq_refl)) as (ft & F).
  destruct (C93_boundary_edges Rleb (fun l => l) marked_tet false ft C K eq_refl F) as (ks & lines & E & _ & A & B).
  destruct (C93_boundary_faces Rleb (fun l => l) (fun l => l) marked_tet false ft (fun l => P _ l) C K eq_refl F) as (own & sf & tr & lab & E2 & _ & O & N & T).
  assert (Fl : lone_face marked_tet (0, 2)%nat) by (exists [2; 1; 0]%nat; exact tet_face).
  assert (Ft : t_tris tr <> []).
  { apply O in Fl. destruct own as [|o own]; [destruct Fl|]. inversion N as [|? kp ? t H1 H2]; subst. destruct T as (_ & _ & _ & _ & _ & _ & T).
    destruct H1 as (cl & [<-|[]] & _ & _ & _ & Ek & _). injection Ek as Ek. destruct kp as [kd ps]. cbn [fst] in Ek. subst kd.
    intros Z. rewrite Z in T. inversion T. }
  exists ft, lines, tr. split; auto. split; auto. split.
  - assert (I : In (1, 2)%nat ks).
    { apply B. split; [lia|]. exists (0, 2)%nat, Tri3, [0; 2; 1]%nat, 1%nat, 1%nat, 2%nat. split; [exact Fl|]. split.
      - eexists. split; [left; reflexivity|]. vm_compute. repeat split; lia.
      - split; [vm_compute; repeat split; lia|left; auto]. }
    clear - A I. induction A as [|x y l l' H A IH]; [destruct I|]. destruct I as [->|I]; [|right; auto]. left. destruct y as [u v]. destruct H as (Lu & Lv & H). cbn [fst snd marked_tet ndim] in *.
    destruct u as [|u0 [|u1 [|u2 [|]]]]; try discriminate Lu. destruct v as [|v0 [|v1 [|v2 [|]]]]; try discriminate Lv.
    destruct (H 0%nat ltac:(lia)) as ((a0 & G0 & K0) & (b0 & H0 & L0)). destruct (H 1%nat ltac:(lia)) as ((a1 & G1 & K1) & (b1 & H1 & L1)). destruct (H 2%nat ltac:(lia)) as ((a2 & G2 & K2) & (b2 & H2 & L2)).
    cbn [points nth_error nth] in *. injection G0 as <-. injection H0 as <-. injection G1 as <-. injection H1 as <-. injection G2 as <-. injection H2 as <-. cbn [pt_coords nth_error] in *. congruence.
  - rewrite E2. destruct (t_tris tr); [now destruct Ft|reflexivity].
Qed.

(** Draw::all draws what is asked for, and only that; it neither fails nor panics *)
Theorem C93_all : forall shuffle sh2 sh3 sh3' big mn mm tol fl m,
  (forall l, Permutation (shuffle l) l) -> (forall l, Permutation (sh2 l) l) -> (forall l, Permutation (sh3 l) l) -> (forall l, Permutation (sh3' l) l) ->
  consistent m -> coords_complete m -> ndim m = 2%nat \/ ndim m = 3%nat -> (forall cl, In cl (cells m) -> (kind_ndim (c_kind cl) <= ndim m)%nat) -> 0 < tol ->
  (ndim m = 3%nat -> forall mk p q, In (mk, p, q) (marked_edges m) -> (p < List.length (points m))%nat /\ (q < List.length (points m))%nat) ->
  exists pc ft, draw_all shuffle sh2 sh3 sh3' big mn mm tol fl m = Ok pc /\ features_new Rleb shuffle m false = Ok ft /\
    when (sh_cells fl) (draw_cells m) = Ok (pc_cells pc) /\ when (sh_cell_ids fl) (cell_ids (sh_cell_marker fl) m) = Ok (pc_cell_ids pc) /\
    when (sh_points fl) (point_dots m) = Ok (pc_points pc) /\ when (sh_point_ids fl) (point_ids (sh_point_marker fl) m) = Ok (pc_point_ids pc) /\
    when (sh_edge_markers fl) (edge_markers big mm tol m ft) = Ok (pc_edge_markers pc) /\ when (sh_face_markers fl) (face_markers big mm m ft) = Ok (pc_face_markers pc) /\
    when (sh_normals fl) (normal_vectors sh2 sh3 big mn m ft) = Ok (pc_normals pc) /\ when (sh_boundary_faces fl) (draw_boundary_faces sh3' m ft) = Ok (pc_faces pc) /\
    when (sh_boundary_edges fl) (boundary_edges_3d m ft) = Ok (pc_edges pc).
Proof. exact all_drawn. Qed.
Print Assumptions C93_all.
Example C93_all_ex : let fl := mkFlags true true true true true true true true true true true in
  (exists pc, draw_all (fun l => l) (fun l => l) (fun l => l) (fun l => l) 0 (1/10) (1/10) (1/1000) fl squares = Ok pc) /\
  (exists pc, draw_all (fun l => l) (fun l => l) (fun l => l) (fun l => l) 0 (1/10) (1/10) (1/1000) fl marked_tet = Ok pc).
Proof.
  intros fl. assert (P : forall A (l : list A), Permutation l l) by (intros; apply Permutation_refl). destruct squares_ok as (C & K), marked_tet_ok as (C' & K'). split.
  - destruct (C93_all (fun l => l) (fun l => l) (fun l => l) (fun l => l) 0 (1/10) (1/10) (1/1000) fl squares) as (pc & ft & E & _); eauto; try (intros; apply P); try lra.
    + intros cl [<-|[<-|[]]]; vm_compute; lia.
    + discriminate.
  - destruct (C93_all (fun l => l) (fun l => l) (fun l => l) (fun l => l) 0 (1/10) (1/10) (1/1000) fl marked_tet) as (pc & ft & E & _); eauto; try (intros; apply P); try lra.
    + intros cl [<-|[]]; vm_compute; lia.
    + intros _ mk p q [[= <- <- <-]|[]]. cbn. lia.
Qed.
