(* Normal vectors of the edges and faces of the features of a mesh; the checks of normal vectors. *)
From Coq Require Import String Reals QArith Qreals List Lia Lra Bool Arith ZArith Permutation.
From Verif Require Import Base BaseFacts Expr ExprProof ShapesData Kind MeshModel GraphModel MeshQuerySpec TopoModel TopoSpec TopoProof TopoFeat3
  ShapesModel ShapesSpec ShapesProof ShapesShared
  GeomModel GeomProof PadModel PadSpec PadProof PadProof2 PadProof3 PadProof4 GaussSpec NormalModel NormalSpec NormalProof NormalProof2 NormalProof3.
Import ListNotations.
Local Open Scope list_scope.
Local Open Scope R_scope.

Lemma map_some_nth {A} (f : nat -> option A) n ps : map f (seq 0 n) = map Some ps ->
  List.length ps = n /\ forall i, (i < n)%nat -> f i = nth_error ps i.
Proof.
  intros H. assert (L : List.length ps = n) by (apply (f_equal (@List.length _)) in H; rewrite !map_length, seq_length in H; auto).
  split; auto. intros i Hi. apply (f_equal (fun l => nth i l None)) in H.
  rewrite (nth_map_in _ _ _ 0%nat) in H by now rewrite seq_length. rewrite seq_nth in H by auto. cbn [Nat.add] in H.
  rewrite H. destruct (nth_error ps i) as [x|] eqn:E.
  - rewrite (nth_map_in _ _ _ x) by lia. f_equal. symmetry. now rewrite (nth_error_nth _ _ x E).
  - apply nth_error_None in E. lia.
Qed.

(* pads of a cell and of one of its sides *)
Lemma side_pads m cl kd ps (g : nat -> nat) : consistent m -> coords_complete m -> (ndim m = 2 \/ ndim m = 3)%nat ->
  In cl (cells m) -> (kind_ndim (c_kind cl) <= ndim m)%nat -> (kind_ndim kd <= ndim m)%nat ->
  map (fun i => nth_error (c_points cl) (g i)) (seq 0 (kind_nnode kd)) = map Some ps ->
  exists p s, get_pad m (c_id cl) = Ok p /\ pad_of_side m kd ps s /\ pad_wf p /\ p_kind p = c_kind cl /\ p_space p = ndim m /\
    p_kind s = kd /\ side_pad p s g /\ element_of m cl p.
Proof.
  intros C K Dm Hc Dc Dk E. destruct (map_some_nth _ _ _ E) as (L & N).
  destruct (get_pad_ok m (c_id cl) cl C K Dm (cell_by_id m cl C Hc) Dc) as (p & Ep & Hp & _).
  destruct (pad_new_ok (ndim m) kd Dm Dk) as (p0 & E0 & W0 & K0 & S0 & _).
  pose proof C as (_ & C2). destruct (C2 _ _ (cell_by_id m cl C Hc)) as (_ & Lc & Rc).
  assert (R : forall q, In q ps -> (q < List.length (points m))%nat).
  { intros q Hq. apply In_nth_error in Hq as (i & Hi). assert (Li : (i < kind_nnode kd)%nat) by (rewrite <- L; apply nth_error_Some; congruence).
    specialize (N i Li). rewrite Hi in N. apply Rc. eapply nth_error_In; eauto. }
  destruct (mesh_set_pad_points m (mkCell 0 0%Z kd ps) p0 K L R W0 K0 S0) as (s & Es & Hs & _). cbn [c_points] in Es.
  exists p, s. split; auto. split; [exists p0; auto|]. pose proof Hp as (Wp & Kp & Sp & Xp). destruct Hs as (Ws & Ks & Ss & Xs). cbn [c_points c_kind] in *.
  do 4 (split; [assumption|]). split; [|exact Hp]. split; auto. split; [congruence|]. intros i j Hi Hj. rewrite Ks in Hj. rewrite Sp in Hi.
  specialize (N j Hj). destruct (nth_error ps j) as [id|] eqn:Eid; [|apply nth_error_None in Eid; lia].
  assert (Hid : (id < List.length (points m))%nat) by (apply R; eapply nth_error_In; eauto).
  destruct (nth_error (points m) id) as [pt|] eqn:Ept; [|apply nth_error_None in Ept; lia].
  rewrite (Xs j id pt i Eid Ept Hi), (Xp (g j) id pt i N Ept Hi). reflexivity.
Qed.

Section Features.
Variables (leb : R -> R -> bool) (shuffle : emap -> emap).
Hypothesis Sh : forall l, Permutation (shuffle l) l.

Lemma edges_outward m ea ft : consistent m -> coords_complete m -> ndim m = 2%nat ->
  features_new leb shuffle m ea = Ok ft -> forall a b ed, get_edge ft a b = Ok ed ->
  exists c e p s, has_edge m a b (c, e) /\ (ea = false -> forall ce, has_edge m a b ce -> ce = (c, e)) /\
    get_pad m c = Ok p /\ pad_of_side m (e_kind ed) (e_points ed) s /\
    forall z, exists xi mag un q,
      (-1 <= z <= 1 -> in_ref_cell (kind_class (p_kind p)) (nth 0 xi 0) (nth 1 xi 0) 0) /\
      (forall i, (i < 2)%nat -> pos s [z] i = pos p xi i) /\
      calc_normal_vector s 2 [z] = Ok (mag, un, q) /\
      forall j, jacobian_of p xi j ->
        (0 < det 2 j -> 0 < mag /\ points_out p xi un) /\ (det 2 j < 0 -> 0 < mag /\ points_in p xi un).
Proof.
  intros C K D F a b ed G. destruct (edges_2d leb shuffle Sh m ea ft C D F) as (_ & _ & Wt & Dt).
  destruct (Dt a b ed G) as (_ & ce & (He & Hf) & En). destruct ce as [c e]. cbn [fst snd] in En.
  destruct En as (cl & Hc & Ic & Dc & Hlt & Ek & Em).
  rewrite (edge_nnode_kind _ _ Ek) in Em.
  destruct (side_pads m cl (e_kind ed) (e_points ed) (edge_node_id (c_kind cl) e) C K (or_introl D) Hc) as (p & s & Ep & Es & Wp & Kp & Sp & Ks & Sd & _); auto; try lia.
  { rewrite (edge_kind_dim _ _ Ek). lia. }
  exists c, e, p, s. split; auto. split.
  { intros -> ce' H'. destruct (proj1 (Wt a b) (ex_intro _ ed G)) as (_ & (x & _ & U)). rewrite <- (U _ H'). apply U. exact He. }
  split; [congruence|]. split; auto. intros z. rewrite <- Kp in *. rewrite D in Sp.
  destruct (normal_total s [z]) as (mag & un & q & N); [apply Sd|rewrite Ks, (edge_kind_dim _ _ Ek); destruct Sd as (_ & -> & _); rewrite Sp; reflexivity|].
  replace (p_space s) with 2%nat in N by (destruct Sd as (_ & -> & _); auto).
  exists (edge_xi (p_kind p) e z), mag, un, q. split.
  { intros Hz. clear -Dc Hlt Hz. destruct (p_kind p); try discriminate Dc; vm_compute in Hlt;
      do 4 (try (destruct e as [|e]; [cbn; unfold Q2R; simpl; lra|])); lia. }
  split; [intros i Hi; apply edge_pos; auto; [congruence|lia]|]. split; [exact N|].
  apply (edge_normal p s e z mag un q); auto. congruence.
Qed.

Lemma faces_outward m ea ft : consistent m -> coords_complete m -> ndim m = 3%nat ->
  features_new leb shuffle m ea = Ok ft -> forall ps fc, get_face ft (sort4 ps) = Ok fc ->
  exists c f p s, has_face4 m ps (c, f) /\ (ea = false -> forall cf, has_face4 m ps cf -> cf = (c, f)) /\
    get_pad m c = Ok p /\ pad_of_side m (f_kind fc) (f_points fc) s /\
    forall r t, exists xi mag un q,
      (in_ref_cell (kind_class (p_kind s)) r t 0 -> in_ref_cell (kind_class (p_kind p)) (nth 0 xi 0) (nth 1 xi 0) (nth 2 xi 0)) /\
      (forall i, (i < 3)%nat -> pos s [r; t] i = pos p xi i) /\
      calc_normal_vector s 3 [r; t] = Ok (mag, un, q) /\
      forall j, jacobian_of p xi j ->
        (0 < det 3 j -> 0 < mag /\ points_out p xi un) /\ (det 3 j < 0 -> 0 < mag /\ points_in p xi un).
Proof.
  intros C K D F ps fc G. destruct (faces_3d leb shuffle m ea ft C D F) as (_ & Wt & _ & Dt & _).
  destruct (Dt ps fc G) as (_ & cf & (He & Hf) & En). destruct cf as [c f]. cbn [fst snd] in En.
  destruct En as (cl & Hc & Ic & Dc & Hlt & Ek & Em).
  rewrite (face_nnode_kind _ _ Ek) in Em.
  destruct (side_pads m cl (f_kind fc) (f_points fc) (face_node_id (c_kind cl) f) C K (or_intror D) Hc) as (p & s & Ep & Es & Wp & Kp & Sp & Ks & Sd & _); auto; try lia.
  { rewrite (proj1 (face_kind_dim _ _ Ek)). lia. }
  exists c, f, p, s. split; auto. split.
  { intros -> cf' H'. destruct (proj1 (Wt ps) (ex_intro _ fc G)) as (x & _ & U). rewrite <- (U _ H'). apply U. exact He. }
  split; [congruence|]. split; auto. intros r t. rewrite <- Kp in *. rewrite D in Sp. rewrite <- Ks in Ek.
  destruct (normal_total s [r; t]) as (mag & un & q & N); [apply Sd|rewrite (proj1 (face_kind_dim _ _ Ek)); destruct Sd as (_ & -> & _); rewrite Sp; reflexivity|].
  replace (p_space s) with 3%nat in N by (destruct Sd as (_ & -> & _); auto).
  exists (face_point (p_kind p) f r t), mag, un, q. split.
  { revert Ek Hlt. clear. generalize (p_kind s) as fk. intros fk Ek Hlt.
    destruct (p_kind p); try discriminate Ek; injection Ek as <-; vm_compute in Hlt; cbn [kind_class in_ref_cell]; intros Hz;
      do 6 (try (destruct f as [|f]; [cbn; unfold Q2R; simpl; lra|])); lia. }
  split; [intros i Hi; apply face_pos; auto; lia|]. split; [exact N|].
  apply (face_normal p s f r t mag un q); auto.
Qed.
End Features.
