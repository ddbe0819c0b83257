(* The arrows of boundary edges, boundary faces and shells. *)
From Coq Require Import String Reals QArith Qreals List Lia Lra Bool Arith ZArith Permutation Sorted.
From Verif Require Import Base BaseFacts Expr ExprProof ShapesData Kind MeshModel GraphModel MeshQuerySpec TopoModel TopoSpec TopoMaps TopoProof TopoFeat3 TopoFeat6 TopoFinal
  ShapesModel ShapesSpec ShapesProof ShapesShared GeomModel GeomProof PadModel PadSpec PadProof PadProof2 PadProof3 PadProof4 GaussSpec
  NormalModel NormalSpec NormalProof NormalProof2 NormalProof3 NormalProof4 NormalProof5 TriSurfModel DrawModel DrawSpec DrawProof DrawMeshModel DrawMeshSpec DrawMeshProof.
Import ListNotations.
Local Open Scope list_scope.
Local Open Scope R_scope.

Lemma foldM_arrows {A B} (step : list B -> A -> res (list B)) (sel : A -> bool) (P : A -> B -> Prop) l :
  (forall x acc, In x l -> if sel x then exists b, step acc x = Ok (acc ++ [b]) /\ P x b else step acc x = Ok acc) ->
  forall acc, exists bs, foldM step l acc = Ok (acc ++ bs) /\ Forall2 P (filter sel l) bs.
Proof.
  induction l as [|x l IH]; intros H acc; cbn [foldM filter]; [exists []; rewrite app_nil_r; auto|].
  pose proof (H x acc (or_introl eq_refl)) as Hx. destruct (sel x).
  - destruct Hx as (b & E & Pb). rewrite E. cbn [bind]. destruct (IH (fun y a Hy => H y a (or_intror Hy)) (acc ++ [b])) as (bs & Eb & F).
    exists (b :: bs). rewrite Eb, <- app_assoc. auto.
  - rewrite Hx. cbn [bind]. apply IH. intros y a Hy. apply H. now right.
Qed.

Lemma owners_list {K E B} (H : K -> nat * nat -> Prop) (Q : nat * nat -> B -> Prop) (l : list (K * E)) bs :
  NoDup (map fst l) -> (forall k k' ce, In k (map fst l) -> In k' (map fst l) -> H k ce -> H k' ce -> k = k') ->
  Forall2 (fun x b => exists ce, (forall y, H (fst x) y <-> y = ce) /\ Q ce b) l bs ->
  exists own, NoDup own /\ Forall2 Q own bs /\ forall ce, In ce own <-> exists k, In k (map fst l) /\ forall y, H k y <-> y = ce.
Proof.
  intros N I F. induction F as [|[k x] b l bs (ce & U & Qb) F IH].
  - exists []. split; [constructor|]. split; [constructor|]. intros ce. split; [intros []|intros (k & [] & _)].
  - cbn [map fst] in *. inversion N as [|? ? N1 N2]; subst. destruct IH as (own & D & FQ & M); auto.
    { intros k1 k2 c H1 H2. apply I; now right. }
    exists (ce :: own). split; [|split; [now constructor|]].
    + constructor; auto. intros Hin. apply M in Hin as (k' & Hk & U'). apply N1. assert (Ek : k = k') by (apply (I k k' ce); [now left|now right|now apply U|now apply U']). now rewrite Ek.
    + intros c. cbn [In]. rewrite M. split.
      * intros [<-|(k' & Hk & U')]; [exists k; auto|exists k'; auto].
      * intros (k' & [<-|Hk] & U'); [left; symmetry; apply U; now apply U'|right; eauto].
Qed.

Lemma nodup_filter {A B} (p : A * B -> bool) (l : list (A * B)) : NoDup (map fst l) -> NoDup (map fst (filter p l)).
Proof.
  intros N. induction l as [|x l IH]; [constructor|]. cbn [map] in N. inversion N; subst. cbn [filter]. destruct (p x); [|auto].
  cbn [map]. constructor; auto. intros F. apply in_map_iff in F as (y & E & F). apply filter_In in F as (F & _). apply H1. rewrite <- E. now apply in_map.
Qed.

Section Features.
Variables (leb : R -> R -> bool) (shuffle : emap -> emap).
Hypothesis Sh : forall l, Permutation (shuffle l) l.

Lemma edge_data m ea ft : consistent m -> coords_complete m -> ndim m = 2%nat ->
  features_new leb shuffle m ea = Ok ft -> forall a b ed, get_edge ft a b = Ok ed ->
  exists ce p, first_with (has_edge m a b) ce /\ get_pad m (fst ce) = Ok p /\ p_space p = 2%nat /\ sound_side m (e_kind ed) (e_points ed) /\
    kind_ndim (e_kind ed) = 1%nat /\ edge_marker m a b (e_marker ed) /\
    forall sd z, pad_of_side m (e_kind ed) (e_points ed) sd ->
      (forall i, (i < 2)%nat -> pos sd [z] i = pos p (edge_point (p_kind p) (snd ce) z) i) /\
      forall mag un q, calc_normal_vector sd 2 [z] = Ok (mag, un, q) -> (0 < mag -> unit_vector 2 un) -> outward p (edge_point (p_kind p) (snd ce) z) un.
Proof.
  intros C K D F a b ed G. destruct (edges_2d leb shuffle Sh m ea ft C D F) as (_ & _ & Wt & Dt).
  destruct (Dt a b ed G) as (Mk & ce & Hf & En). destruct En as (cl & Hc & Ic & Dc & Hlt & Ek & Em).
  pose proof Em as Em'. rewrite (edge_nnode_kind _ _ Ek) in Em.
  assert (D1 : kind_ndim (e_kind ed) = 1%nat) by now apply (edge_kind_dim _ _ Ek).
  destruct (side_pads m cl (e_kind ed) (e_points ed) (edge_node_id (c_kind cl) (snd ce)) C K (or_introl D) Hc) as (p & s & Ep & Es & Wp & Kp & Sp & Ks & Sd & _); auto; try lia.
  rewrite D in Sp. exists ce, p. split; auto. split; [congruence|]. split; auto. split.
  { split; [lia|]. destruct (map_some_nth _ _ _ Em) as (L & N). split; auto. intros q Hq. apply In_nth_error in Hq as (i & Hi).
    assert (Li : (i < kind_nnode (e_kind ed))%nat) by (rewrite <- L; apply nth_error_Some; congruence).
    specialize (N i Li). rewrite Hi in N. destruct (proj2 C _ _ (cell_by_id m cl C Hc)) as (_ & _ & Rc).
    apply Rc. eapply nth_error_In; eauto. }
  split; auto. split; auto. rewrite <- Kp in *. intros sd z Hsd.
  assert (sd = s) by (destruct Hsd as (p0 & A & B), Es as (p0' & A' & B'); congruence). subst sd.
  split; [intros i Hi; apply edge_pos; auto; [congruence|lia]|].
  intros mag un q N U j Hj. rewrite Sp.
  destruct (edge_normal p s (snd ce) z mag un q Wp Sp Dc ltac:(congruence) Hlt Sd N j Hj) as (A & B).
  split; intros P; [destruct (A P)|destruct (B P)]; auto.
Qed.

Lemma one_edge_arrow m ea ft s : consistent m -> coords_complete m -> ndim m = 2%nat ->
  features_new leb shuffle m ea = Ok ft -> forall a b ed, get_edge ft a b = Ok ed ->
  exists ce ar, first_with (has_edge m a b) ce /\ draw_arrow m (e_kind ed) (e_points ed) [0; 0; 0] s = Ok ar /\ edge_arrow m s ce ar.
Proof.
  intros C K D F a b ed G. destruct (edge_data m ea ft C K D F a b ed G) as (ce & p & Hf & Ep & Sp & Sd & D1 & _ & H).
  destruct (draw_arrow_ok m (e_kind ed) (e_points ed) [0; 0; 0] [0] s K (or_introl D) Sd) as (sd & mag & un & q & ar & Pd & El & N & U & E & A).
  { now rewrite D1. }
  { rewrite D1. intros j Hj. destruct j as [|j]; [reflexivity|lia]. }
  destruct (H sd 0 Pd) as (X & O). rewrite D in *. exists ce, ar. split; auto. split; auto. exists p, un. split; auto. split.
  - destruct A as (L1 & L2 & L3 & A). pose proof El as (_ & _ & Ss & _). rewrite D in Ss. rewrite Ss in *. unfold arrow_at. rewrite Sp.
    do 3 (split; [assumption|]). intros i Hi. rewrite <- X by auto. now apply A.
  - eapply O; eauto.
Qed.

Lemma has_edge_key (m : mesh R) a b a' b' ce : consistent m -> (a <= b)%nat -> (a' <= b')%nat -> has_edge m a b ce -> has_edge m a' b' ce -> (a, b) = (a', b').
Proof.
  intros C L L' (p & q & (cl & Hc & Ei & _ & _ & P & Q) & Sp) (p' & q' & (cl' & Hc' & Ei' & _ & _ & P' & Q') & Sp').
  assert (cl' = cl). { pose proof (cell_by_id m cl C Hc) as A. pose proof (cell_by_id m cl' C Hc') as B. rewrite Ei in A. rewrite Ei' in B. congruence. }
  subst cl'. rewrite P in P'. rewrite Q in Q'. injection P' as <-. injection Q' as <-. unfold same_pair in *. f_equal; lia.
Qed.

Definition single_edge (ft : @features R) (ke : ekey * edge) : bool :=
  match mget ekey_eqb (ft_all_2d_edges ft) (fst ke) with Some cs => (List.length cs =? 1)%nat | None => false end.

Lemma normals_2d sh2 sh3 big mult m ea ft : (forall l, Permutation (sh2 l) l) -> consistent m -> coords_complete m -> ndim m = 2%nat ->
  features_new leb shuffle m ea = Ok ft ->
  let s := arrow_length big mult 2 (ft_limits ft) in
  exists arrows own, normal_vectors sh2 sh3 big mult m ft = Ok arrows /\ NoDup own /\
    (forall ce, In ce own <-> exists a b, forall y, has_edge m a b y <-> y = ce) /\ Forall2 (edge_arrow m s) own arrows.
Proof.
  intros Sh2 C K D F s. unfold normal_vectors. rewrite D. cbn [Nat.eqb]. fold s.
  destruct (edges_2d leb shuffle Sh m ea ft C D F) as (ND & _ & Wt & _).
  pose proof (features_map_2d leb shuffle m ea ft D F) as Em. destruct (edge_map_spec m _ Em (nodup_ids m C)) as (_ & Sp & _).
  assert (Ge : forall a b ed, In ((a, b), ed) (sh2 (ft_edges ft)) -> get_edge ft a b = Ok ed).
  { intros a b ed H. apply get_edge_iff, (in_mget _ ekey_eqb_eq); auto. eapply Permutation_in; [apply Sh2|exact H]. }
  match goal with |- context [foldM ?st0 ?l0 []] => destruct (foldM_arrows st0 (single_edge ft)
    (fun x b => exists ce, (forall y, has_edge m (fst (fst x)) (snd (fst x)) y <-> y = ce) /\ edge_arrow m s ce b) l0) with (acc := @nil arrow) as (bs & Eb & Fb) end.
  { intros [[a b] ed] acc Hx. pose proof (Ge a b ed Hx) as G. destruct (proj1 (Wt a b) (ex_intro _ ed G)) as (Le & Wd).
    specialize (Sp a b Le). unfold single_edge. cbn [fst snd].
    destruct (mget ekey_eqb (ft_all_2d_edges ft) (a, b)) as [cs|] eqn:Ec.
    2:{ exfalso. unfold wanted in Wd. destruct ea; [destruct Wd as (x & Wd)|destruct Wd as (x & Wd & _)]; exact (Sp x Wd). }
    cbn [unwrap bind]. destruct (Nat.eqb_spec (List.length cs) 1) as [L1|L1]; [|reflexivity].
    destruct (one_edge_arrow m ea ft s C K D F a b ed G) as (ce & ar & (Hf & _) & E & A). rewrite E. cbn [bind]. exists ar. split; auto.
    exists ce. split; auto. destruct Sp as (_ & _ & Ho). destruct cs as [|x [|]]; try discriminate L1. intros y. rewrite <- Ho. cbn [In].
    assert (x = ce) by (apply Ho in Hf; destruct Hf as [|[]]; auto). subst x. intuition. }
  cbn [app] in Eb.
  destruct (owners_list (fun k ce => has_edge m (fst k) (snd k) ce) (edge_arrow m s) (filter (single_edge ft) (sh2 (ft_edges ft))) bs) as (own & N & FQ & M); auto.
  { apply nodup_filter. eapply Permutation_NoDup; [|exact ND]. apply Permutation_map, Permutation_sym, Sh2. }
  { intros [a b] [a' b'] ce H1 H2 E1 E2. cbn [fst snd] in *. eapply has_edge_key; eauto.
    - apply in_map_iff in H1 as ([k ed] & Ek & H1). cbn [fst] in Ek. subst k. apply filter_In in H1 as (H1 & _). apply Ge in H1. apply (Wt a b). eauto.
    - apply in_map_iff in H2 as ([k ed] & Ek & H2). cbn [fst] in Ek. subst k. apply filter_In in H2 as (H2 & _). apply Ge in H2. apply (Wt a' b'). eauto. }
  exists bs, own. split; auto. split; auto. split; auto. intros ce. rewrite M. split.
  - intros ([a b] & _ & U). exists a, b. exact U.
  - intros (a & b & U). 
    assert (U' : exists a' b', (a' <= b')%nat /\ forall y, has_edge m a' b' y <-> y = ce).
    { destruct (le_lt_dec a b) as [L|L]; [exists a, b; auto|]. exists b, a. split; [lia|]. intros y. rewrite <- U.
      split; intros (p & q & E & S2); exists p, q; (split; [exact E|]); unfold same_pair in *; lia. }
    destruct U' as (a' & b' & L & U').
    assert (Wd : exists ed, get_edge ft a' b' = Ok ed).
    { apply Wt. split; auto. assert (has_edge m a' b' ce) by now apply U'. unfold wanted. destruct ea; [eauto|]. exists ce. split; auto. intros y Hy. symmetry. now apply U'. }
    destruct Wd as (ed & G). exists (a', b'). split; [|exact U']. apply in_map_iff. exists ((a', b'), ed). split; auto. apply filter_In. split.
    + apply (Permutation_in _ (Permutation_sym (Sh2 _))). apply get_edge_iff, mget_in in G; [exact G|exact ekey_eqb_eq].
    + unfold single_edge. cbn [fst]. specialize (Sp a' b' L). destruct (mget ekey_eqb (ft_all_2d_edges ft) (a', b')) as [cs|]; [|exfalso; apply (Sp ce); now apply U'].
      destruct Sp as (Nn & Nd & Ho). destruct cs as [|x [|y l]]; [congruence|reflexivity|]. exfalso.
      assert (x = ce) by (apply U', Ho; simpl; auto). assert (y = ce) by (apply U', Ho; simpl; auto). subst. inversion Nd; subst. simpl in *. tauto.
Qed.
End Features.
