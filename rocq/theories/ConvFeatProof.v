(* Features of converted meshes *)
From Coq Require Import String Reals List Arith Bool Lia ZArith Permutation Sorted.
From Verif Require Import Base BaseFacts Kind MeshModel GraphModel MeshQuerySpec MeshQueryProof TopoModel TopoSpec TopoMaps TopoProof TopoFeat3 TopoFeat5 TopoFeat6 TopoFinal
  ConvertModel ConvertSpec ConvertProof5 ConvertProof6 PropConvert ConvFeatSpec BalanceSpec.
From Verif Require RenumProof.
Import ListNotations.
Local Open Scope list_scope.
Local Open Scope nat_scope.

Lemma same_tables s t e : plane s -> kind_class t = kind_class s -> e < kind_nedge s ->
  kind_nedge t = kind_nedge s /\ kind_ndim s = 2 /\ kind_ndim t = 2 /\ edge_node_id t e 0 = edge_node_id s e 0 /\ edge_node_id t e 1 = edge_node_id s e 1 /\
  edge_node_id s e 0 < ncorners s /\ edge_node_id s e 1 < ncorners s /\ 2 <= kind_edge_nnode s /\ 2 <= kind_edge_nnode t.
Proof.
  intros P. destruct s; try (destruct P as [X|X]; discriminate X); destruct t; try discriminate; intros _ H; vm_compute in H;
    destruct e as [|[|[|[|e]]]]; try lia; vm_compute; repeat split; lia.
Qed.
Lemma sizes s t : plane s -> kind_class t = kind_class s -> kind_ndim s = 2 /\ kind_ndim t = 2 /\ kind_nedge t = kind_nedge s /\ ncorners s <= kind_nnode s /\ ncorners s <= kind_nnode t /\
  (exists k, kind_edge_kind t = Some k).
Proof. intros P. destruct s; try (destruct P as [X|X]; discriminate X); destruct t; try discriminate; intros _; vm_compute; repeat split; try lia; eauto. Qed.

Lemma images {A B} (Rl : A -> B -> Prop) (l : list A) (l' : list B) : NoDup l ->
  (forall a, In a l -> exists b, In b l' /\ Rl a b) -> (forall a a' b, In a l -> In a' l -> Rl a b -> Rl a' b -> a = a') -> List.length l <= List.length l'.
Proof.
  intros N T I.
  assert (X : exists l2, List.length l2 = List.length l /\ NoDup l2 /\ incl l2 l' /\ forall b, In b l2 -> exists a, In a l /\ Rl a b).
  { induction N as [|a l Na N IH].
    - exists []. repeat split; [constructor|intros ? []|intros ? []].
    - destruct IH as (l2 & L & N2 & In2 & Ex); [intros x Hx; apply T; now right|intros x y b Hx Hy; apply I; now right|].
      destruct (T a (or_introl eq_refl)) as (b & Hb & Rb). exists (b :: l2). split; [cbn; lia|]. split.
      + constructor; [|exact N2]. intros Hi. destruct (Ex b Hi) as (a' & Ha' & R'). assert (a = a') by (apply (I a a' b); [now left|now right|auto..]). subst a'. contradiction.
      + split; [intros x [<-|Hx]; auto|]. intros x [<-|Hx]; [exists a; split; [now left|auto]|]. destruct (Ex x Hx) as (a' & Ha & Ra). exists a'. split; [now right|auto]. }
  destruct X as (l2 & L & N2 & In2 & _). rewrite <- L. now apply NoDup_incl_length.
Qed.

Section Conv.
Variables (shuffle0 : emap -> emap) (m : mesh R) (source target : geokind) (d : mesh R).
Hypothesis V : converts shuffle0 m source target d.
Lemma c_m : consistent m. Proof. now destruct V as (l & _ & C & _). Qed.
Lemma k_m : coords_complete m. Proof. now destruct V as (l & _ & _ & K & _). Qed.
Lemma conv : convertible m source target. Proof. now destruct V as (l & _ & _ & _ & X & _). Qed.
Lemma c_d : consistent d. Proof. apply (C48_valid _ _ _ _ _ V). Qed.
Lemma dim_d : ndim d = 2. Proof. apply (C48_valid _ _ _ _ _ V). Qed.
Lemma dim_m : ndim m = 2. Proof. apply conv. Qed.
Lemma len_d : List.length (cells d) = List.length (cells m). Proof. apply (C48_valid _ _ _ _ _ V). Qed.
Lemma kind_m c cl : nth_error (cells m) c = Some cl -> c_kind cl = source.
Proof. intros E. destruct conv as (_ & _ & O & _). apply O. eapply nth_error_In, E. Qed.
Lemma cell_d c cl : nth_error (cells m) c = Some cl -> exists dc, nth_error (cells d) c = Some dc /\ c_kind dc = target.
Proof. intros E. destruct (C48_valid _ _ _ _ _ V) as (_ & _ & _ & _ & X & _). destruct (X c cl E) as (dc & H & _ & _ & K). eauto. Qed.
Lemma kind_d c dc : nth_error (cells d) c = Some dc -> c_kind dc = target.
Proof.
  intros E. destruct (nth_error (cells m) c) as [cl|] eqn:N; [destruct (cell_d c cl N) as (dc' & E' & K); congruence|].
  apply nth_error_None in N. rewrite <- len_d in N. apply nth_error_None in N. congruence.
Qed.
Lemma node_lt (k : mesh R) c a p : node_id k c a p -> c < List.length (cells k).
Proof. intros (cl & E & _). apply nth_error_Some. congruence. Qed.
Lemma becomes_same p p' q q' : becomes m d p p' -> becomes m d q q' -> (p' = q' <-> p = q).
Proof.
  intros (c & cl & a & E & A & N & N') (c2 & cl2 & a2 & E2 & A2 & N2 & N2'). rewrite (kind_m _ _ E) in A. rewrite (kind_m _ _ E2) in A2.
  apply (C48_corners_shared _ _ _ _ _ V c a c2 a2); auto; eapply node_lt; eauto.
Qed.
Lemma corner_some c cl a p : nth_error (cells m) c = Some cl -> a < ncorners source -> node_id m c a p -> exists p', node_id d c a p' /\ becomes m d p p'.
Proof.
  intros E A N. destruct conv as (_ & _ & _ & P & Kc). destruct (sizes source target P Kc) as (_ & _ & _ & _ & L & _).
  destruct (cell_d c cl E) as (dc & Ed & Kd). destruct (proj2 c_d c dc Ed) as (_ & Ln & _). rewrite Kd in Ln.
  destruct (nth_error (c_points dc) a) as [p'|] eqn:Ep; [|apply nth_error_None in Ep; lia].
  assert (Np : node_id d c a p') by (exists dc; auto). exists p'. split; [exact Np|]. exists c, cl, a. rewrite (kind_m _ _ E). auto.
Qed.
Lemma corner_back c a p' : a < ncorners source -> node_id d c a p' -> exists p, node_id m c a p /\ becomes m d p p'.
Proof.
  intros A N. destruct conv as (_ & _ & _ & P & Kc). destruct (sizes source target P Kc) as (_ & _ & _ & L & _).
  pose proof (node_lt d c a p' N) as Lc. rewrite len_d in Lc. destruct (nth_error (cells m) c) as [cl|] eqn:E; [|apply nth_error_None in E; lia].
  destruct (proj2 c_m c cl E) as (_ & Ln & _). pose proof (kind_m c cl E) as Ks. rewrite Ks in Ln.
  destruct (nth_error (c_points cl) a) as [p|] eqn:Ep; [|apply nth_error_None in Ep; lia].
  assert (Np : node_id m c a p) by (exists cl; auto). exists p. split; [exact Np|]. exists c, cl, a. rewrite Ks. auto.
Qed.
Lemma edge_nodes_ids (k : mesh R) c e p q : consistent k -> (edge_of k c e p q <-> exists cl, nth_error (cells k) c = Some cl /\ kind_ndim (c_kind cl) = 2 /\ e < kind_nedge (c_kind cl) /\
  node_id k c (edge_node_id (c_kind cl) e 0) p /\ node_id k c (edge_node_id (c_kind cl) e 1) q).
Proof.
  intros C. split.
  - intros (cl & I & Ec & Dk & He & P & Q). apply In_nth_error in I as (i & I). destruct (proj2 C i cl I) as (Ei & _). assert (X : i = c) by congruence. clear Ei; try clear Ei'; rewrite X in *; clear X i.
    exists cl. split; [exact I|]. split; [exact Dk|]. split; [exact He|]. split; exists cl; auto.
  - intros (cl & E & Dk & He & (c1 & E1 & P) & (c2 & E2 & Q)). assert (c1 = cl) by congruence. assert (c2 = cl) by congruence. subst c1 c2.
    exists cl. split; [eapply nth_error_In, E|]. split; [apply (proj2 C c cl E)|]. auto.
Qed.
Lemma edge_conv c e p' q' : edge_of d c e p' q' <-> exists p q, becomes m d p p' /\ becomes m d q q' /\ edge_of m c e p q.
Proof.
  destruct conv as (_ & _ & _ & P & Kc). destruct (sizes source target P Kc) as (D1 & D2 & Ne & _). split.
  - intros H. apply (edge_nodes_ids d c e p' q' c_d) in H as (dc & E & _ & He & N0 & N1). rewrite (kind_d c dc E) in *. rewrite Ne in He.
    destruct (same_tables source target e P Kc He) as (_ & _ & _ & T0 & T1 & L0 & L1 & _). rewrite T0 in N0. rewrite T1 in N1.
    destruct (corner_back c _ p' L0 N0) as (p & Np & Bp). destruct (corner_back c _ q' L1 N1) as (q & Nq & Bq). exists p, q. split; [exact Bp|]. split; [exact Bq|].
    apply (edge_nodes_ids m c e p q c_m). destruct Np as (cl & Ec & X). pose proof (kind_m c cl Ec) as Ks. exists cl. rewrite Ks. split; [exact Ec|]. split; [exact D1|]. split; [exact He|]. split; [exists cl; auto|exact Nq].
  - intros (p & q & Bp & Bq & H). apply (edge_nodes_ids m c e p q c_m) in H as (cl & E & _ & He & N0 & N1). rewrite (kind_m c cl E) in *.
    destruct (same_tables source target e P Kc He) as (_ & _ & _ & T0 & T1 & L0 & L1 & _).
    destruct (corner_some c cl _ p E L0 N0) as (x & Nx & Bx). destruct (corner_some c cl _ q E L1 N1) as (y & Ny & By).
    assert (x = p') by now apply (becomes_same _ _ _ _ Bx Bp). assert (y = q') by now apply (becomes_same _ _ _ _ By Bq). subst x y.
    destruct (cell_d c cl E) as (dc & Ed & Kd). apply (edge_nodes_ids d c e p' q' c_d). exists dc. rewrite Kd, T0, T1, Ne. auto.
Qed.
Lemma edge_ends c e p q : edge_of m c e p q -> exists p' q', becomes m d p p' /\ becomes m d q q' /\ edge_of d c e p' q'.
Proof.
  intros H. pose proof H as H0. destruct conv as (_ & _ & _ & P & Kc). apply (edge_nodes_ids m c e p q c_m) in H as (cl & E & _ & He & N0 & N1). rewrite (kind_m c cl E) in *.
  destruct (same_tables source target e P Kc He) as (_ & _ & _ & _ & _ & L0 & L1 & _).
  destruct (corner_some c cl _ p E L0 N0) as (x & _ & Bx). destruct (corner_some c cl _ q E L1 N1) as (y & _ & By). exists x, y. split; [exact Bx|]. split; [exact By|]. apply edge_conv. eauto.
Qed.
Lemma pair_conv a b p q a' b' p' q' : becomes m d a a' -> becomes m d b b' -> becomes m d p p' -> becomes m d q q' -> (same_pair a' b' p' q' <-> same_pair a b p q).
Proof.
  intros A B P Q. unfold same_pair. rewrite (becomes_same _ _ _ _ P A), (becomes_same _ _ _ _ Q A), (becomes_same _ _ _ _ P B), (becomes_same _ _ _ _ Q B). reflexivity.
Qed.
Lemma has_edge_conv a b a' b' ce : becomes m d a a' -> becomes m d b b' -> (has_edge d a' b' ce <-> has_edge m a b ce).
Proof.
  intros A B. split.
  - intros (p' & q' & E & S). apply edge_conv in E as (p & q & P & Q & E). exists p, q. split; [exact E|]. exact (proj1 (pair_conv _ _ _ _ _ _ _ _ A B P Q) S).
  - intros (p & q & E & S). destruct (edge_ends _ _ _ _ E) as (p' & q' & P & Q & E'). exists p', q'. split; [exact E'|]. exact (proj2 (pair_conv _ _ _ _ _ _ _ _ A B P Q) S).
Qed.
Lemma directed_conv : directed d <-> directed m.
Proof.
  split; intros H c e c' e' p q E1 E2.
  - destruct (edge_ends _ _ _ _ E1) as (x & y & X & Y & F1). apply (H c e c' e' x y F1). apply edge_conv. eauto.
  - apply edge_conv in E1 as (a & b & A & B & E1). apply edge_conv in E2 as (a2 & b2 & A2 & B2 & E2).
    assert (a2 = a) by (apply (becomes_same _ _ _ _ A2 A); reflexivity). assert (b2 = b) by (apply (becomes_same _ _ _ _ B2 B); reflexivity). subst. eauto.
Qed.
Lemma key_conv a b a' b' ce : becomes m d a a' -> becomes m d b b' -> (has_edge d (Nat.min a' b') (Nat.max a' b') ce <-> has_edge m (Nat.min a b) (Nat.max a b) ce).
Proof. intros A B. rewrite (RenumProof.has_edge_sorted m nil d), (RenumProof.has_edge_sorted m nil m). now apply has_edge_conv. Qed.

Lemma edge_nodes_conv c e kd ps kd' ps' : edge_nodes m c e kd ps -> edge_nodes d c e kd' ps' ->
  kind_edge_kind target = Some kd' /\ exists p q r p' q' r', ps = p :: q :: r /\ ps' = p' :: q' :: r' /\ becomes m d p p' /\ becomes m d q q'.
Proof.
  intros (cl & I & E & D0 & He & K & M) (dc & I' & E' & D0' & He' & K' & M'). destruct conv as (_ & _ & _ & P & Kc).
  apply In_nth_error in I as (i & I). destruct (proj2 c_m i cl I) as (Ei & _). assert (X : i = c) by congruence. clear Ei; try clear Ei'; rewrite X in *; clear X i.
  apply In_nth_error in I' as (i & I'). destruct (proj2 c_d i dc I') as (Ei' & _). assert (X : i = c) by congruence. clear Ei'; rewrite X in *; clear X i. pose proof (kind_m _ _ I) as Ks. pose proof (kind_d _ _ I') as Kt. rewrite Ks in *. rewrite Kt in *.
  split; [exact K'|]. destruct (same_tables source target e P Kc He) as (_ & _ & _ & T0 & T1 & L0 & L1 & N0 & N1).
  destruct (kind_edge_nnode source) as [|[|n]]; [lia..|]. destruct (kind_edge_nnode target) as [|[|n']]; [lia..|]. cbn [seq map] in M, M'.
  destruct ps as [|p [|q r]]; try discriminate M. destruct ps' as [|p' [|q' r']]; try discriminate M'. injection M as M0 M1 _. injection M' as M0' M1' _.
  exists p, q, r, p', q', r'. repeat split.
  - exists c, cl, (edge_node_id source e 0). rewrite Ks. split; [exact I|]. split; [exact L0|]. split; [exists cl; auto|exists dc; rewrite <- T0; auto].
  - exists c, cl, (edge_node_id source e 1). rewrite Ks. split; [exact I|]. split; [exact L1|]. split; [exists cl; auto|exists dc; rewrite <- T1; auto].
Qed.

Variable leb : R -> R -> bool.
Variables shuffle shuffle' : emap -> emap.
Hypothesis Sh : forall l, Permutation (shuffle l) l.
Hypothesis Sh' : forall l, Permutation (shuffle' l) l.
Variables (ea : bool) (ft ft' : @features R).
Hypothesis F : features_new leb shuffle m ea = Ok ft.
Hypothesis F' : features_new leb shuffle' d ea = Ok ft'.

Lemma edges_fwd a b ed : get_edge ft a b = Ok ed -> exists a' b' ed', becomes m d a a' /\ becomes m d b b' /\ get_edge ft' (Nat.min a' b') (Nat.max a' b') = Ok ed' /\
  kind_edge_kind target = Some (e_kind ed') /\ exists p q r p' q' r', e_points ed = p :: q :: r /\ e_points ed' = p' :: q' :: r' /\ becomes m d p p' /\ becomes m d q q'.
Proof.
  intros G. pose proof c_m as C. pose proof c_d as C'. pose proof dim_m as D. pose proof dim_d as D'.
  destruct (proj1 (listed_edges_2d leb shuffle Sh m ea ft C D F a b) (ex_intro _ ed G)) as (L & W).
  assert (H : exists ce, has_edge m a b ce) by (unfold wanted in W; destruct ea; [exact W|destruct W as (x & W & _); eauto]).
  destruct H as (ce & p & q & E & S). destruct (edge_ends _ _ _ _ E) as (p' & q' & P & Q & _).
  assert (AB : exists a' b', becomes m d a a' /\ becomes m d b b') by (destruct S as [(-> & ->)|(-> & ->)]; eauto). destruct AB as (a' & b' & A & B).
  assert (Mn : Nat.min a b = a /\ Nat.max a b = b) by lia. destruct Mn as (Mn & Mx).
  assert (Ke : forall z, has_edge d (Nat.min a' b') (Nat.max a' b') z <-> has_edge m a b z) by (intros z; rewrite (key_conv a b a' b' z A B), Mn, Mx; reflexivity).
  assert (X : exists ed', get_edge ft' (Nat.min a' b') (Nat.max a' b') = Ok ed').
  { apply (listed_edges_2d leb shuffle' Sh' d ea ft' C' D' F'). split; [lia|]. apply (wanted_ext ea _ _ Ke). exact W. }
  destruct X as (ed' & G'). exists a', b', ed'. split; [exact A|]. split; [exact B|]. split; [exact G'|].
  destruct (TopoFeat3.edges_2d leb shuffle Sh m ea ft C D F) as (_ & _ & _ & X). destruct (X _ _ _ G) as (_ & c1 & Fi & En).
  destruct (TopoFeat3.edges_2d leb shuffle' Sh' d ea ft' C' D' F') as (_ & _ & _ & X'). destruct (X' _ _ _ G') as (_ & c2 & Fi' & En').
  assert (c2 = c1) by (apply (RenumProof.first_same m _ _ _ _ (fun z => iff_sym (Ke z)) Fi Fi')). subst c2. exact (edge_nodes_conv _ _ _ _ _ _ En En').
Qed.
Lemma edges_bwd a' b' ed' : get_edge ft' a' b' = Ok ed' -> exists a b ed, becomes m d a a' /\ becomes m d b b' /\ get_edge ft (Nat.min a b) (Nat.max a b) = Ok ed.
Proof.
  intros G. pose proof c_m as C. pose proof c_d as C'. pose proof dim_m as D. pose proof dim_d as D'.
  destruct (proj1 (listed_edges_2d leb shuffle' Sh' d ea ft' C' D' F' a' b') (ex_intro _ ed' G)) as (L & W).
  assert (H : exists ce, has_edge d a' b' ce) by (unfold wanted in W; destruct ea; [exact W|destruct W as (x & W & _); eauto]).
  destruct H as (ce & p' & q' & E & S). apply edge_conv in E as (p & q & P & Q & E).
  assert (AB : exists a b, becomes m d a a' /\ becomes m d b b') by (destruct S as [(-> & ->)|(-> & ->)]; eauto). destruct AB as (a & b & A & B).
  assert (Mn : Nat.min a' b' = a' /\ Nat.max a' b' = b') by lia. destruct Mn as (Mn & Mx).
  assert (Ke : forall z, has_edge m (Nat.min a b) (Nat.max a b) z <-> has_edge d a' b' z) by (intros z; rewrite <- (key_conv a b a' b' z A B), Mn, Mx; reflexivity).
  assert (X : exists ed, get_edge ft (Nat.min a b) (Nat.max a b) = Ok ed).
  { apply (listed_edges_2d leb shuffle Sh m ea ft C D F). split; [lia|]. apply (wanted_ext ea _ _ Ke). exact W. }
  destruct X as (ed & X). exists a, b, ed. auto.
Qed.
Lemma count_fwd : List.length (ft_edges ft) <= List.length (ft_edges ft').
Proof.
  pose proof c_m as C. pose proof c_d as C'. pose proof dim_m as D. pose proof dim_d as D'.
  destruct (TopoFeat3.edges_2d leb shuffle Sh m ea ft C D F) as (ND & _). destruct (TopoFeat3.edges_2d leb shuffle' Sh' d ea ft' C' D' F') as (ND' & _).
  rewrite <- (map_length fst (ft_edges ft)), <- (map_length fst (ft_edges ft')).
  apply (images (fun k k' => fst k <= snd k /\ exists a' b', becomes m d (fst k) a' /\ becomes m d (snd k) b' /\ k' = (Nat.min a' b', Nat.max a' b'))); [exact ND|..].
  - intros [a b] I. apply in_map_iff in I as ((k & ed) & E & I). cbn in E. subst k.
    assert (G : get_edge ft a b = Ok ed) by (apply get_edge_iff; apply (in_mget ekey_eqb ekey_eqb_eq); [exact ND|exact I]).
    destruct (edges_fwd a b ed G) as (a' & b' & ed' & A & B & G' & _). exists (Nat.min a' b', Nat.max a' b'). split.
    + apply get_edge_iff in G'. apply (mget_in ekey_eqb ekey_eqb_eq) in G'. apply in_map_iff. exists ((Nat.min a' b', Nat.max a' b'), ed'). auto.
    + split; [apply (listed_edges_2d leb shuffle Sh m ea ft C D F); eauto|]. exists a', b'. auto.
  - intros [a b] [a2 b2] k' _ _ (L & x & y & X & Y & ->) (L2 & x2 & y2 & X2 & Y2 & E). cbn [fst snd] in *. injection E as E1 E2.
    assert (S : (x = x2 /\ y = y2) \/ (x = y2 /\ y = x2)) by lia. destruct S as [(S1 & S2)|(S1 & S2)].
    + apply (becomes_same _ _ _ _ X X2) in S1. apply (becomes_same _ _ _ _ Y Y2) in S2. congruence.
    + apply (becomes_same _ _ _ _ X Y2) in S1. apply (becomes_same _ _ _ _ Y X2) in S2. subst. assert (b2 = a2) by lia. congruence.
Qed.
Lemma count_bwd : List.length (ft_edges ft') <= List.length (ft_edges ft).
Proof.
  pose proof c_m as C. pose proof c_d as C'. pose proof dim_m as D. pose proof dim_d as D'.
  destruct (TopoFeat3.edges_2d leb shuffle Sh m ea ft C D F) as (ND & _). destruct (TopoFeat3.edges_2d leb shuffle' Sh' d ea ft' C' D' F') as (ND' & _).
  rewrite <- (map_length fst (ft_edges ft)), <- (map_length fst (ft_edges ft')).
  apply (images (fun k' k => fst k' <= snd k' /\ exists a b, becomes m d a (fst k') /\ becomes m d b (snd k') /\ k = (Nat.min a b, Nat.max a b))); [exact ND'|..].
  - intros [a' b'] I. apply in_map_iff in I as ((k & ed') & E & I). cbn in E. subst k.
    assert (G : get_edge ft' a' b' = Ok ed') by (apply get_edge_iff; apply (in_mget ekey_eqb ekey_eqb_eq); [exact ND'|exact I]).
    destruct (edges_bwd a' b' ed' G) as (a & b & ed & A & B & G'). exists (Nat.min a b, Nat.max a b). split.
    + apply get_edge_iff in G'. apply (mget_in ekey_eqb ekey_eqb_eq) in G'. apply in_map_iff. exists ((Nat.min a b, Nat.max a b), ed). auto.
    + split; [apply (listed_edges_2d leb shuffle' Sh' d ea ft' C' D' F'); eauto|]. exists a, b. auto.
  - intros [a b] [a2 b2] k' _ _ (L & x & y & X & Y & ->) (L2 & x2 & y2 & X2 & Y2 & E). cbn [fst snd] in *. injection E as E1 E2.
    assert (S : (x = x2 /\ y = y2) \/ (x = y2 /\ y = x2)) by lia. destruct S as [(S1 & S2)|(S1 & S2)].
    + apply (becomes_same _ _ _ _ X X2) in S1. apply (becomes_same _ _ _ _ Y Y2) in S2. congruence.
    + apply (becomes_same _ _ _ _ X Y2) in S1. apply (becomes_same _ _ _ _ Y X2) in S2. subst. assert (b2 = a2) by lia. congruence.
Qed.
Lemma fits_m : fits m.
Proof. intros c I. apply In_nth_error in I as (i & I). rewrite (kind_m i c I), dim_m. destruct conv as (_ & _ & _ & P & Kc). destruct (sizes source target P Kc) as (D1 & _). lia. Qed.
Lemma fits_d : fits d.
Proof. intros c I. apply In_nth_error in I as (i & I). rewrite (kind_d i c I), dim_d. destruct conv as (_ & _ & _ & P & Kc). destruct (sizes source target P Kc) as (_ & D2 & _). lia. Qed.
Lemma neighbors_conv c r : get_neighbors_2d m ft c = Ok r -> exists r', get_neighbors_2d d ft' c = Ok r' /\ Permutation r' r.
Proof.
  intros G. pose proof c_m as C. pose proof c_d as C'. pose proof dim_m as D. pose proof dim_d as D'.
  assert (L : c < List.length (cells m)).
  { unfold get_neighbors_2d in G. destruct (negb (ndim m =? 2)); [discriminate|]. apply bind_ok in G as (cl & E & _). unfold get in E. destruct (nth_error (cells m) c) eqn:N; [|discriminate]. apply nth_error_Some. congruence. }
  destruct (neighbors_total leb shuffle' d ea ft' c C' fits_d D' F') as (r' & G'); [rewrite len_d; exact L|].
  exists r'. split; [exact G'|]. destruct (neighbors_iff leb shuffle m ea ft c r C fits_m D F G) as (N & X). destruct (neighbors_iff leb shuffle' d ea ft' c r' C' fits_d D' F' G') as (N' & X').
  apply NoDup_Permutation; auto. intros [[e k] ne]. rewrite X, X'. split; intros (Ne & a & b & H1 & H2); (split; [exact Ne|]).
  - destruct H1 as (p' & q' & E & S). apply edge_conv in E as (p & q & P & Q & E). exists p, q.
    split; [exists p, q; split; [exact E|left; auto]|]. apply (has_edge_conv p q p' q' _ P Q). destruct H2 as (p2 & q2 & E2 & S2). exists p2, q2. split; [exact E2|].
    unfold same_pair in *. lia.
  - destruct H1 as (p & q & E & S). destruct (edge_ends _ _ _ _ E) as (p' & q' & P & Q & _). exists p', q'. rewrite !(has_edge_conv p q p' q' _ P Q).
    split; [exists p, q; split; [exact E|left; auto]|]. destruct H2 as (p2 & q2 & E2 & S2). exists p2, q2. split; [exact E2|]. unfold same_pair in *. lia.
Qed.
End Conv.
