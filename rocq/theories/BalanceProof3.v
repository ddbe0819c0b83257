(* Integrals of normal vectors *)
From Coquelicot Require Import Coquelicot.
From Coq Require Import String Reals QArith Qreals List Lia Lra Bool Arith ZArith Permutation Sorted.
From Verif Require Import Base BaseFacts Expr ShapesData Kind MeshModel GraphModel MeshQuerySpec TopoModel TopoSpec TopoProof TopoFeat3 TopoFinal
  ShapesModel ShapesSpec ShapesProof GeomModel GeomProof PadModel PadSpec PadProof PadProof2 PadProof3 PadProof4 GaussModel GaussSpec IntegSpec NormalSpec NormalProof NormalProof2 NormalProof3
  NormalModel NormalProof4 NormalProof5 PropNormal BalanceSpec BalanceProof BalanceProof2.
Import ListNotations.
Local Open Scope list_scope.
Local Open Scope R_scope.

Lemma line_end k n p i : kind_ndim k = 1%nat -> p_kind p = k -> (n < 2)%nat -> pos p [if (n =? 0)%nat then -1 else 1] i = node_x p i n.
Proof.
  intros D K Hn. unfold pos. rewrite K. assert (L : (n < kind_nnode k)%nat) by (destruct k; try discriminate D; vm_compute; lia).
  assert (E : [if (n =? 0)%nat then -1 else 1] = ref_coords k n).
  { destruct n as [|[|n]]; [| |lia]; destruct k; try discriminate D; cbn; unfold Q2R; simpl; repeat f_equal; lra. }
  rewrite E. transitivity (sum_n (kind_nnode k) (fun m => node_x p i m * delta m n)).
  - apply sum_n_ext. intros m Hm. rewrite interp_at_node by auto. unfold delta. destruct (Nat.eqb m n); ring.
  - now apply sum_n_delta_r.
Qed.

Lemma deriv_continuous p i (z : R) : pad_wf p -> kind_ndim (p_kind p) = 1%nat -> (i < p_space p)%nat -> continuous (fun z : R => JJ p [z] i 0%nat) z.
Proof.
  intros W D Hi. 
  apply (continuous_ext (fun z : R => sum_n (kind_nnode (p_kind p)) (fun m => node_x p i m * ent (calc_deriv (p_kind p) [z]) m 0))).
  { intros y. symmetry. apply jj_ent; auto. lia. }
  apply (@ex_derive_continuous R_AbsRing R_NormedModule). destruct (p_kind p); try discriminate D; unfold sum_n; cbn; auto_derive; auto.
Qed.

Lemma ftc p i : pad_wf p -> kind_ndim (p_kind p) = 1%nat -> (i < p_space p)%nat ->
  int1 (-1) 1 (fun z => JJ p [z] i 0%nat) (node_x p i 1 - node_x p i 0).
Proof.
  intros W D Hi. unfold int1. rewrite <- (line_end _ 1 p i D eq_refl) by lia. rewrite <- (line_end _ 0 p i D eq_refl) by lia. cbn [Nat.eqb].
  apply (is_RInt_derive (fun z => pos p [z] i)); intros z _.
  - apply is_derive_Reals. pose proof (jj_partial p [z] W ltac:(cbn; lia) i 0%nat Hi ltac:(lia)) as J. unfold partial in J. exact J.
  - now apply deriv_continuous.
Qed.

Section Feat.
Variables (leb : R -> R -> bool) (shuffle : emap -> emap).
Hypothesis Sh : forall l, Permutation (shuffle l) l.

Lemma side_x m kd ps s : coords_complete m -> (ndim m = 2 \/ ndim m = 3)%nat -> sound_side m kd ps -> pad_of_side m kd ps s ->
  pad_wf s /\ p_kind s = kd /\ p_space s = ndim m /\ forall a i, (a < kind_nnode kd)%nat -> (i < ndim m)%nat -> node_x s i a = xcoord m (nth a ps 0%nat) i.
Proof.
  intros K Dm (Dk & L & R) (p0 & E0 & Es). destruct (pad_new_ok (ndim m) kd Dm ltac:(lia)) as (p0' & E0' & W0 & K0 & S0 & _).
  rewrite E0 in E0'. injection E0' as <-.
  destruct (mesh_set_pad_points m (mkCell 0 0%Z kd ps) p0 K L R W0 K0 S0) as (s' & Es' & Hs & _). cbn [c_points] in Es'. rewrite Es in Es'. injection Es' as <-.
  pose proof Hs as (Ws & Ks & Ss & _). split; auto. split; auto. split; auto. intros a i Ha Hi.
  apply (element_x m (mkCell 0 0%Z kd ps)); auto. cbn. now rewrite L.
Qed.

Lemma side_exists m kd ps : coords_complete m -> (ndim m = 2 \/ ndim m = 3)%nat -> sound_side m kd ps -> exists s, pad_of_side m kd ps s.
Proof.
  intros K Dm (Dk & L & R). destruct (pad_new_ok (ndim m) kd Dm ltac:(lia)) as (p0 & E0 & W0 & K0 & S0 & _).
  destruct (mesh_set_pad_points m (mkCell 0 0%Z kd ps) p0 K L R W0 K0 S0) as (s & Es & _). exists s, p0. auto.
Qed.

Lemma nv_value s z mag un q i : pad_wf s -> p_space s = 2%nat -> kind_ndim (p_kind s) = 1%nat -> calc_normal_vector s 2 [z] = Ok (mag, un, q) -> (i < 2)%nat ->
  mag * nth i un 0 = match i with 0%nat => - JJ s [z] 1 0 | _ => JJ s [z] 0 0 end.
Proof.
  intros W S2 D H Hi. destruct (normal_2d s 2 [z] mag un q W S2 ltac:(rewrite D; reflexivity) H) as (_ & _ & _ & J & _ & M & U0 & U1 & _). cbv zeta in *.
  assert (T : forall i, (i < 2)%nat -> ent (p_jac q) i 0 = JJ s [z] i 0%nat).
  { intros j Hj. apply (jacobian_unique s [z]); auto; try lia; apply jj_partial; auto; simpl; lia. }
  rewrite !T in * by lia. set (t0 := JJ s [z] 0 0) in *. set (t1 := JJ s [z] 1 0) in *.
  destruct (Rltb 0 mag) eqn:E.
  - destruct i as [|[|i]]; [lra|lra|lia].
  - assert (M0 : mag = 0).
    { assert (0 <= mag) by (rewrite M; apply sqrt_pos). destruct (Rle_lt_or_eq_dec _ _ H0) as [P|P]; auto. exfalso. apply Rltb_iff in P. congruence. }
    rewrite M0 in *. assert (Z : t0 ^ 2 + t1 ^ 2 = 0) by (apply sqrt_eq_0; [nra|auto]).
    assert (t0 = 0) by nra. assert (t1 = 0) by nra. destruct i as [|[|i]]; [lra|lra|lia].
Qed.

Lemma turned_jump m i : (i < 2)%nat -> forall l, turned m i l = jump (fun p => match i with 0%nat => - xcoord m p 1 | _ => xcoord m p 0 end) l.
Proof. intros Hi l. unfold turned, jump. destruct l as [|a [|b [|? ?]]]; auto. destruct i as [|[|i]]; [lra|lra|lia]. Qed.

Lemma normal_integral_iff m kd ps i v : coords_complete m -> ndim m = 2%nat -> sound_side m kd ps -> (i < 2)%nat ->
  normal_integral m kd ps i v <-> v = turned m i (corners kd ps).
Proof.
  intros K D2 Sd Hi. pose proof Sd as (Dk & L & B). assert (D1 : kind_ndim kd = 1%nat) by lia.
  assert (Ec : corners kd ps = [nth 0 ps 0%nat; nth 1 ps 0%nat]).
  { unfold corners. replace (kind_class kd) with CLin by (destruct kd; try discriminate D1; reflexivity).
    assert (2 <= List.length ps)%nat by (rewrite L; destruct kd; try discriminate D1; vm_compute; lia). destruct ps as [|a [|b t]]; cbn in *; try lia. reflexivity. }
  rewrite Ec.
  assert (F : forall s nv, pad_of_side m kd ps s -> (forall z, exists mag un q, calc_normal_vector s 2 [z] = Ok (mag, un, q) /\ nv z = mag * nth i un 0) ->
    int1 (-1) 1 nv (turned m i [nth 0 ps 0%nat; nth 1 ps 0%nat])).
  { intros s nv Hs N. destruct (side_x m kd ps s K (or_introl D2) Sd Hs) as (Ws & Ks & Ss & X). rewrite D2 in *.
    assert (Nn : (1 < kind_nnode kd)%nat) by (destruct kd; try discriminate D1; vm_compute; lia).
    assert (V : forall z, nv z = match i with 0%nat => - JJ s [z] 1 0 | _ => JJ s [z] 0 0 end).
    { intros z. destruct (N z) as (mag & un & q & E & ->). apply (nv_value s z mag un q); auto. congruence. }
    pose proof (fun j => ftc s j Ws ltac:(congruence)) as G. rewrite Ss in G.
    unfold int1 in *. destruct i as [|[|i]]; [| |lia].
    - eapply is_RInt_ext; [intros z _; symmetry; apply V|]. cbn [turned]. pose proof (is_RInt_opp _ _ _ _ (G 1%nat ltac:(lia))) as Q. rewrite !X in Q by lia. exact Q.
    - eapply is_RInt_ext; [intros z _; symmetry; apply V|]. cbn [turned]. pose proof (G 0%nat ltac:(lia)) as Q. rewrite !X in Q by lia. exact Q. }
  split.
  - intros (s & nv & Hs & N & I). pose proof (F s nv Hs N) as I'. unfold int1 in *. rewrite <- (is_RInt_unique _ _ _ _ I). now apply is_RInt_unique.
  - intros ->. destruct (side_exists m kd ps K (or_introl D2) Sd) as (s & Hs).
    destruct (side_x m kd ps s K (or_introl D2) Sd Hs) as (Ws & Ks & Ss & X).
    exists s, (fun z => match calc_normal_vector s 2 [z] with Ok (mag, un, _) => mag * nth i un 0 | _ => 0 end). split; auto.
    assert (N : forall z, exists mag un q, calc_normal_vector s 2 [z] = Ok (mag, un, q) /\
      match calc_normal_vector s 2 [z] with Ok (mag, un, _) => mag * nth i un 0 | _ => 0 end = mag * nth i un 0).
    { intros z. destruct (normal_total s [z] Ws) as (mag & un & q & E); [rewrite Ks, D1, Ss, D2; reflexivity|]. rewrite Ss, D2 in E. exists mag, un, q. rewrite E. auto. }
    split; [exact N|]. apply (F s); auto.
Qed.

Lemma listed_sound m ft : consistent m -> ndim m = 2%nat -> features_new leb shuffle m false = Ok ft ->
  forall k ed, In (k, ed) (ft_edges ft) -> sound_side m (e_kind ed) (e_points ed).
Proof.
  intros C D F k ed H. apply (proj1 (C86_features leb shuffle Sh m false ft C F) D k ed).
  destruct (edges_2d leb shuffle Sh m false ft C D F) as (ND & _). apply TopoMaps.in_mget; auto using TopoMaps.ekey_eqb_eq.
Qed.

Lemma normals_closed_2d m ft i : consistent m -> coords_complete m -> ndim m = 2%nat -> directed m -> features_new leb shuffle m false = Ok ft -> (i < 2)%nat ->
  exists v, (forall k ed, In (k, ed) (ft_edges ft) -> forall x, normal_integral m (e_kind ed) (e_points ed) i x <-> x = v k) /\ sum_over (fun ke => v (fst ke)) (ft_edges ft) = 0.
Proof.
  intros C K D O F Hi.
  set (v := fun k => match mget ekey_eqb (ft_edges ft) k with Some ed => turned m i (corners (e_kind ed) (e_points ed)) | None => 0 end).
  destruct (edges_2d leb shuffle Sh m false ft C D F) as (ND & _).
  assert (V : forall k ed, In (k, ed) (ft_edges ft) -> v k = turned m i (corners (e_kind ed) (e_points ed))).
  { intros k ed H. unfold v. now rewrite (TopoMaps.in_mget _ TopoMaps.ekey_eqb_eq _ k ed ND H). }
  exists v. split.
  - intros k ed H x. rewrite (V k ed H). apply normal_integral_iff; auto. now apply (listed_sound m ft C D F k).
  - rewrite (sum_over_ext _ (fun ke => jump (fun p => match i with 0%nat => - xcoord m p 1 | _ => xcoord m p 0 end) (corners (e_kind (snd ke)) (e_points (snd ke))))).
    + rewrite (circulation_2d m C leb shuffle _ ft Sh (jump_odd _) O D F). apply sum_over_zero. intros c Hc. apply round_jump. apply filter_In in Hc as (_ & Hc). now apply Nat.eqb_eq.
    + intros [k ed] H. cbn [fst snd]. rewrite (V k ed H). now apply turned_jump.
Qed.
End Feat.
