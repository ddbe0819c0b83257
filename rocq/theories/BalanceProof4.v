(* Area vectors of plane and bilinear faces; the areas and volumes of meshes *)
From Coq Require Import String Reals QArith Qreals List Lia Lra Bool Arith ZArith Permutation Sorted.
From Verif Require Import Base BaseFacts Expr ShapesData Kind MeshModel GraphModel MeshQuerySpec TopoModel TopoSpec TopoProof TopoFeat3 TopoFinal
  ShapesModel ShapesSpec ShapesProof GeomModel GeomProof PadModel PadSpec PadProof PadProof2 PadProof3 PadProof4 GaussModel GaussSpec IntegSpec NormalSpec NormalProof NormalProof2 NormalProof3
  NormalModel NormalProof4 NormalProof5 PropNormal BalanceSpec BalanceProof BalanceProof2.
Import ListNotations.
Local Open Scope list_scope.
Local Open Scope R_scope.

Lemma normal_area m kd ps mag un i : coords_complete m -> ndim m = 3%nat -> kd = Tri3 \/ kd = Qua4 -> sound_side m kd ps -> NormalSpec.normal_of m kd ps mag un -> (i < 3)%nat ->
  ref_measure (kind_class kd) * mag * nth i un 0 = area_vector m i (corners kd ps).
Proof.
  intros K D Kd (Dk & L & B) (p & a & El & N) Hi. rewrite D in N. cbv zeta in N. destruct N as (J & M & U & Z).
  pose proof El as (W & Kp & Sp & _). cbn [c_kind] in Kp. rewrite D in Sp.
  pose proof (fun j b => element_x m (mkCell 0 0%Z kd ps) p b j El) as X. cbn [c_points] in X.
  assert (D2 : kind_ndim kd = 2%nat) by lia.
  assert (Ja : forall i j, (i < 3)%nat -> (j < 2)%nat -> a i j = JJ p [0; 0] i j).
  { intros x y Hx Hy. apply (jacobian_unique p [0; 0]); auto; [apply jj_partial; auto; rewrite Kp, D2; cbn; lia|rewrite Sp; auto|rewrite Kp, D2; auto]. }
  assert (T : forall x y, (x < 3)%nat -> (y < 2)%nat -> a x y = sum_n (kind_nnode kd) (fun b => node_x p x b * ent (calc_deriv kd [0; 0]) b y)).
  { intros x y Hx Hy. rewrite Ja by auto. rewrite <- Kp. apply jj_ent; auto; [rewrite Sp; auto|rewrite Kp, D2; auto]. }
  assert (G : mag * nth i un 0 = vector_product i (fun x => a x 0%nat) (fun x => a x 1%nat)).
  { set (c0 := a 1%nat 0%nat * a 2%nat 1%nat - a 2%nat 0%nat * a 1%nat 1%nat) in *. set (c1 := a 2%nat 0%nat * a 0%nat 1%nat - a 0%nat 0%nat * a 2%nat 1%nat) in *.
    set (c2 := a 0%nat 0%nat * a 1%nat 1%nat - a 1%nat 0%nat * a 0%nat 1%nat) in *.
    assert (Mn : 0 <= mag) by (rewrite M; apply sqrt_pos). destruct (Rle_lt_or_eq_dec _ _ Mn) as [P|P].
    - rewrite (U P). destruct i as [|[|[|i]]]; [..|lia]; cbn [nth vector_product]; [fold c0|fold c1|fold c2]; field; lra.
    - symmetry in P. rewrite P. rewrite P in M. symmetry in M. apply sqrt_eq_0 in M; [|nra].
      assert (c0 = 0 /\ c1 = 0 /\ c2 = 0) as (Z0 & Z1 & Z2) by (pose proof (pow2_ge_0 c0); pose proof (pow2_ge_0 c1); pose proof (pow2_ge_0 c2); repeat split; nra).
      destruct i as [|[|[|i]]]; [..|lia]; cbn [vector_product]; [fold c0|fold c1|fold c2]; lra. }
  rewrite Rmult_assoc, G. clear G M U Z.
  unfold vector_product.
  destruct Kd as [-> | ->].
  - destruct ps as [|p0 [|p1 [|p2 [|? ?]]]]; try discriminate L. unfold corners. cbn [kind_class firstn area_vector ref_measure].
    unfold vector_product, from_to. rewrite !T by lia. change (kind_nnode Tri3) with 3%nat. unfold sum_n. cbn [seq map sum]. 
    rewrite !X by (auto; cbn; lia). cbn [nth]. cbn. unfold Q2R. simpl. destruct i as [|[|[|i]]]; [..|lia]; field.
  - destruct ps as [|p0 [|p1 [|p2 [|p3 [|? ?]]]]]; try discriminate L. unfold corners. cbn [kind_class firstn area_vector ref_measure].
    unfold vector_product, from_to. rewrite !T by lia. change (kind_nnode Qua4) with 4%nat. unfold sum_n. cbn [seq map sum]. 
    rewrite !X by (auto; cbn; lia). cbn [nth]. cbn. unfold Q2R. simpl. destruct i as [|[|[|i]]]; [..|lia]; field.
Qed.

Section Feat.
Context {T : Type} (leb : T -> T -> bool) (shuffle : emap -> emap).
Hypothesis Sh : forall l, Permutation (shuffle l) l.

Lemma listed_line (m : mesh T) ft : consistent m -> ndim m = 2%nat -> features_new leb shuffle m false = Ok ft ->
  forall k ed, In (k, ed) (ft_edges ft) -> kind_class (e_kind ed) = CLin.
Proof.
  intros C D F [a b] ed H. destruct (edges_2d leb shuffle Sh m false ft C D F) as (ND & _ & _ & Dt).
  assert (G : get_edge ft a b = Ok ed) by (apply get_edge_iff; apply TopoMaps.in_mget; auto using TopoMaps.ekey_eqb_eq).
  destruct (Dt a b ed G) as (_ & ce & _ & cl & _ & _ & _ & _ & Ek & _).
  destruct (c_kind cl); try discriminate Ek; injection Ek as <-; reflexivity.
Qed.

Lemma closed_jumps (m : mesh T) ft (f : nat -> R) : consistent m -> directed m -> ndim m = 2%nat -> features_new leb shuffle m false = Ok ft ->
  sum_over (fun ke => match e_points (snd ke) with p :: q :: _ => f q - f p | _ => 0 end) (ft_edges ft) = 0.
Proof.
  intros C O D F. rewrite (sum_over_ext _ (fun ke => jump f (corners (e_kind (snd ke)) (e_points (snd ke))))).
  - rewrite (circulation_2d m C leb shuffle _ ft Sh (jump_odd _) O D F). apply sum_over_zero. intros c Hc. apply round_jump. apply filter_In in Hc as (_ & Hc). now apply Nat.eqb_eq.
  - intros [k ed] H. cbn [snd]. unfold corners. rewrite (listed_line m ft C D F k ed H). destruct (e_points ed) as [|p [|q t]]; reflexivity.
Qed.

Lemma count_sum {A} (f : A -> bool) l : sum_over (fun x => if f x then 1 else 0) l = INR (List.length (filter f l)).
Proof. induction l as [|a l IH]; [reflexivity|]. unfold sum_over in *. cbn [map fold_right filter]. rewrite IH. destruct (f a); [cbn [List.length]; rewrite S_INR|]; lra. Qed.
Lemma sum_minus {A} (f g : A -> R) l : sum_over (fun x => f x - g x) l = sum_over f l - sum_over g l.
Proof. unfold sum_over. induction l; cbn; lra. Qed.

Lemma degrees (m : mesh T) ft p : consistent m -> directed m -> ndim m = 2%nat -> features_new leb shuffle m false = Ok ft ->
  List.length (filter (starts_at p) (ft_edges ft)) = List.length (filter (ends_at p) (ft_edges ft)).
Proof.
  intros C O D F. apply INR_eq. pose proof (closed_jumps m ft (fun q => if (q =? p)%nat then 1 else 0) C O D F) as S0.
  rewrite (sum_over_ext _ (fun x => (if ends_at p x then 1 else 0) - (if starts_at p x then 1 else 0))) in S0.
  - rewrite sum_minus, !count_sum in S0. lra.
  - intros [k ed] _. unfold ends_at, starts_at. cbn [snd]. destruct (e_points ed) as [|a [|b t]]; lra.
Qed.
End Feat.

Section FeatR.
Variables (leb : R -> R -> bool) (shuffle : emap -> emap).

Lemma listed_faces_sound m ft : consistent m -> ndim m = 3%nat -> features_new leb shuffle m false = Ok ft ->
  (forall c, In c (of_dim 3 m) -> c_kind c = Tet4 \/ c_kind c = Hex8) ->
  forall k fc, In (k, fc) (ft_faces ft) -> sound_side m (f_kind fc) (f_points fc) /\ (f_kind fc = Tri3 \/ f_kind fc = Qua4).
Proof.
  intros C D F L k fc H. destruct (faces_3d leb shuffle m false ft C D F) as (ND & _ & Srt & Dt & _).
  assert (G0 : get_face ft k = Ok fc) by (apply get_face_iff, TopoMaps.in_mget; auto using TopoMaps.fkey_eqb_eq).
  pose proof (sort4_sorted k (Srt k fc G0)) as Sk. rewrite <- Sk in G0. destruct (Dt k fc G0) as (_ & cf & _ & cl & Hc & _ & D3 & _ & Ek & Em).
  assert (Kc : c_kind cl = Tet4 \/ c_kind cl = Hex8) by (apply L; apply filter_In; split; auto; now apply Nat.eqb_eq).
  split.
  - destruct (map_some_nth _ _ _ Em) as (Ln & N). split; [rewrite D; destruct Kc as [E|E]; rewrite E in Ek; injection Ek as <-; reflexivity|].
    split; [rewrite Ln; now apply face_nnode_kind|]. intros q Hq. pose proof C as (_ & C2). destruct (C2 _ _ (cell_by_id m cl C Hc)) as (_ & _ & Rc).
    apply In_nth_error in Hq as (i & Hi). assert (Li : (i < kind_face_nnode (c_kind cl))%nat) by (rewrite <- Ln; apply nth_error_Some; congruence).
    specialize (N i Li). rewrite Hi in N. apply Rc. eapply nth_error_In; eauto.
  - destruct Kc as [E|E]; rewrite E in Ek; injection Ek as <-; auto.
Qed.

Lemma area_closed m ft i : consistent m -> ndim m = 3%nat -> no_quadratic_tets m -> directed_faces m -> features_new leb shuffle m false = Ok ft ->
  sum_over (fun kf => area_vector m i (corners (f_kind (snd kf)) (f_points (snd kf)))) (ft_faces ft) = 0.
Proof.
  intros C D NQ O F. rewrite (circulation_3d m C leb shuffle _ ft NQ (area_odd m i) (area_cyclic m i) O D F).
  apply sum_over_zero. intros c Hc. apply round_area. apply filter_In in Hc as (_ & Hc). now apply Nat.eqb_eq.
Qed.

Lemma linear_no_quadratic {T} (m : mesh T) : (forall c, In c (of_dim 3 m) -> c_kind c = Tet4 \/ c_kind c = Hex8) -> no_quadratic_tets m.
Proof.
  intros H c Hc. destruct (Nat.eq_dec (kind_ndim (c_kind c)) 3) as [E|E].
  - destruct (H c) as [X|X]; [apply filter_In; split; auto; now apply Nat.eqb_eq|rewrite X; split; discriminate..].
  - split; intros X; rewrite X in E; apply E; reflexivity.
Qed.

Lemma normals_closed_3d m ft mag un i : consistent m -> coords_complete m -> ndim m = 3%nat ->
  (forall c, In c (of_dim 3 m) -> c_kind c = Tet4 \/ c_kind c = Hex8) -> directed_faces m -> features_new leb shuffle m false = Ok ft ->
  (forall k fc, In (k, fc) (ft_faces ft) -> NormalSpec.normal_of m (f_kind fc) (f_points fc) (mag k) (un k)) -> (i < 3)%nat ->
  sum_over (fun kf => ref_measure (kind_class (f_kind (snd kf))) * mag (fst kf) * nth i (un (fst kf)) 0) (ft_faces ft) = 0.
Proof.
  intros C K D L O F N Hi. refine (eq_trans _ (area_closed m ft i C D (linear_no_quadratic m L) O F)). apply sum_over_ext. intros [k fc] H. cbn [fst snd].
  destruct (listed_faces_sound m ft C D F L k fc H) as (Sd & Kd). apply normal_area; auto.
Qed.

Hypothesis Sh : forall l, Permutation (shuffle l) l.
Lemma area_by_boundary m ft ar : consistent m -> coords_complete m -> ndim m = 2%nat -> directed m -> features_new leb shuffle m false = Ok ft ->
  (forall c, In c (of_dim 2 m) -> cell_area m c (ar (c_id c))) ->
  sum_over (fun ke => - swept m (corners (e_kind (snd ke)) (e_points (snd ke))) / 2) (ft_edges ft) = sum_over (fun c => ar (c_id c)) (of_dim 2 m).
Proof.
  intros C K D O F A. rewrite (circulation_2d m C leb shuffle (fun l => - swept m l / 2) ft Sh); auto.
  - apply sum_over_ext. intros c Hc. apply round_swept; auto. apply filter_In in Hc. tauto.
  - intros l. rewrite (swept_odd m l). lra.
Qed.
Lemma volume_by_boundary m ft vol : consistent m -> coords_complete m -> ndim m = 3%nat -> directed_faces m -> features_new leb shuffle m false = Ok ft ->
  (forall c, In c (of_dim 3 m) -> cell_volume m c (vol (c_id c))) ->
  sum_over (fun kf => swept3 m (corners (f_kind (snd kf)) (f_points (snd kf))) / 6) (ft_faces ft) = sum_over (fun c => vol (c_id c)) (of_dim 3 m).
Proof.
  intros C K D O F A. 
  assert (L : forall c, In c (of_dim 3 m) -> c_kind c = Tet4 \/ c_kind c = Hex8) by (intros c Hc; destruct (A c Hc) as (p & _ & E & _); auto).
  rewrite (circulation_3d m C leb shuffle (fun l => swept3 m l / 6) ft (linear_no_quadratic m L)); auto.
  - apply sum_over_ext. intros c Hc. apply round_swept3; auto. apply filter_In in Hc. tauto.
  - intros l. rewrite (swept3_odd m l). lra.
  - intros l1 l2. now rewrite (swept3_cyclic m l1 l2).
Qed.
End FeatR.
