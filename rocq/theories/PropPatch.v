(* C102: patch test *)
From Coquelicot Require Import Coquelicot.
From Coq Require Import String Reals List Lia Lra Bool Arith ZArith Permutation.
From Verif Require Import Base BaseFacts Kind MeshModel GraphModel MeshQuerySpec TopoModel TopoSpec TopoMaps TopoProof TopoFeat3 TopoFinal
  ShapesModel ShapesSpec GeomModel PadModel PadSpec PadProof4 GaussModel GaussSpec IntegModel IntegSpec IntegProof9 IntegProof10 PropInteg NormalSpec NormalModel
  BalanceSpec BalanceProof BalanceProof2 BalanceProof3 BalanceProof4 PropBalance PressureSpec PatchSpec PatchProof3 PatchProof4 PatchProof5.
Import ListNotations.
Local Open Scope list_scope.
Local Open Scope R_scope.

Section Glue.
Variables (leb : R -> R -> bool) (shuffle : emap -> emap).
Hypothesis Sh : forall l, Permutation (shuffle l) l.
Variables (m : mesh R) (ft : @features R).
Hypothesis C : consistent m.
Hypothesis K : coords_complete m.
Hypothesis D : (MeshModel.ndim m = 2 \/ MeshModel.ndim m = 3)%nat.
Hypothesis Si : simple_cells m.
Hypothesis O : oriented m.
Hypothesis F : features_new leb shuffle m false = Ok ft.
Let nd := MeshModel.ndim m.
Lemma total_both A n V ka th S P k :
  (forall c, In c (of_dim nd m) -> get_pad m (c_id c) = Ok (a_pad (A (c_id c))) /\ gauss_new_sized (kind_class (c_kind c)) (n (c_id c)) = Ok (a_gauss (A (c_id c)))) ->
  (forall c, In c (of_dim nd m) -> forall a, (a < List.length (c_points c))%nat -> V (c_id c) a = ka (c_id c) * th * sum_n nd (fun j => S j * Ncell m c a j)) ->
  (forall c, In c (of_dim nd m) -> ka (c_id c) = k) ->
  total_at m P V = k * th * sum_n nd (fun j => S j * boundary_vector m ft P j) /\ (inside m ft P -> total_at m P V = 0).
Proof.
  intros Pads Val Hk. split.
  - exact (total_exact leb shuffle Sh m ft C K D Si O F A n V ka th S Pads Val P k Hk).
  - exact (total_inside leb shuffle Sh m ft C K D Si O F A n V ka th S Pads Val P k Hk).
Qed.
End Glue.

(** a uniform stress causes no forces at the points inside of the mesh; at the points of the boundary the forces are the stress
    times the shares of the point in the normal vectors. For rules with the same sum of the weights (relative to the cell) *)
Theorem C102_forces : forall (leb : R -> R -> bool) (shuffle : emap -> emap), (forall l, Permutation (shuffle l) l) ->
  forall m ft zdet sig th n A d d' q ka P i, consistent m -> coords_complete m -> (MeshModel.ndim m = 2 \/ MeshModel.ndim m = 3)%nat ->
  simple_cells m -> oriented m -> features_new leb shuffle m false = Ok ft -> 0 <= zdet -> let nd := MeshModel.ndim m in
  (forall c, In c (of_dim nd m) -> let k := c_id c in stressed zdet m c sig th (n k) (A k) (d k) (d' k) (q k) /\ weight_ratio (c_kind c) (a_gauss (A k)) = ka) ->
  (i < nd)%nat -> let f := total_at m P (fun k a => vec_added (A k) (d k) (d' k) (i + a * nd)) in
  f = ka * th * sum_n nd (fun j => tensor2 sig i j * boundary_vector m ft P j) /\ (inside m ft P -> f = 0).
Proof.
  intros leb shuffle Sh m ft zdet sig th n A d d' q ka P i C K D Si O F Hz nd H Hi f.
  apply (total_both leb shuffle Sh m ft C K D Si O F A n _ (fun _ => ka) th (tensor2 sig i) P ka); auto.
  - intros c Hc. destruct (H c Hc) as ((Ep & _ & _ & G & _) & _). auto.
  - intros c Hc a Ha. destruct (H c Hc) as (St & <-). destruct (in_dim m c nd Hc) as (Ic & _).
    now apply (stressed_value zdet m c th (n (c_id c)) (A (c_id c)) Hz C K D Ic (Si c Hc) sig (d (c_id c)) (d' (c_id c)) (q (c_id c)) a i).
Qed.
Print Assumptions C102_forces.

(** for any rules: up to the rounding of the tables *)
Theorem C102_rounding : forall (leb : R -> R -> bool) (shuffle : emap -> emap), (forall l, Permutation (shuffle l) l) ->
  forall m ft zdet sig th n A d d' q P i, consistent m -> coords_complete m -> (MeshModel.ndim m = 2 \/ MeshModel.ndim m = 3)%nat ->
  simple_cells m -> oriented m -> features_new leb shuffle m false = Ok ft -> 0 <= zdet -> let nd := MeshModel.ndim m in
  (forall c, In c (of_dim nd m) -> let k := c_id c in stressed zdet m c sig th (n k) (A k) (d k) (d' k) (q k)) ->
  (i < nd)%nat ->
  Rabs (total_at m P (fun k a => vec_added (A k) (d k) (d' k) (i + a * nd)) - th * sum_n nd (fun j => tensor2 sig i j * boundary_vector m ft P j)) <=
  6 * table_eps * Rabs th * sum_over (fun c => Rabs (sum_n nd (fun j => tensor2 sig i j * cell_vector m P j c))) (of_dim nd m).
Proof.
  intros leb shuffle Sh m ft zdet sig th n A d d' q P i C K D Si O F Hz nd H Hi.
  apply (total_near leb shuffle Sh m ft C K D Si O F A n _
    (fun k => match find (fun c => (c_id c =? k)%nat) (of_dim nd m) with Some c => weight_ratio (c_kind c) (a_gauss (A k)) | None => 0 end) th (tensor2 sig i)).
  - intros c Hc. destruct (H c Hc) as (Ep & _ & _ & G & _). auto.
  - intros c Hc a Ha. destruct (in_dim m c nd Hc) as (Ic & _).
    etransitivity; [exact (stressed_value zdet m c th (n (c_id c)) (A (c_id c)) Hz C K D Ic (Si c Hc) sig (d (c_id c)) (d' (c_id c)) (q (c_id c)) a i (H c Hc) Ha Hi)|]. f_equal. f_equal.
    destruct (find _ _) as [c'|] eqn:E; [|pose proof (find_none _ _ E c Hc) as X; cbn beta in X; rewrite Nat.eqb_refl in X; discriminate X].
    apply find_some in E as (Hc' & E). apply Nat.eqb_eq in E. destruct (in_dim m c' nd Hc') as (Ic' & _).
    assert (c' = c) as -> by (pose proof (cell_by_id m c C Ic); pose proof (cell_by_id m c' C Ic'); congruence). reflexivity.
  - intros c Hc. destruct (find _ _) as [c'|] eqn:E; [|pose proof (find_none _ _ E c Hc) as X; cbn beta in X; rewrite Nat.eqb_refl in X; discriminate X].
    apply find_some in E as (Hc' & E). apply Nat.eqb_eq in E. rewrite <- E. destruct (H c' Hc') as (_ & _ & _ & G & _). exact (ratio_near m D Si c' (a_gauss (A (c_id c'))) (n (c_id c')) Hc' G).
Qed.
Print Assumptions C102_rounding.

(** in the plane the forces are those of the traction (stress times unit normal vector) on the edges of the boundary *)
Theorem C102_tractions : forall (leb : R -> R -> bool) (shuffle : emap -> emap), (forall l, Permutation (shuffle l) l) ->
  forall m ft zdet sig th n A d d' q ka n' A' b b' q' kb P i, consistent m -> coords_complete m -> MeshModel.ndim m = 2%nat ->
  simple_cells m -> directed m -> features_new leb shuffle m false = Ok ft -> 0 <= zdet ->
  (forall c, In c (of_dim 2 m) -> let k := c_id c in stressed zdet m c sig th (n k) (A k) (d k) (d' k) (q k) /\ weight_ratio (c_kind c) (a_gauss (A k)) = ka) ->
  (forall k ed, In (k, ed) (ft_edges ft) -> pulled m (e_kind ed) (e_points ed) sig th (n' k) (A' k) (b k) (b' k) (q' k) /\ weight_ratio (e_kind ed) (a_gauss (A' k)) = kb) ->
  (i < 2)%nat ->
  kb * total_at m P (fun k a => vec_added (A k) (d k) (d' k) (i + a * 2)) =
  ka * sum_over (fun ke => at_point (e_points (snd ke)) P (fun a => vec_added (A' (fst ke)) (b (fst ke)) (b' (fst ke)) (i + a * 2))) (ft_edges ft).
Proof.
  intros leb shuffle Sh m ft zdet sig th n A d d' q ka n' A' b b' q' kb P i C K D Si O F Hz H T Hi.
  rewrite (pulled_total leb shuffle Sh m ft sig th n' A' b b' q' kb P i C K D Si F T Hi).
  pose proof (C102_forces leb shuffle Sh m ft zdet sig th n A d d' q ka P i C K (or_introl D) Si) as E. unfold oriented in E. rewrite D in E.
  destruct (E O F Hz H Hi) as (E' & _). rewrite E'. ring.
Qed.
Print Assumptions C102_tractions.

(** linear displacements and the same matrix D in all cells: the stiffness matrix times the displacements, added up over the cells,
    vanishes at the points inside of the mesh *)
Theorem C102_stiffness : forall (leb : R -> R -> bool) (shuffle : emap -> emap), (forall l, Permutation (shuffle l) l) ->
  forall m ft zdet DD th n A kk kk' q ka u0 gr P i, consistent m -> coords_complete m -> (MeshModel.ndim m = 2 \/ MeshModel.ndim m = 3)%nat ->
  simple_cells m -> oriented m -> features_new leb shuffle m false = Ok ft -> 0 <= zdet -> let nd := MeshModel.ndim m in
  (forall c, In c (of_dim nd m) -> let k := c_id c in stiffened zdet m c DD th (n k) (A k) (kk k) (kk' k) (q k) /\ weight_ratio (c_kind c) (a_gauss (A k)) = ka) ->
  (i < nd)%nat ->
  let f := sum_over (fun c => let k := c_id c in at_point (c_points c) P (fun a => stiffness_times (A k) (kk k) (kk' k) (c_points c) (linear m u0 gr) a i)) (of_dim nd m) in
  f = ka * th * sum_n nd (fun j => linear_stress nd DD gr i j * boundary_vector m ft P j) /\ (inside m ft P -> f = 0).
Proof.
  intros leb shuffle Sh m ft zdet DD th n A kk kk' q ka u0 gr P i C K D Si O F Hz nd H Hi f.
  set (V := fun k a => ka * th * match find (fun c => (c_id c =? k)%nat) (of_dim nd m) with Some c => sum_n nd (fun j => linear_stress nd DD gr i j * Ncell m c a j) | None => 0 end).
  assert (Vc : forall c, In c (of_dim nd m) -> forall a, V (c_id c) a = ka * th * sum_n nd (fun j => linear_stress nd DD gr i j * Ncell m c a j)).
  { intros c Hc a. unfold V. f_equal. destruct (in_dim m c nd Hc) as (Ic & _).
    destruct (find _ _) as [c'|] eqn:E; [|pose proof (find_none _ _ E c Hc) as X; cbn beta in X; rewrite Nat.eqb_refl in X; discriminate X].
    apply find_some in E as (Hc' & E). apply Nat.eqb_eq in E. destruct (in_dim m c' nd Hc') as (Ic' & _).
    assert (c' = c) as -> by (pose proof (cell_by_id m c C Ic); pose proof (cell_by_id m c' C Ic'); congruence). reflexivity. }
  assert (Ef : f = total_at m P V).
  { unfold f, total_at. apply sum_over_ext. intros c Hc. cbv zeta. apply at_point_ext. intros a Ha. destruct (H c Hc) as (St & Ek). destruct (in_dim m c nd Hc) as (Ic & _). rewrite (Vc c Hc a).
    rewrite <- Ek. exact (stiffened_value zdet m c th (n (c_id c)) (A (c_id c)) Hz C K D Ic (Si c Hc) DD (kk (c_id c)) (kk' (c_id c)) (q (c_id c)) u0 gr a i St Ha Hi). }
  rewrite Ef. apply (total_both leb shuffle Sh m ft C K D Si O F A n V (fun _ => ka) th (linear_stress nd DD gr i) P ka); auto.
  intros c Hc. destruct (H c Hc) as ((Ep & _ & _ & G & _) & _). auto.
Qed.
Print Assumptions C102_stiffness.

(** the same for a uniform flux and for temperatures that are linear functions of the position *)
Theorem C102_flux : forall (leb : R -> R -> bool) (shuffle : emap -> emap), (forall l, Permutation (shuffle l) l) ->
  forall m ft zdet w th n A d d' q ka P, consistent m -> coords_complete m -> (MeshModel.ndim m = 2 \/ MeshModel.ndim m = 3)%nat ->
  simple_cells m -> oriented m -> features_new leb shuffle m false = Ok ft -> 0 <= zdet -> let nd := MeshModel.ndim m in
  (forall c, In c (of_dim nd m) -> let k := c_id c in flowing zdet m c w th (n k) (A k) (d k) (d' k) (q k) /\ weight_ratio (c_kind c) (a_gauss (A k)) = ka) ->
  let f := total_at m P (fun k a => vec_added (A k) (d k) (d' k) a) in
  f = ka * th * sum_n nd (fun j => nth j w 0 * boundary_vector m ft P j) /\ (inside m ft P -> f = 0).
Proof.
  intros leb shuffle Sh m ft zdet w th n A d d' q ka P C K D Si O F Hz nd H f.
  apply (total_both leb shuffle Sh m ft C K D Si O F A n _ (fun _ => ka) th (fun j => nth j w 0) P ka); auto.
  - intros c Hc. destruct (H c Hc) as ((Ep & _ & _ & G & _) & _). auto.
  - intros c Hc a Ha. destruct (H c Hc) as (St & <-). destruct (in_dim m c nd Hc) as (Ic & _).
    now apply (flowing_value zdet m c th (n (c_id c)) (A (c_id c)) Hz C K D Ic (Si c Hc) w (d (c_id c)) (d' (c_id c)) (q (c_id c)) a).
Qed.
Print Assumptions C102_flux.

Theorem C102_conductivity : forall (leb : R -> R -> bool) (shuffle : emap -> emap), (forall l, Permutation (shuffle l) l) ->
  forall m ft zdet tt th n A kk kk' q ka t0 gr P, consistent m -> coords_complete m -> (MeshModel.ndim m = 2 \/ MeshModel.ndim m = 3)%nat ->
  simple_cells m -> oriented m -> features_new leb shuffle m false = Ok ft -> 0 <= zdet -> let nd := MeshModel.ndim m in
  (forall c, In c (of_dim nd m) -> let k := c_id c in conducting zdet m c tt th (n k) (A k) (kk k) (kk' k) (q k) /\ weight_ratio (c_kind c) (a_gauss (A k)) = ka) ->
  let f := sum_over (fun c => let k := c_id c in at_point (c_points c) P (fun a =>
    conductivity_times (A k) (kk k) (kk' k) (c_points c) (fun p => t0 + sum_n nd (fun l => gr l * xcoord m p l)) a)) (of_dim nd m) in
  f = ka * th * sum_n nd (fun j => sum_n nd (fun l => tensor2 tt j l * gr l) * boundary_vector m ft P j) /\ (inside m ft P -> f = 0).
Proof.
  intros leb shuffle Sh m ft zdet tt th n A kk kk' q ka t0 gr P C K D Si O F Hz nd H f.
  set (V := fun k a => ka * th * match find (fun c => (c_id c =? k)%nat) (of_dim nd m) with Some c => sum_n nd (fun j => sum_n nd (fun l => tensor2 tt j l * gr l) * Ncell m c a j) | None => 0 end).
  assert (Vc : forall c, In c (of_dim nd m) -> forall a, V (c_id c) a = ka * th * sum_n nd (fun j => sum_n nd (fun l => tensor2 tt j l * gr l) * Ncell m c a j)).
  { intros c Hc a. unfold V. f_equal. destruct (in_dim m c nd Hc) as (Ic & _).
    destruct (find _ _) as [c'|] eqn:E; [|pose proof (find_none _ _ E c Hc) as X; cbn beta in X; rewrite Nat.eqb_refl in X; discriminate X].
    apply find_some in E as (Hc' & E). apply Nat.eqb_eq in E. destruct (in_dim m c' nd Hc') as (Ic' & _).
    assert (c' = c) as -> by (pose proof (cell_by_id m c C Ic); pose proof (cell_by_id m c' C Ic'); congruence). reflexivity. }
  assert (Ef : f = total_at m P V).
  { unfold f, total_at. apply sum_over_ext. intros c Hc. cbv zeta. apply at_point_ext. intros a Ha. destruct (H c Hc) as (St & Ek). destruct (in_dim m c nd Hc) as (Ic & _). rewrite (Vc c Hc a).
    rewrite <- Ek. exact (conducting_value zdet m c th (n (c_id c)) (A (c_id c)) Hz C K D Ic (Si c Hc) tt (kk (c_id c)) (kk' (c_id c)) (q (c_id c)) t0 gr a St Ha). }
  rewrite Ef. apply (total_both leb shuffle Sh m ft C K D Si O F A n V (fun _ => ka) th (fun j => sum_n nd (fun l => tensor2 tt j l * gr l)) P ka); auto.
  intros c Hc. destruct (H c Hc) as ((Ep & _ & _ & G & _) & _). auto.
Qed.
Print Assumptions C102_conductivity.

(* a square made of four triangles that meet at its centre *)
Definition fan : mesh R :=
  mkMesh 2 [mkPoint 0 0%Z [0; 0]; mkPoint 1 0%Z [1; 0]; mkPoint 2 0%Z [1; 1]; mkPoint 3 0%Z [0; 1]; mkPoint 4 0%Z [1 / 2; 1 / 2]]
    [mkCell 0 1%Z Tri3 [0; 1; 4]%nat; mkCell 1 1%Z Tri3 [1; 2; 4]%nat; mkCell 2 1%Z Tri3 [2; 3; 4]%nat; mkCell 3 1%Z Tri3 [3; 0; 4]%nat] [] [].
Lemma fan_ok : consistent fan /\ coords_complete fan.
Proof.
  split; [split|].
  - intros i p H. do 5 (destruct i as [|i]; [injection H as <-; reflexivity|]). destruct i; discriminate H.
  - intros i c H. do 4 (destruct i as [|i]; [injection H as <-; split; [reflexivity|]; split; [reflexivity|]; intros q Hq; cbn in *; lia|]). destruct i; discriminate H.
  - intros p H. simpl in H. repeat (destruct H as [<-|H]; [reflexivity|]). destruct H.
Qed.
Lemma fan_places c e p q : edge_of fan c e p q <-> In (c, e, [p; q]) (flat_map edge_places (of_dim 2 fan)).
Proof.
  destruct fan_ok as (C & _). split; intros H; [apply in_edge_places; eauto|]. apply in_edge_places in H; auto. destruct H as (p' & q' & E & H). injection E as <- <-. exact H.
Qed.
Lemma fan_directed : directed fan.
Proof.
  intros c e c' e' p q A B. apply fan_places in A. apply fan_places in B.
  cbn in A, B. repeat (destruct A as [A|A]; [injection A as <- <- <- <-|]); try contradiction;
    repeat (destruct B as [B|B]; [first [discriminate B|injection B as <- <-; reflexivity]|]); contradiction.
Qed.
Lemma fan_inner c e p q : edge_of fan c e p q -> In 4%nat [p; q] -> exists c' e', (c', e') <> (c, e) /\ edge_of fan c' e' q p.
Proof.
  intros A I. apply fan_places in A. cbn in A.
  repeat (destruct A as [A|A]; [injection A as <- <- <- <-; first [exfalso; cbn in I; lia|
    match goal with |- exists c' e', _ <> (?c, ?e) /\ _ => idtac end;
    first [exists 0%nat, 1%nat; split; [discriminate|]; apply fan_places; cbn; tauto|exists 0%nat, 2%nat; split; [discriminate|]; apply fan_places; cbn; tauto
      |exists 1%nat, 1%nat; split; [discriminate|]; apply fan_places; cbn; tauto|exists 1%nat, 2%nat; split; [discriminate|]; apply fan_places; cbn; tauto
      |exists 2%nat, 1%nat; split; [discriminate|]; apply fan_places; cbn; tauto|exists 2%nat, 2%nat; split; [discriminate|]; apply fan_places; cbn; tauto
      |exists 3%nat, 1%nat; split; [discriminate|]; apply fan_places; cbn; tauto|exists 3%nat, 2%nat; split; [discriminate|]; apply fan_places; cbn; tauto]]|]); contradiction.
Qed.
Lemma fan_inside ft : features_new Rleb (fun l => l) fan false = Ok ft -> inside fan ft 4.
Proof.
  destruct fan_ok as (C & _). intros F [a b] ed I J.
  destruct (edges_2d Rleb (fun l => l) (fun l => Permutation_refl l) fan false ft C eq_refl F) as (ND & _ & Wt & Dt).
  assert (G : get_edge ft a b = Ok ed) by (apply get_edge_iff, in_mget; auto using ekey_eqb_eq).
  destruct (Dt a b ed G) as (_ & [c e] & (Hh & _) & cl & Hc & Id & D2 & He & Ek & Em). cbn [fst snd] in *.
  assert (Kc : c_kind cl = Tri3) by (repeat (destruct Hc as [<-|Hc]; [reflexivity|]); destruct Hc). rewrite Kc in *. change (kind_edge_nnode Tri3) with 2%nat in Em. cbn [seq map] in Em.
  destruct (e_points ed) as [|p [|q [|? ?]]]; try discriminate Em. cbn [map] in Em. injection Em as E1 E2.
  assert (He' : edge_of fan c e p q) by (exists cl; rewrite Kc; repeat split; auto).
  destruct (proj1 (Wt a b) (ex_intro _ ed G)) as (_ & x & _ & U).
  assert (Sp : same_pair a b p q).
  { destruct Hh as (p' & q' & H' & Sp). cbn [fst snd] in H'. destruct H' as (cl' & Hc' & Id' & _ & _ & A' & B').
    assert (cl' = cl) as -> by (pose proof (cell_by_id fan cl C Hc); pose proof (cell_by_id fan cl' C Hc'); congruence).
    rewrite Kc in A', B'. pose proof (eq_trans (eq_sym A') E1) as X1. pose proof (eq_trans (eq_sym B') E2) as X2. injection X1 as ->. injection X2 as ->. exact Sp. }
  destruct (fan_inner c e p q He' J) as (c' & e' & Ne & H'). apply Ne.
  transitivity x; [symmetry|]; apply U; [exists q, p; split; [exact H'|]|exists p, q; split; [exact He'|exact Sp]].
  unfold same_pair in *. tauto.
Qed.
(* the data of the cells: the default rule, D arbitrary *)
Definition fan_pad (k : nat) : pad := match get_pad fan k with Ok p => p | _ => tri_pad true end.
Definition fan_args (k : nat) : args := mkArgs (fan_pad k) (gauss_new Tri3) true false 2 0 0.
Lemma fan_grad k c : nth_error (cells fan) k = Some c -> get_pad fan k = Ok (fan_pad k) /\ pad_wf (fan_pad k) /\ p_kind (fan_pad k) = Tri3 /\ p_space (fan_pad k) = 2%nat /\
  forall p, grad_ok (1 / 1000) (fan_args k) p.
Proof.
  intros Hn. destruct fan_ok as (C & K). assert (Kc : c_kind c = Tri3) by (do 4 (destruct k as [|k]; [injection Hn as <-; reflexivity|]); destruct k; discriminate Hn).
  destruct (get_pad_ok fan k c C K (or_introl eq_refl) Hn) as (p & E & El & Okp); [rewrite Kc; apply le_n|]. unfold fan_pad. rewrite E.
  pose proof El as (W & Ek & Es & _). rewrite Kc in Ek. change (MeshModel.ndim fan) with 2%nat in Es. split; [reflexivity|]. split; [exact W|]. split; [exact Ek|]. split; [exact Es|].
  intros i. unfold grad_ok, fan_args, fan_pad. cbn [a_pad]. rewrite E. split; [exact Okp|]. split; [rewrite Ek, Es; reflexivity|]. intros J HJ. rewrite Es.
  assert (Ed : det 2 J = 1 / 2).
  { assert (L : List.length (ksi_at (fan_args k) i) = 2%nat) by (unfold ksi_at, fan_args, fan_pad; cbn [a_pad]; rewrite E, map_length, seq_length, Ek; reflexivity).
    pose proof (tri3_det p (ksi_at (fan_args k) i) (det 2 J) W Ek Es L) as T. rewrite T.
    - destruct C as (_ & C2). destruct (C2 k c Hn) as (_ & _ & B). pose proof (fun i j Hj Hi => element_x fan c p j i El Hj B Hi) as X.
      do 4 (destruct k as [|k]; [injection Hn as <-; rewrite !X by (apply Nat.ltb_lt; reflexivity); cbn; lra|]); destruct k; discriminate Hn.
    - unfold fan_args, fan_pad. rewrite E. exists J. rewrite Ek, Es. split; [exact HJ|]. split; [reflexivity|]. split; [discriminate|]. cbn. lia. }
  rewrite Ed, Rabs_pos_eq; lra.
Qed.
Example C102_ex : consistent fan /\ coords_complete fan /\ simple_cells fan /\ oriented fan /\ (exists ft, features_new Rleb (fun l => l) fan false = Ok ft /\ inside fan ft 4) /\
  forall sig DD, (forall c, In c (of_dim 2 fan) -> weight_ratio (c_kind c) (a_gauss (fan_args (c_id c))) = weight_ratio Tri3 (gauss_new Tri3) /\
    (exists d' q, stressed (1 / 1000) fan c sig 2 3 (fan_args (c_id c)) (repeat 0 6) d' q) /\
    (exists kk' q, stiffened (1 / 1000) fan c DD 2 3 (fan_args (c_id c)) (zeros 6 6) kk' q)).
Proof.
  destruct fan_ok as (C & K). split; auto. split; auto. split; [|split; [exact fan_directed|split]].
  - intros c Hc. left. repeat (destruct Hc as [<-|Hc]; [reflexivity|]). destruct Hc.
  - destruct (new_total Rleb (fun l => l) (fun l => Permutation_refl l) fan false C K (or_introl eq_refl)) as (ft & F). exists ft. split; [exact F|]. now apply fan_inside.
  - intros sig DD c Hc. assert (Kc : c_kind c = Tri3) by (repeat (destruct Hc as [<-|Hc]; [reflexivity|]); destruct Hc). rewrite Kc. split; [reflexivity|].
    apply filter_In in Hc as (Ic & _). destruct (fan_grad (c_id c) c (cell_by_id fan c C Ic)) as (E & W & Ek & Es & G). split.
    + destruct (proj2 (proj1 (C67_vec_04 (1 / 1000) (fan_args (c_id c)) (repeat 0 6) (fun _ _ _ => Ok sig) ltac:(lra) W) ltac:(eauto))) as ([d' q] & H).
      { split; [|split; [discriminate|intros p _; apply G]]. unfold a_nnode. cbn [fan_args a_pad a_ii0]. rewrite Ek, Es. apply le_n. }
      exists d', q. unfold stressed. rewrite Kc. repeat split; auto.
    + destruct (proj2 (proj1 (C67_mat_10 (1 / 1000) (fan_args (c_id c)) 6 6 (zeros 6 6) (fun _ _ _ => Ok DD) ltac:(lra) W ltac:(discriminate) (zeros_matrix 6 6)) ltac:(eauto))) as ([kk' q] & H).
      { unfold a_nnode. cbn [fan_args a_pad a_ii0 a_jj0]. rewrite Ek, Es. split; [apply le_n|]. split; [apply le_n|]. split; [discriminate|intros p _; apply G]. }
      exists kk', q. unfold stiffened. rewrite Kc. repeat split; auto. exists 6%nat, 6%nat. apply zeros_matrix.
Qed.
