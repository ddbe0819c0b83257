(* Properties of /repo/src/util/grid_search.rs and num_divisions.rs: C13, C14, C15, C57. *)
From Coq Require Import String List Arith Bool Reals Lra Lia Permutation.
From Verif Require Import Base BaseFacts TopoModel GeomModel GeomSpec GeomProof GridModel GridSpec GridProof GridProof2 GridProof3.
Import ListNotations.
Open Scope R_scope.

(* [g] is a grid made by GridSearch::new with the given tolerance, then given the insertions [h] *)
Definition reached (xmin xmax : list R) (ndiv : option nat) (tol btol : R) (h : history) (g : grid) : Prop :=
  exists g0, grid_new xmin xmax ndiv (Some tol) (Some btol) = Ok g0 /\
    foldM (fun (g : grid) (p : nat * list R) => grid_insert g (fst p) (snd p)) h g0 = Ok g.

Lemma reached_facts xmin xmax ndiv tol btol h g : reached xmin xmax ndiv tol btol h g ->
  exists g0, wf g0 /\ holds g0 h g /\ g_ndim g0 = List.length xmin /\ g_tol g0 = tol /\ g_tol_dist g0 = sqrt (INR (List.length xmin)) * tol /\
   (forall x, in_box (g_xmin g) (g_xmax g) x <-> inside g0 x) /\
   (forall x, in_box (map (fun v => v - btol) xmin) (map (fun v => v + btol) xmax) x -> inside g0 x).
Proof.
  intros (g0 & N & I). destruct (new_ok _ _ _ _ _ _ N) as (W & E & D & T & B). exists g0. split; [auto|].
  pose proof (insert_all_holds g0 W E h g I) as H. split; [exact H|]. split; [exact D|]. split; [exact T|]. split; [rewrite (wf_tol_dist g0 W), D, T; reflexivity|]. split; [|exact B].
  intros x. exact (same_inside g0 g x (h_same _ _ _ H)).
Qed.

(* ------------------------------------------------------------------ C13 *)
Theorem C13_search_sound : forall sh xmin xmax ndiv tol btol h g y id, (forall c, Permutation (sh c) c) ->
  reached xmin xmax ndiv tol btol h g -> grid_search sh g y = Ok (Some id) ->
  exists x, In (id, x) h /\ List.length x = List.length y /\ euclid x y <= sqrt (INR (List.length xmin)) * tol.
Proof.
  intros sh xmin xmax ndiv tol btol h g y id Hs Hr E. destruct (reached_facts _ _ _ _ _ _ _ Hr) as (g0 & W & H & D & T & TD & B & _).
  destruct (inside_dec1 g0 y W) as [I|I].
  - destruct (search_spec sh Hs g0 h g y W H I) as (r & R & A & _). rewrite R in E. injection E as ->. destruct (A id eq_refl) as (x & X1 & X2). exists x. split; [auto|].
    split; [|rewrite <- TD; exact X2]. pose proof (h_box _ _ _ H _ _ X1) as (L1 & _). destruct I as (L2 & _). congruence.
  - destruct (search_err sh g0 h g y W H I) as (m & M). congruence.
Qed.
Print Assumptions C13_search_sound.

(* ------------------------------------------------------------------ C14 *)
Theorem C14_search_complete : forall sh xmin xmax ndiv tol btol h g id x y, (forall c, Permutation (sh c) c) ->
  reached xmin xmax ndiv tol btol h g -> last_insertion h id x -> close tol x y -> in_box (g_xmin g) (g_xmax g) y ->
  exists id', grid_search sh g y = Ok (Some id').
Proof.
  intros sh xmin xmax ndiv tol btol h g id x y Hs Hr Hl Hc Hi. destruct (reached_facts _ _ _ _ _ _ _ Hr) as (g0 & W & H & D & T & TD & B & _).
  apply B in Hi. destruct (search_spec sh Hs g0 h g y W H Hi) as (r & R & _ & C). rewrite <- T in Hc. specialize (C id x Hl Hc). destruct r as [id'|]; [eauto|contradiction].
Qed.
Print Assumptions C14_search_complete.

(* inserting and searching fail exactly outside the limits *)
Theorem C14_search_total : forall sh xmin xmax ndiv tol btol h g y, (forall c, Permutation (sh c) c) ->
  reached xmin xmax ndiv tol btol h g ->
  (in_box (g_xmin g) (g_xmax g) y -> exists r, grid_search sh g y = Ok r) /\
  (~ in_box (g_xmin g) (g_xmax g) y -> exists m, grid_search sh g y = Err m).
Proof.
  intros sh xmin xmax ndiv tol btol h g y Hs Hr. destruct (reached_facts _ _ _ _ _ _ _ Hr) as (g0 & W & H & D & T & TD & B & _). rewrite B. split; intros I.
  - destruct (search_spec sh Hs g0 h g y W H I) as (r & R & _). eauto.
  - exact (search_err sh g0 h g y W H I).
Qed.
Print Assumptions C14_search_total.

Theorem C14_insert_total : forall xmin xmax ndiv tol btol h g id x, reached xmin xmax ndiv tol btol h g ->
  (in_box (g_xmin g) (g_xmax g) x -> exists g', grid_insert g id x = Ok g' /\ reached xmin xmax ndiv tol btol (h ++ [(id, x)]) g') /\
  (~ in_box (g_xmin g) (g_xmax g) x -> exists m, grid_insert g id x = Err m).
Proof.
  intros xmin xmax ndiv tol btol h g id x Hr. destruct (reached_facts _ _ _ _ _ _ _ Hr) as (g0 & W & H & D & T & TD & B & _). split; intros I.
  - destruct (insert_ok g id x (h_wf _ _ _ H) I) as (g' & E & _). exists g'. split; [exact E|]. destruct Hr as (g1 & N & F). exists g1. split; [exact N|].
    rewrite foldM_app, F. cbn [bind foldM fst snd]. rewrite E. reflexivity.
  - exact (insert_err g id x (h_wf _ _ _ H) I).
Qed.
Print Assumptions C14_insert_total.

Theorem C14_is_outside : forall xmin xmax ndiv tol btol h g x, reached xmin xmax ndiv tol btol h g -> List.length x = List.length xmin ->
  exists b, is_outside g x = Ok b /\ (b = true <-> ~ in_box (g_xmin g) (g_xmax g) x).
Proof.
  intros xmin xmax ndiv tol btol h g x Hr L. destruct (reached_facts _ _ _ _ _ _ _ Hr) as (g0 & W & H & D & T & TD & B & _).
  apply (outside_spec g x (h_wf _ _ _ H)). rewrite (ndim_same g0 g (h_same _ _ _ H)). congruence.
Qed.
Print Assumptions C14_is_outside.

(* the limits contain the box given to the constructor, enlarged by the border tolerance *)
Theorem C14_limits_cover : forall xmin xmax ndiv tol btol h g x, reached xmin xmax ndiv tol btol h g ->
  in_box (map (fun v => v - btol) xmin) (map (fun v => v + btol) xmax) x -> in_box (g_xmin g) (g_xmax g) x.
Proof.
  intros xmin xmax ndiv tol btol h g x Hr I. destruct (reached_facts _ _ _ _ _ _ _ Hr) as (g0 & W & H & D & T & TD & B & C). apply B, C, I.
Qed.
Print Assumptions C14_limits_cover.

(* when a grid can be made: at least two divisions, and some side not too short for the tolerance *)
Theorem C14_new_total : forall xmin xmax ndiv tol btol i,
  (List.length xmin = 2 \/ List.length xmin = 3)%nat -> List.length xmax = List.length xmin -> (2 <= ndiv)%nat ->
  (forall i, (i < List.length xmin)%nat -> nth i xmin 0 < nth i xmax 0) -> 0 < tol -> 0 <= btol ->
  (i < List.length xmin)%nat -> 2 * tol * INR ndiv < nth i xmax 0 - nth i xmin 0 + 2 * btol ->
  exists g, grid_new xmin xmax (Some ndiv) (Some tol) (Some btol) = Ok g.
Proof. intros xmin xmax ndiv tol btol i A B C D E F. exact (new_total xmin xmax (Some ndiv) (Some tol) (Some btol) i A B C D E F). Qed.
Print Assumptions C14_new_total.

Theorem C14_new_no_panic : forall xmin xmax ndiv tol btol,
  (exists g, grid_new xmin xmax ndiv tol btol = Ok g) \/ exists m, grid_new xmin xmax ndiv tol btol = Err m.
Proof. exact new_no_panic. Qed.
Print Assumptions C14_new_no_panic.

(* a 2 by 2 grid with containers of side 1 *)
Lemma gW_new : exists g, grid_new [0; 0] [2; 2] (Some 2%nat) (Some (/10)) (Some 0) = Ok g /\
  g_ndim g = 2%nat /\ g_ndiv g = [2; 2]%nat /\ g_xmin g = [0; 0] /\ g_xmax g = [2; 2] /\ g_side g = 1 /\ g_tol g = /10 /\ g_tol_dist g = sqrt 2 * /10 /\ g_containers g = [] /\ wf g.
Proof.
  destruct (new_spec [0; 0] [2; 2] (Some 2%nat) (Some (/10)) (Some 0)) as (s & ndiv & L & B & C & _ & K); try reflexivity; simpl; auto; try lra.
  { intros [|[|i]] Hi; simpl in *; try lia; lra. }
  destruct (num_div_ok 1 2 [0; 0] [2; 2]) as (Lg & HL & _ & E); auto; try lia. { intros [|[|i]] Hi; simpl in *; try lia; lra. }
  assert (EN : num_divisions 1 2 [0; 0] [2; 2] = Ok [2; 2]%nat).
  { rewrite E. simpl. unfold chosen. assert (A : as_usize (2 / 2 * (1 + 1)) = 2%nat) by (apply as_usize_unique; simpl; lra).
    assert (Hq : (2 - 0) / (2 - 0) * (1 + 1) = 2 / 2 * (1 + 1)) by (f_equal; field).
    destruct Lg as [|[|Lg]]; [| |simpl in HL; lia]; simpl; rewrite Hq, A; reflexivity. }
  assert (E2 : exists g, grid_new [0; 0] [2; 2] (Some 2%nat) (Some (/10)) (Some 0) = Ok g /\ g_ndiv g = [2; 2]%nat /\ g_xmin g = [0; 0] /\ g_side g = 1 /\ g_xmax g = [0 + 1 * 2; 0 + 1 * 2]).
  { unfold grid_new. cbn -[num_divisions side_of Rleb Rltb]. rewrite EN. cbn -[side_of Rleb Rltb]. rewrite (proj2 (Rleb_false _ _)) by lra. rewrite !(proj2 (Rltb_false 0 0)) by lra.
    unfold side_of. simpl. replace ((2 - 0) / (1 + 1)) with 1 by lra. rewrite Rmax_left by lra. rewrite (proj2 (Rleb_false _ _)) by lra. eexists. split; [reflexivity|]. repeat split; simpl; repeat f_equal; lra. }
  destruct E2 as (g & E2 & A1 & A2 & A3 & A4). exists g. destruct (new_ok _ _ _ _ _ _ E2) as (W & EC & EN' & ET & _). simpl in EN', ET.
  repeat split; auto; try apply W.
  - rewrite A4. repeat f_equal; lra.
  - rewrite (wf_tol_dist g W), EN', ET. simpl. reflexivity.
Qed.

(* cells of points of that grid *)
Lemma gW_cell g x0 x1 c0 c1 : g_ndim g = 2%nat -> g_ndiv g = [2; 2]%nat -> g_xmin g = [0; 0] -> g_side g = 1 -> (c0 < 2)%nat -> (c1 < 2)%nat ->
  INR c0 <= x0 < INR c0 + 1 -> INR c1 <= x1 < INR c1 + 1 -> locates g [x0; x1] [c0; c1].
Proof.
  intros E1 E2 E3 E4 H0 H1 I0 I1. unfold locates. rewrite E1, E2, E3, E4. repeat split; auto; intros; destruct i as [|[|i]]; try lia; simpl; auto; try lra.
Qed.
Lemma gW_insert g id x0 x1 c0 c1 : wf g -> g_ndim g = 2%nat -> g_ndiv g = [2; 2]%nat -> g_xmin g = [0; 0] -> g_side g = 1 -> g_tol g = /10 -> (c0 < 2)%nat -> (c1 < 2)%nat ->
  INR c0 + /10 <= x0 < INR c0 + 9/10 -> INR c1 + /10 <= x1 < INR c1 + 9/10 -> grid_insert g id [x0; x1] = Ok (update_or_insert g (c0 + c1 * 2) id [x0; x1]).
Proof.
  intros W E1 E2 E3 E4 E5 H0 H1 I0 I1.
  assert (KE : keyof g [c0; c1] = (c0 + c1 * 2)%nat) by (unfold keyof; rewrite E2; simpl; lia).
  assert (K : forall u v, INR c0 <= u < INR c0 + 1 -> INR c1 <= v < INR c1 + 1 -> grid_key g [u; v] = Ok (Some (c0 + c1 * 2)%nat)).
  { intros u v Hu Hv. rewrite (key_loc g [u; v] [c0; c1] W) by (apply gW_cell; auto). rewrite KE. reflexivity. }
  unfold grid_insert. rewrite E1. cbn [List.length Nat.eqb negb]. rewrite K by lra. cbn [bind].
  set (g' := update_or_insert g (c0 + c1 * 2) id [x0; x1]).
  assert (K' : forall u v, INR c0 <= u < INR c0 + 1 -> INR c1 <= v < INR c1 + 1 -> grid_key g' [u; v] = Ok (Some (c0 + c1 * 2)%nat)) by exact K.
  unfold halo. change (g_ndim g') with (g_ndim g). change (g_tol g') with (g_tol g). rewrite E1, E5. cbn [get nth_error bind Nat.eqb foldM].
  rewrite !K' by lra. cbn [bind]. rewrite Nat.eqb_refl. cbn [bind]. rewrite K' by lra. cbn [bind]. rewrite Nat.eqb_refl. cbn [bind].
  rewrite K' by lra. cbn [bind]. rewrite Nat.eqb_refl. cbn [bind]. rewrite K' by lra. cbn [bind]. rewrite Nat.eqb_refl. reflexivity.
Qed.

(* a non-trivial history: two points, one of them near a container boundary *)
Example C14_ex : exists g, reached [0; 0] [2; 2] (Some 2%nat) (/10) 0 [(7%nat, [19/20; 1/2]); (8%nat, [3/2; 3/2])] g /\
  last_insertion [(7%nat, [19/20; 1/2]); (8%nat, [3/2; 3/2])] 7 [19/20; 1/2] /\ close (/10) [19/20; 1/2] [21/20; 1/2] /\ in_box (g_xmin g) (g_xmax g) [21/20; 1/2].
Proof.
  destruct gW_new as (g0 & N & A1 & A2 & A3 & A4 & A5 & A6 & A7 & A8 & W).
  assert (R0 : reached [0; 0] [2; 2] (Some 2%nat) (/10) 0 [] g0) by (exists g0; split; [exact N|reflexivity]).
  assert (Box : forall h g x, reached [0; 0] [2; 2] (Some 2%nat) (/10) 0 h g -> in_box [0; 0] [2; 2] x -> in_box (g_xmin g) (g_xmax g) x).
  { intros h g x R B. apply (C14_limits_cover _ _ _ _ _ _ _ _ R). simpl. rewrite !Rminus_0_r, !Rplus_0_r. exact B. }
  assert (BB : forall a b, 0 <= a <= 2 -> 0 <= b <= 2 -> in_box [0; 0] [2; 2] [a; b]).
  { intros a b Ha Hb. split; [reflexivity|]. intros [|[|i]] Hi; simpl in *; try lia; auto. }
  destruct (C14_insert_total _ _ _ _ _ _ _ 7%nat [19/20; 1/2] R0) as (I1 & _). destruct I1 as (g1 & _ & R1); [apply (Box _ _ _ R0), BB; lra|].
  destruct (C14_insert_total _ _ _ _ _ _ _ 8%nat [3/2; 3/2] R1) as (I2 & _). destruct I2 as (g2 & _ & R2); [apply (Box _ _ _ R1), BB; lra|].
  exists g2. split; [exact R2|]. split; [|split].
  - exists [], [(8%nat, [3/2; 3/2])]. split; [reflexivity|]. simpl. intros [H|[]]. discriminate.
  - split; [reflexivity|]. intros [|[|i]] Hi; simpl in *; try lia; apply Rabs_le; lra.
  - apply (Box _ _ _ R2), BB; lra.
Qed.

Lemma sqrt2_bounds : 14/10 < sqrt 2 < 15/10.
Proof.
  split.
  - rewrite <- (sqrt_square (14/10)) by lra. apply sqrt_lt_1; lra.
  - rewrite <- (sqrt_square (15/10)) by lra. apply sqrt_lt_1; lra.
Qed.

(* The distance used to compare points is sqrt(ndim) times the tolerance, but points that far apart in
   neighbouring containers are not always found. *)
Theorem C14_distance_complete_refuted : exists sh xmin xmax ndiv tol btol h g id x y,
  (forall c, Permutation (sh c) c) /\ reached xmin xmax ndiv tol btol h g /\ last_insertion h id x /\
  euclid x y <= sqrt (INR (List.length xmin)) * tol /\ in_box (g_xmin g) (g_xmax g) y /\ grid_search sh g y = Ok None.
Proof.
  destruct gW_new as (g0 & N & A1 & A2 & A3 & A4 & A5 & A6 & A7 & A8 & W).
  exists (fun c => c), [0; 0], [2; 2], (Some 2%nat), (/10), 0, [(7%nat, [88/100; 1/2])], (update_or_insert g0 0 7 [88/100; 1/2]), 7%nat, [88/100; 1/2], [101/100; 1/2].
  split; [auto|]. split; [|split; [|split; [|split]]].
  - exists g0. split; [exact N|]. cbn [foldM fst snd]. rewrite (gW_insert g0 7 (88/100) (1/2) 0 0) by (auto; simpl; lra). reflexivity.
  - exists [], []. split; [reflexivity|]. simpl. tauto.
  - pose proof sqrt2_bounds. unfold euclid. simpl. replace ((88 / 100 - 101 / 100) * (88 / 100 - 101 / 100) + ((1 / 2 - 1 / 2) * (1 / 2 - 1 / 2) + 0)) with ((13/100) * (13/100)) by lra.
    rewrite sqrt_square by lra. change (1 + 1) with 2. lra.
  - change (in_box (g_xmin g0) (g_xmax g0) [101/100; 1/2]). rewrite A3, A4. split; [reflexivity|]. intros [|[|i]] Hi; simpl in *; try lia; lra.
  - unfold grid_search. change (g_ndim (update_or_insert g0 0 7 [88 / 100; 1 / 2])) with (g_ndim g0). rewrite A1. cbn [List.length Nat.eqb negb].
    change (grid_key (update_or_insert g0 0 7 [88 / 100; 1 / 2])) with (grid_key g0). rewrite (key_loc g0 _ [1; 0]%nat W) by (apply gW_cell; auto; simpl; lra).
    cbn [bind]. unfold keyof. rewrite A2. simpl. rewrite A8. reflexivity.
Qed.
Print Assumptions C14_distance_complete_refuted.

(* Inserting an id again at another position keeps the old copy: a search may return an id that is now far away. *)
Theorem C13_current_position_refuted : exists sh xmin xmax ndiv tol btol h g id x y,
  (forall c, Permutation (sh c) c) /\ reached xmin xmax ndiv tol btol h g /\ last_insertion h id x /\
  grid_search sh g y = Ok (Some id) /\ sqrt (INR (List.length xmin)) * tol < euclid x y.
Proof.
  destruct gW_new as (g0 & N & A1 & A2 & A3 & A4 & A5 & A6 & A7 & A8 & W).
  set (g1 := update_or_insert g0 0 7 [1/2; 1/2]). set (g2 := update_or_insert g1 1 7 [3/2; 1/2]).
  assert (I1 : grid_insert g0 7 [1/2; 1/2] = Ok g1) by (apply (gW_insert g0 7 (1/2) (1/2) 0 0); auto; simpl; lra).
  assert (W1 : wf g1) by (apply upd_wf; auto).
  assert (I2 : grid_insert g1 7 [3/2; 1/2] = Ok g2) by (apply (gW_insert g1 7 (3/2) (1/2) 1 0); auto; simpl; lra).
  exists (fun c => c), [0; 0], [2; 2], (Some 2%nat), (/10), 0, [(7%nat, [1/2; 1/2]); (7%nat, [3/2; 1/2])], g2, 7%nat, [3/2; 1/2], [1/2; 1/2].
  pose proof sqrt2_bounds.
  split; [auto|]. split; [|split; [|split]].
  - exists g0. split; [exact N|]. cbn [foldM fst snd]. rewrite I1. cbn [bind]. rewrite I2. reflexivity.
  - exists [(7%nat, [1/2; 1/2])], []. split; [reflexivity|]. simpl. tauto.
  - unfold grid_search. change (g_ndim g2) with (g_ndim g0). rewrite A1. cbn [List.length Nat.eqb negb].
    change (grid_key g2) with (grid_key g0). rewrite (key_loc g0 _ [0; 0]%nat W) by (apply gW_cell; auto; simpl; lra).
    cbn [bind]. unfold keyof. rewrite A2. change (g_tol_dist g2) with (g_tol_dist g0). rewrite A7. simpl. rewrite A8. cbn -[point_point_distance Rleb].
    rewrite ppd_ok by auto. cbn [bind]. rewrite (proj2 (Rleb_iff _ _)); [reflexivity|]. unfold euclid. simpl. 
    replace ((1 / 2 - 1 / 2) * (1 / 2 - 1 / 2) + ((1 / 2 - 1 / 2) * (1 / 2 - 1 / 2) + 0)) with 0 by lra. rewrite sqrt_0. lra.
  - unfold euclid. simpl. replace ((3 / 2 - 1 / 2) * (3 / 2 - 1 / 2) + ((1 / 2 - 1 / 2) * (1 / 2 - 1 / 2) + 0)) with (1 * 1) by lra. rewrite sqrt_square by lra. change (1 + 1) with 2. lra.
Qed.
Print Assumptions C13_current_position_refuted.

(* The documentation accepts one division ("must be >= 1"), the constructor never does. *)
Theorem C14_one_division_refuted : forall xmin xmax tol btol, (List.length xmin = 2 \/ List.length xmin = 3)%nat -> List.length xmax = List.length xmin ->
  grid_new xmin xmax (Some 1%nat) tol btol = Err "ndiv_long must be > ndiv_min"%string.
Proof.
  intros xmin xmax tol btol L M. unfold grid_new. rewrite M, Nat.eqb_refl. destruct L as [-> | ->]; reflexivity.
Qed.
Print Assumptions C14_one_division_refuted.

(* ------------------------------------------------------------------ C15 *)
Theorem C15_on_line : forall shk sh xmin xmax ndiv tol btol h g a b filter,
  (forall l, Permutation (shk l) l) -> (forall c, Permutation (sh c) c) -> reached xmin xmax ndiv tol btol h g ->
  List.length a = List.length xmin -> List.length b = List.length xmin -> EPSILON < sqdist b a ->
  exists ids, search_on_line shk sh g a b filter = Ok ids /\
    selects h (fun x => within (on_line a b) (sqrt (INR (List.length xmin)) * tol) x /\ filter x = true) ids.
Proof.
  intros shk sh xmin xmax ndiv tol btol h g a b filter Hk Hs Hr La Lb HE. destruct (reached_facts _ _ _ _ _ _ _ Hr) as (g0 & W & H & D & T & TD & B & _).
  rewrite <- TD. rewrite <- D in La, Lb. exact (on_line_spec shk sh Hk Hs g0 h g a b filter W H La Lb HE).
Qed.
Print Assumptions C15_on_line.

Theorem C15_on_circle : forall shk sh xmin xmax ndiv tol btol h g center radius filter,
  (forall l, Permutation (shk l) l) -> (forall c, Permutation (sh c) c) -> reached xmin xmax ndiv tol btol h g ->
  List.length xmin = 2%nat -> List.length center = 2%nat -> 0 <= radius ->
  exists ids, search_on_circle shk sh g center radius filter = Ok ids /\
    selects h (fun x => within (on_circle center radius) (sqrt (INR (List.length xmin)) * tol) x /\ filter x = true) ids.
Proof.
  intros shk sh xmin xmax ndiv tol btol h g cen radius filter Hk Hs Hr N L HR. destruct (reached_facts _ _ _ _ _ _ _ Hr) as (g0 & W & H & D & T & TD & B & _).
  rewrite <- TD. rewrite <- D in N. exact (on_circle_spec shk sh Hk Hs g0 h g cen radius filter W H N L HR).
Qed.
Print Assumptions C15_on_circle.

Theorem C15_on_cylinder : forall shk sh xmin xmax ndiv tol btol h g a b radius filter,
  (forall l, Permutation (shk l) l) -> (forall c, Permutation (sh c) c) -> reached xmin xmax ndiv tol btol h g ->
  List.length xmin = 3%nat -> List.length a = 3%nat -> List.length b = 3%nat -> 0 <= radius -> EPSILON < sqdist b a ->
  exists ids, search_on_cylinder shk sh g a b radius filter = Ok ids /\
    selects h (fun x => within (on_cylinder a b radius) (sqrt (INR (List.length xmin)) * tol) x /\ filter x = true) ids.
Proof.
  intros shk sh xmin xmax ndiv tol btol h g a b radius filter Hk Hs Hr N La Lb HR HE. destruct (reached_facts _ _ _ _ _ _ _ Hr) as (g0 & W & H & D & T & TD & B & _).
  rewrite <- TD. rewrite <- D in N. exact (on_cylinder_spec shk sh Hk Hs g0 h g a b radius filter W H N La Lb HR HE).
Qed.
Print Assumptions C15_on_cylinder.

Theorem C15_on_plane : forall shk sh xmin xmax ndiv tol btol h g coord filter,
  (forall l, Permutation (shk l) l) -> (forall c, Permutation (sh c) c) -> reached xmin xmax ndiv tol btol h g -> List.length xmin = 3%nat ->
  (exists ids, search_on_plane_yz shk sh g coord filter = Ok ids /\
    selects h (fun x => within (on_plane 3 0 coord) (sqrt (INR (List.length xmin)) * tol) x /\ filter x = true) ids) /\
  (exists ids, search_on_plane_xz shk sh g coord filter = Ok ids /\
    selects h (fun x => within (on_plane 3 1 coord) (sqrt (INR (List.length xmin)) * tol) x /\ filter x = true) ids) /\
  (exists ids, search_on_plane_xy shk sh g coord filter = Ok ids /\
    selects h (fun x => within (on_plane 3 2 coord) (sqrt (INR (List.length xmin)) * tol) x /\ filter x = true) ids).
Proof.
  intros shk sh xmin xmax ndiv tol btol h g coord filter Hk Hs Hr N. destruct (reached_facts _ _ _ _ _ _ _ Hr) as (g0 & W & H & D & T & TD & B & _).
  rewrite <- TD. rewrite <- D in N. unfold search_on_plane_yz, search_on_plane_xz, search_on_plane_xy. rewrite (ndim_same g0 g (h_same _ _ _ H)), N. cbn [Nat.eqb negb].
  split; [|split]; apply (on_plane_spec shk sh Hk Hs g0 h g); auto.
Qed.
Print Assumptions C15_on_plane.

(* wrong dimensions are errors; so is a line or cylinder axis through two points that are too close, unless the grid is empty *)
Theorem C15_errors : forall shk sh xmin xmax ndiv tol btol h g a b radius coord filter,
  (forall l, Permutation (shk l) l) -> reached xmin xmax ndiv tol btol h g ->
  (~ (List.length a = List.length xmin /\ List.length b = List.length xmin) \/ (h <> [] /\ sqdist b a <= EPSILON) ->
     exists m, search_on_line shk sh g a b filter = Err m) /\
  (~ (List.length xmin = 2 /\ List.length a = 2)%nat -> exists m, search_on_circle shk sh g a radius filter = Err m) /\
  (~ (List.length xmin = 3 /\ List.length a = 3 /\ List.length b = 3)%nat \/ (h <> [] /\ sqdist b a <= EPSILON) ->
     exists m, search_on_cylinder shk sh g a b radius filter = Err m) /\
  (List.length xmin <> 3%nat -> (exists m, search_on_plane_yz shk sh g coord filter = Err m) /\ (exists m, search_on_plane_xz shk sh g coord filter = Err m) /\
    (exists m, search_on_plane_xy shk sh g coord filter = Err m)).
Proof.
  intros shk sh xmin xmax ndiv tol btol h g a b radius coord filter Hk Hr. destruct (reached_facts _ _ _ _ _ _ _ Hr) as (g0 & W & H & D & T & TD & B & _).
  pose proof (ndim_same g0 g (h_same _ _ _ H)) as ND. rewrite D in ND.
  assert (NE : h <> [] -> forall dn, (forall c, exists m, dn c = Err m) -> exists m, containers_near shk g dn = Err m).
  { intros Hh dn Hd. apply (near_err shk Hk g dn (h_wf _ _ _ H)); [|exact Hd]. eapply nonempty_holds; eauto. }
  split; [|split; [|split]].
  - intros [N|(N & E)]; unfold search_on_line; rewrite ND.
    + destruct (List.length a =? List.length xmin)%nat eqn:E1; [|simpl; eauto]. destruct (List.length b =? List.length xmin)%nat eqn:E2; [|simpl; eauto]. apply Nat.eqb_eq in E1, E2. tauto.
    + destruct (List.length a =? List.length xmin)%nat eqn:E1; [|simpl; eauto]. destruct (List.length b =? List.length xmin)%nat eqn:E2; [|simpl; eauto]. cbn [negb].
      destruct (NE N (point_line_distance a b)) as (m & ->); [|simpl; eauto]. intros c. apply pld_err. intros (_ & _ & _ & X). lra.
  - intros N. unfold search_on_circle. rewrite ND. destruct (List.length xmin =? 2)%nat eqn:E1; [|simpl; eauto]. destruct (List.length a =? List.length xmin)%nat eqn:E2; [|simpl; eauto].
    apply Nat.eqb_eq in E1, E2. exfalso. apply N. lia.
  - intros N. unfold search_on_cylinder. rewrite ND. destruct (List.length xmin =? 3)%nat eqn:E0; [|simpl; eauto]. cbn [negb].
    destruct (List.length a =? List.length xmin)%nat eqn:E1; [|simpl; eauto]. destruct (List.length b =? List.length xmin)%nat eqn:E2; [|simpl; eauto]. cbn [negb]. apply Nat.eqb_eq in E0, E1, E2.
    destruct N as [N|(N & E)]; [exfalso; apply N; lia|].
    destruct (NE N (point_cylinder_distance a b radius)) as (m & ->); [|simpl; eauto]. intros c. apply cylinder_err. intros (_ & _ & _ & X). lra.
  - intros N. unfold search_on_plane_yz, search_on_plane_xz, search_on_plane_xy. rewrite ND. rewrite (proj2 (Nat.eqb_neq _ 3)) by auto. simpl. repeat split; eauto.
Qed.
Print Assumptions C15_errors.

(* when no id is inserted twice the answers are exactly the ids with the property *)
Theorem C15_exact : forall (h : history) ok ids, NoDup (map fst h) -> selects h ok ids ->
  NoDup ids /\ forall id, In id ids <-> exists x, In (id, x) h /\ ok x.
Proof.
  intros h ok ids N (A & B & C). split; [exact A|]. intros id. split; [apply B|]. intros (x & I & O). apply (C id x); auto.
  apply in_split in I as (h1 & h2 & ->). exists h1, h2. split; [reflexivity|]. rewrite map_app in N. simpl in N. apply NoDup_remove_2 in N. intros Q. apply N, in_or_app. auto.
Qed.
Print Assumptions C15_exact.

Example C15_ex : exists h, NoDup (map fst h) /\ (exists g, reached [0; 0] [2; 2] (Some 2%nat) (/10) 0 h g) /\
  EPSILON < sqdist [2; 1/2] [0; 1/2] /\ (exists x, In (7%nat, x) h /\ within (on_line [0; 1/2] [2; 1/2]) (sqrt 2 * /10) x) /\
  (forall x, In (8%nat, x) h -> ~ within (on_line [0; 1/2] [2; 1/2]) (sqrt 2 * /10) x).
Proof.
  destruct C14_ex as (g & R & _). exists [(7%nat, [19/20; 1/2]); (8%nat, [3/2; 3/2])]. pose proof sqrt2_bounds. split; [|split; [eauto|split; [|split]]].
  - constructor; [intros [Q|[]]; discriminate|]. constructor; [intros []|constructor].
  - simpl. assert (Q : EPSILON <= 1). { unfold EPSILON. rewrite <- Rinv_1. apply Rinv_le_contravar; [lra|]. apply pow_R1_Rle. lra. } lra.
  - exists [19/20; 1/2]. split; [left; reflexivity|]. exists [19/20; 1/2]. split.
    + exists (19/40). simpl. f_equal; [lra|f_equal; lra].
    + unfold euclid. simpl. replace ((19 / 20 - 19 / 20) * (19 / 20 - 19 / 20) + ((1 / 2 - 1 / 2) * (1 / 2 - 1 / 2) + 0)) with 0 by lra. rewrite sqrt_0. lra.
  - intros x [Q|[Q|[]]]; [discriminate|]. injection Q as <-. intros (p & (t & ->) & E). simpl in E.
    assert (Z : Rabs (3/2 - (1 / 2 + t * (1 / 2 - 1 / 2))) <= sqrt 2 * / 10).
    { eapply Rle_trans; [|exact E]. apply coord_le_euclid with (i := 1%nat); reflexivity. }
    apply abs_le in Z. lra.
Qed.

(* ------------------------------------------------------------------ C57 *)
(* The longest direction gets ndiv_long divisions; the others between ndiv_min and ndiv_long, as many as
   possible with divisions at least as wide as those of the longest direction. *)
Theorem C57_num_divisions : forall m l xmin xmax, (1 <= m)%nat -> (m < l)%nat ->
  List.length xmin = List.length xmax -> (2 <= List.length xmin)%nat -> (forall i, (i < List.length xmin)%nat -> nth i xmin 0 < nth i xmax 0) ->
  exists ndiv L, num_divisions m l xmin xmax = Ok ndiv /\ List.length ndiv = List.length xmin /\ (L < List.length xmin)%nat /\
    nth L ndiv 0%nat = l /\
    forall i, (i < List.length xmin)%nat ->
      let len j := nth j xmax 0 - nth j xmin 0 in
      let width := len L / INR l in
      len i <= len L /\ (m <= nth i ndiv 0 <= l)%nat /\ len i < (INR (nth i ndiv 0%nat) + 1) * width /\
      (nth i ndiv 0%nat = m \/ INR (nth i ndiv 0%nat) * width <= len i).
Proof.
  intros m l xmin xmax Hm Hl E N P. destruct (num_div_ok m l xmin xmax Hm Hl E N P) as (L & HL & HM & Q).
  assert (NN : forall i, (i < List.length xmin)%nat -> nth i (map (chosen m l L xmin xmax) (seq 0 (List.length xmin))) 0%nat = chosen m l L xmin xmax i).
  { intros i Hi. erewrite nth_indep by (rewrite map_length, seq_length; exact Hi). rewrite (map_nth _ _ 0%nat), seq_nth by auto. reflexivity. }
  eexists _, L. split; [exact Q|]. split; [rewrite map_length, seq_length; reflexivity|]. split; [exact HL|]. split; [rewrite NN by auto; unfold chosen; rewrite Nat.eqb_refl; reflexivity|].
  intros i Hi len width. rewrite NN by auto. assert (B : 0 < nth i xmax 0 - nth i xmin 0 <= nth L xmax 0 - nth L xmin 0) by (specialize (P i Hi); specialize (HM i Hi); lra).
  split; [apply HM; auto|]. split; [apply chosen_bounds; auto|]. exact (chosen_width m l L xmin xmax i Hm Hl B).
Qed.
Print Assumptions C57_num_divisions.

Theorem C57_rejects : forall m l xmin xmax,
  ~ ((1 <= m)%nat /\ (m < l)%nat /\ List.length xmin = List.length xmax /\ (2 <= List.length xmin)%nat /\ (forall i, (i < List.length xmin)%nat -> nth i xmin 0 < nth i xmax 0)) ->
  exists msg, num_divisions m l xmin xmax = Err msg.
Proof.
  intros m l xmin xmax H. destruct (num_div_no_panic m l xmin xmax) as [(ndiv & E)|E]; [|exact E]. apply num_div_inv in E. tauto.
Qed.
Print Assumptions C57_rejects.
Example C57_ex : (1 <= 1)%nat /\ (1 < 10)%nat /\ forall i, (i < 3)%nat -> nth i [0; -1; 2] 0 < nth i [4; 1; 3] 0.
Proof. split; [lia|]. split; [lia|]. intros [|[|[|i]]] H; simpl; try lia; lra. Qed.
