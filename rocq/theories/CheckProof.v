(* Proofs: the check of overlapping points *)
From Coq Require Import String List Arith Bool Reals Lra Lia Permutation.
From Verif Require Import Base BaseFacts Kind MeshModel MeshQuerySpec TopoModel TopoSpec TopoMaps TopoFeat TopoFeat4 TopoFinal
  GeomModel GeomSpec GeomProof GridModel GridSpec GridProof GridProof2 GridProof3 PropGrid SearchProof JoinProof CheckModel CheckSpec.
Import ListNotations.
Open Scope R_scope.

Section Check.
Variable sh : option nat -> container -> container.
Hypothesis shP : forall k c, Permutation (sh k c) c.

Definition coord_set (l : list (point R)) (j : nat) (y : R) : Prop := exists p, In p l /\ nth_error (pt_coords p) j = Some y.

Lemma limits_fold nd l : (forall p, In p l -> List.length (pt_coords p) = nd) -> forall S lim, lim_of Rleb nd S lim ->
  exists lim', foldM (fun (lim : limits) p => grow Rleb nd lim (pt_coords p)) l lim = Ok lim' /\
    lim_of Rleb nd (fun j y => S j y \/ coord_set l j y) lim'.
Proof.
  induction l as [|p l IH]; intros HL S lim L.
  - exists lim. split; [reflexivity|]. eapply lim_ext; [|exact L]. intros j y _. split; [auto|]. intros [H|(q & [] & _)]. exact H.
  - destruct (grow_total Rleb nd lim (pt_coords p)) as (l1 & E1 & _); [apply L|apply L|apply HL; left; auto|].
    destruct (grow_spec Rleb Rleb_total nd S lim (pt_coords p) l1 L E1) as (_ & L1).
    destruct (IH (fun q Hq => HL q (or_intror Hq)) _ _ L1) as (l2 & E2 & L2). exists l2. split; [cbn [foldM]; rewrite E1; exact E2|].
    eapply lim_ext; [|exact L2]. intros j y _. split.
    + intros [[H|H]|(q & Iq & H)]; [auto|right; exists p; split; [left; auto|auto]|right; exists q; split; [right; auto|auto]].
    + intros [H|(q & [<-|Iq] & H)]; [auto|auto|right; exists q; auto].
Qed.
Lemma limits_spec m : coords_complete m -> exists lim, mesh_limits m = Ok lim /\ lim_of Rleb (ndim m) (coord_set (points m)) lim.
Proof.
  intros CC. destruct (limits_fold (ndim m) (points m) CC _ _ (lim_none Rleb (ndim m))) as (lim & E & L). exists lim. split; [exact E|].
  eapply lim_ext; [|exact L]. intros j y _. cbn. tauto.
Qed.

Lemma set_ok l : (forall j, (j < List.length l)%nat -> nth j l None <> None) ->
  exists r, mapM set_limit l = Ok r /\ List.length r = List.length l /\ forall j, (j < List.length l)%nat -> nth j l None = Some (nth j r 0).
Proof.
  induction l as [|o l IH]; intros H; [exists []; repeat split; auto; cbn; lia|].
  destruct o as [x|]; [|exfalso; apply (H 0%nat); [cbn; lia|reflexivity]].
  destruct IH as (r & E & L & N). { intros j Hj. apply (H (S j)). cbn. lia. }
  exists (x :: r). cbn [mapM set_limit bind]. rewrite E. cbn [bind]. split; [reflexivity|]. split; [cbn; lia|].
  intros [|j] Hj; [reflexivity|]. cbn in *. apply N. lia.
Qed.

Lemma coord_nth m j y : coords_complete m -> (j < ndim m)%nat -> (coord_set (points m) j y <-> exists p, In p (points m) /\ nth j (pt_coords p) 0 = y).
Proof.
  intros CC Hj. split; intros (p & I & E); exists p; (split; [exact I|]).
  - eapply nth_error_nth; eauto.
  - rewrite <- E. apply nth_error_nth'. rewrite (CC p I). exact Hj.
Qed.

(* the limits are attained *)
Definition limits_of (m : mesh R) (xmin xmax : list R) : Prop :=
  List.length xmin = ndim m /\ List.length xmax = ndim m /\
  forall j, (j < ndim m)%nat ->
    (exists p, In p (points m) /\ nth j (pt_coords p) 0 = nth j xmin 0) /\ (exists p, In p (points m) /\ nth j (pt_coords p) 0 = nth j xmax 0) /\
    (forall p, In p (points m) -> nth j xmin 0 <= nth j (pt_coords p) 0 <= nth j xmax 0).
Lemma limits_run m : coords_complete m -> points m <> [] -> exists lim xmin xmax,
  mesh_limits m = Ok lim /\ mapM set_limit (fst lim) = Ok xmin /\ mapM set_limit (snd lim) = Ok xmax /\ limits_of m xmin xmax.
Proof.
  intros CC NE. destruct (limits_spec m CC) as (lim & E & L1 & L2 & L).
  assert (NN : forall j, (j < ndim m)%nat -> exists y, coord_set (points m) j y).
  { intros j Hj. destruct (points m) as [|p t] eqn:Ep; [congruence|]. exists (nth j (pt_coords p) 0). rewrite <- Ep. apply coord_nth; auto. exists p. rewrite Ep. split; [left|]; auto. }
  destruct (set_ok (fst lim)) as (xmin & E1 & N1 & A1).
  { intros j Hj Q. rewrite L1 in Hj. destruct (L j Hj) as (A & _). rewrite Q in A. destruct (NN j Hj) as (y & Y). exact (A y Y). }
  destruct (set_ok (snd lim)) as (xmax & E2 & N2 & A2).
  { intros j Hj Q. rewrite L2 in Hj. destruct (L j Hj) as (_ & A). rewrite Q in A. destruct (NN j Hj) as (y & Y). exact (A y Y). }
  exists lim, xmin, xmax. split; [exact E|]. split; [exact E1|]. split; [exact E2|]. split; [congruence|]. split; [congruence|].
  intros j Hj. destruct (L j Hj) as (A & B). rewrite A1 in A by congruence. rewrite A2 in B by congruence.
  destruct A as (A & A'), B as (B & B'). apply coord_nth in A; auto. apply coord_nth in B; auto. split; [exact A|]. split; [exact B|].
  intros p Hp. split; apply Rleb_iff; [apply A'|apply B']; apply coord_nth; eauto.
Qed.

Lemma grid_run m xmin xmax tol g0 : valid m -> limits_of m xmin xmax -> grid_new xmin xmax None (Some tol) None = Ok g0 ->
  wf g0 /\ g_ndim g0 = ndim m /\ g_tol g0 = tol /\ (forall p, In p (points m) -> inside g0 (pt_coords p)) /\
  exists g, foldM (fun (g : grid) p => grid_insert g (pt_id p) (pt_coords p)) (points m) g0 = Ok g /\ holds g0 (hist_of m) g.
Proof.
  intros (C & CC & D) (L1 & L2 & L) N. destruct (new_ok _ _ _ _ _ _ N) as (W & E0 & EN & ET & IB). cbn [the_tol] in ET.
  assert (IN : forall p, In p (points m) -> inside g0 (pt_coords p)).
  { intros p Hp. apply IB. split; [rewrite map_length, (CC p Hp); auto|]. intros i Hi. rewrite map_length in Hi. rewrite !nth_map0 by lia.
    destruct (L i ltac:(lia)) as (_ & _ & B). specialize (B p Hp). cbn [the_border]. unfold GS_DEFAULT_BORDER_TOL. lra. }
  split; [exact W|]. split; [congruence|]. split; [exact ET|]. split; [exact IN|].
  assert (X : forall l g, wf g -> same g0 g -> (forall p, In p l -> In p (points m)) -> exists g', foldM (fun (g : grid) p => grid_insert g (pt_id p) (pt_coords p)) l g = Ok g').
  { induction l as [|p l IH]; intros g Wg S I; [eexists; reflexivity|]. cbn [foldM].
    destruct (insert_ok g (pt_id p) (pt_coords p) Wg) as (g' & E & W' & S' & _). { rewrite (same_inside g0 g _ S). apply IN, I. left. auto. }
    rewrite E. cbn [bind]. apply IH; auto. { eapply same_trans; eauto. } intros q Hq. apply I. right. auto. }
  destruct (X (points m) g0 W (same_refl g0) (fun p H => H)) as (g & E). exists g. split; [exact E|].
  apply insert_all_holds; auto. unfold GridProof.insert_all, hist_of. rewrite <- (foldM_map (fun (g : grid) (p : nat * list R) => grid_insert g (fst p) (snd p)) (fun p : point R => (pt_id p, pt_coords p))). exact E.
Qed.

Definition verdict (g : grid) (l : list (point R)) : res unit :=
  foldM (fun (_ : unit) p =>
    let! o := visit sh g (pt_coords p) in
    match o with
    | Some id => if negb (id =? pt_id p)%nat then Err "found overlapping points"%string else Ok tt
    | None => Ok tt
    end) l tt.

Lemma verdict_spec g l : (forall p, In p l -> exists o, visit sh g (pt_coords p) = Ok o) ->
  (verdict g l = Ok tt /\ forall p id, In p l -> visit sh g (pt_coords p) = Ok (Some id) -> id = pt_id p) \/
  (verdict g l = Err "found overlapping points"%string /\ exists p id, In p l /\ visit sh g (pt_coords p) = Ok (Some id) /\ id <> pt_id p).
Proof.
  induction l as [|p l IH]; intros H.
  - left. split; [reflexivity|]. intros p id [].
  - destruct (H p (or_introl eq_refl)) as (o & E). unfold verdict. cbn [foldM]. rewrite E. cbn [bind].
    destruct (IH (fun q Hq => H q (or_intror Hq))) as [(V & A)|(V & q & id & Iq & Eq & Nq)]; fold (verdict g l) in V |- *.
    + destruct o as [id|].
      * destruct (Nat.eqb_spec id (pt_id p)) as [->|Ne]; cbn [negb bind].
        -- left. split; [exact V|]. intros q id' [<-|Iq] Eq; [congruence|eauto].
        -- right. split; [reflexivity|]. exists p, id. split; [left; auto|auto].
      * left. split; [exact V|]. intros q id' [<-|Iq] Eq; [congruence|eauto].
    + right. destruct o as [id'|]; [destruct (Nat.eqb_spec id' (pt_id p)); cbn [negb bind]|]; (split; [first [exact V|reflexivity]|exists q, id; split; [right; auto|auto]]).
Qed.

(* the point itself is always found, or another one *)
Lemma visit_spec m tol g0 g p : valid m -> wf g0 -> g_ndim g0 = ndim m -> g_tol g0 = tol -> (forall p, In p (points m) -> inside g0 (pt_coords p)) ->
  holds g0 (hist_of m) g -> In p (points m) ->
  exists id q, visit sh g (pt_coords p) = Ok (Some id) /\ nth_error (points m) id = Some q /\ euclid (pt_coords q) (pt_coords p) <= sqrt (INR (ndim m)) * tol.
Proof.
  intros (C & CC & D) W EN ET IN H I. unfold visit. set (s := match grid_key g (pt_coords p) with Ok k => sh k | _ => fun c => c end).
  assert (SP : forall c, Permutation (s c) c) by (intros c; unfold s; destruct (grid_key g (pt_coords p)); auto).
  destruct (search_spec s SP g0 (hist_of m) g (pt_coords p) W H (IN p I)) as (r & E & A & B).
  destruct (In_nth_error _ _ I) as (i & Ni).
  assert (Hi : In (i, pt_coords p) (hist_of m)) by (apply hist_in; eauto).
  destruct r as [id|].
  - destruct (A id eq_refl) as (x & Hx & Dx). apply (hist_in m id x C) in Hx as (q & Nq & <-). exists id, q. split; [exact E|]. split; [exact Nq|].
    rewrite (wf_tol_dist g0 W), EN, ET in Dx. exact Dx.
  - exfalso. apply (B i (pt_coords p) (hist_last m _ _ C Hi)); [|reflexivity]. split; [reflexivity|]. intros j Hj. rewrite Rminus_diag_eq, Rabs_R0 by reflexivity. pose proof (wf_tol g0 W). lra.
Qed.

(* points with the same coordinates see the same container *)
Lemma visit_same g x y : x = y -> visit sh g x = visit sh g y.
Proof. intros ->. reflexivity. Qed.

Lemma check_run m tol : valid m -> 0 < tol -> roomy m tol ->
  exists g0 g xmin xmax, check_overlapping_points sh m tol = verdict g (points m) /\ limits_of m xmin xmax /\ grid_new xmin xmax None (Some tol) None = Ok g0 /\
    wf g0 /\ g_ndim g0 = ndim m /\ g_tol g0 = tol /\ (forall p, In p (points m) -> inside g0 (pt_coords p)) /\ holds g0 (hist_of m) g.
Proof.
  intros V T (R1 & i & Hi & R2). pose proof V as (C & CC & D).
  assert (NE : points m <> []). { destruct (R1 0%nat ltac:(lia)) as (p & _ & I & _). intros Q. rewrite Q in I. destruct I. }
  destruct (limits_run m CC NE) as (lim & xmin & xmax & E & E1 & E2 & L). pose proof L as (L1 & L2 & LL).
  assert (GE : exists g0, grid_new xmin xmax None (Some tol) None = Ok g0).
  { apply new_total with (i := i); rewrite ?L1; auto; cbn [the_tol the_border the_ndiv]; unfold GS_DEFAULT_NDIV, GS_DEFAULT_BORDER_TOL; try lra; try lia.
    - intros j Hj. destruct (R1 j Hj) as (p & q & Ip & Iq & O). destruct (LL j Hj) as (_ & _ & B). pose proof (B p Ip). pose proof (B q Iq). lra.
    - destruct R2 as (p & q & Ip & Iq & O). destruct (LL i Hi) as (_ & _ & B). pose proof (B p Ip). pose proof (B q Iq).
      replace (INR 100) with 100 by (rewrite INR_IZR_INZ; reflexivity). lra. }
  destruct GE as (g0 & G0). destruct (grid_run m xmin xmax tol g0 V L G0) as (W & EN & ET & IN & g & Eg & H).
  exists g0, g, xmin, xmax. split; [|split; [exact L|split; [exact G0|split; [exact W|split; [exact EN|split; [exact ET|split; [exact IN|exact H]]]]]]].
  unfold check_overlapping_points. rewrite E. cbn [bind]. rewrite E1. cbn [bind]. rewrite E2. cbn [bind]. rewrite G0. cbn [bind]. rewrite Eg. reflexivity.
Qed.

Lemma check_total m tol : valid m -> 0 < tol -> roomy m tol ->
  check_overlapping_points sh m tol = Ok tt \/ check_overlapping_points sh m tol = Err "found overlapping points"%string.
Proof.
  intros V T Rm. destruct (check_run m tol V T Rm) as (g0 & g & xmin & xmax & -> & _ & _ & W & EN & ET & IN & H).
  destruct (verdict_spec g (points m)) as [(A & _)|(A & _)]; auto.
  intros p I. destruct (visit_spec m tol g0 g p V W EN ET IN H I) as (id & q & E & _). eauto.
Qed.
Lemma check_sound m tol : valid m -> 0 < tol -> roomy m tol ->
  check_overlapping_points sh m tol <> Ok tt -> near_pair m (sqrt (INR (ndim m)) * tol).
Proof.
  intros V T Rm. destruct (check_run m tol V T Rm) as (g0 & g & xmin & xmax & -> & _ & _ & W & EN & ET & IN & H). intros Ne.
  assert (TT : forall p, In p (points m) -> exists o, visit sh g (pt_coords p) = Ok o).
  { intros p I. destruct (visit_spec m tol g0 g p V W EN ET IN H I) as (id & q & E & _). eauto. }
  destruct (verdict_spec g (points m) TT) as [(A & _)|(_ & p & id & I & E & Nid)]; [congruence|].
  destruct (visit_spec m tol g0 g p V W EN ET IN H I) as (id' & q & E' & Nq & Dq). rewrite E in E'. injection E' as <-.
  destruct (In_nth_error _ _ I) as (i & Ni). destruct V as ((C & _) & _). exists q, p. split; [|exact Dq]. exists id, i. rewrite (C i p Ni) in Nid. auto.
Qed.
Lemma check_duplicates m tol : valid m -> 0 < tol -> roomy m tol -> duplicated m ->
  check_overlapping_points sh m tol = Err "found overlapping points"%string.
Proof.
  intros V T Rm (p & q & (i & j & Nij & Ni & Nj) & E). destruct (check_run m tol V T Rm) as (g0 & g & xmin & xmax & -> & _ & _ & W & EN & ET & IN & H).
  assert (TT : forall p, In p (points m) -> exists o, visit sh g (pt_coords p) = Ok o).
  { intros p' I. destruct (visit_spec m tol g0 g p' V W EN ET IN H I) as (id & q' & Eq & _). eauto. }
  destruct (verdict_spec g (points m) TT) as [(_ & B)|(A & _)]; [|exact A]. exfalso.
  pose proof (nth_error_In _ _ Ni) as Ip. pose proof (nth_error_In _ _ Nj) as Iq.
  destruct (visit_spec m tol g0 g p V W EN ET IN H Ip) as (id & _ & E1 & _). pose proof (B p id Ip E1) as Q1. rewrite E in E1. pose proof (B q id Iq E1) as Q2.
  destruct V as ((C & _) & _). rewrite (C i p Ni) in Q1. rewrite (C j q Nj) in Q2. congruence.
Qed.
(* a mesh without extent along some axis cannot be checked *)
Lemma check_flat m tol i : valid m -> (i < ndim m)%nat -> flat m i -> exists e, check_overlapping_points sh m tol = Err e.
Proof.
  intros V Hi F. pose proof V as (C & CC & D). unfold check_overlapping_points. destruct (points m) as [|p0 t] eqn:Ep.
  - exists "xmax must be greater than xmin"%string. unfold mesh_limits. rewrite Ep. cbn [foldM bind]. unfold no_limits. cbn [fst]. destruct (ndim m); [lia|]. reflexivity.
  - destruct (limits_run m CC ltac:(rewrite Ep; discriminate)) as (lim & xmin & xmax & E & E1 & E2 & L1 & L2 & L). rewrite E. cbn [bind]. rewrite E1. cbn [bind]. rewrite E2. cbn [bind].
    destruct (new_no_panic xmin xmax None (Some tol) None) as [(g & G)|(e & G)]; [|rewrite G; exists e; reflexivity]. exfalso.
    destruct (new_inv _ _ _ _ _ _ G) as (_ & _ & _ & O & _). specialize (O i ltac:(lia)). destruct (L i Hi) as ((a & Ia & Ea) & (b & Ib & Eb) & _).
    pose proof (F a b Ia Ib). lra.
Qed.
End Check.
