(* Proofs: searches for points, edges and faces *)
From Coq Require Import String List Arith Bool Reals Lra Lia Permutation Sorted.
From Verif Require Import Base BaseFacts Kind MeshModel MeshQuerySpec TopoModel TopoSpec TopoMaps TopoProof TopoFeat3 TopoFeat4 TopoFeat6 TopoFinal
  GeomModel GeomSpec GeomProof GridModel GridSpec GridProof GridProof2 GridProof3 PropGrid SearchModel SearchSpec SearchProof.
Import ListNotations.
Open Scope R_scope.

Ltac list2 p := destruct p as [|? [|? [|? ?]]]; cbn in *; try lia.
Ltac list3 p := destruct p as [|? [|? [|? [|? ?]]]]; cbn in *; try lia.

Lemma within_ext (S S' : list R -> Prop) tol x : (forall p, S p <-> S' p) -> within S tol x <-> within S' tol x.
Proof. intros E. split; intros (p & A & B); exists p; (split; [apply E; exact A|exact B]). Qed.
Lemma selects_ext h (ok ok' : list R -> Prop) ids : (forall x, ok x <-> ok' x) -> selects h ok ids -> selects h ok' ids.
Proof. intros E (A & B & C). split; [auto|]. split; [intros id I; destruct (B id I) as (x & X & Y); exists x; split; [auto|apply E; auto]|]. intros id x L O. eapply C; eauto. apply E; auto. Qed.

Lemma at_x2 x p : on_line [x; 0] [x; 1] p <-> on_at 2 (AtX x) p.
Proof.
  unfold on_line, on_at. split.
  - intros (t & ->). cbn. split; [auto|lra].
  - intros (L & E). list2 p. exists r0. f_equal; [lra|f_equal; lra].
Qed.
Lemma at_y2 y p : on_line [0; y] [1; y] p <-> on_at 2 (AtY y) p.
Proof.
  unfold on_line, on_at. split.
  - intros (t & ->). cbn. split; [auto|lra].
  - intros (L & E). list2 p. exists r. f_equal; [lra|f_equal; lra].
Qed.
Lemma at_xy3 x y p : on_line [x; y; 0] [x; y; 1] p <-> on_at 3 (AtXY x y) p.
Proof.
  unfold on_line, on_at. split.
  - intros (t & ->). cbn. split; [auto|lra].
  - intros (L & E). list3 p. exists r1. f_equal; [lra|f_equal; [lra|f_equal; lra]].
Qed.
Lemma at_yz3 y z p : on_line [0; y; z] [1; y; z] p <-> on_at 3 (AtYZ y z) p.
Proof.
  unfold on_line, on_at. split.
  - intros (t & ->). cbn. split; [auto|lra].
  - intros (L & E). list3 p. exists r. f_equal; [lra|f_equal; [lra|f_equal; lra]].
Qed.
Lemma at_xz3 x z p : on_line [x; 0; z] [x; 1; z] p <-> on_at 3 (AtXZ x z) p.
Proof.
  unfold on_line, on_at. split.
  - intros (t & ->). cbn. split; [auto|lra].
  - intros (L & E). list3 p. exists r0. f_equal; [lra|f_equal; [lra|f_equal; lra]].
Qed.
Lemma plane_at i x p : (i < 3)%nat -> on_plane 3 i x p <-> List.length p = 3%nat /\ nth i p 0 = x.
Proof.
  intros Hi. unfold on_plane. split; intros (L & E); (split; [auto|]).
  - apply nth_error_nth. auto.
  - rewrite <- E. apply nth_error_nth'. lia.
Qed.

Section Points.
Variable shp : list nat -> list nat.
Hypothesis shpP : forall l, Permutation (shp l) l.
Variable shuffle : emap -> emap.
Hypothesis shuffled : forall l, Permutation (shuffle l) l.
Variable shk : list nat -> list nat.
Hypothesis shkP : forall l, Permutation (shk l) l.
Variable sh : container -> container.
Hypothesis shP : forall c, Permutation (sh c) c.

Definition made (m : mesh R) (ea : bool) (ft : features) (g : grid) : Prop := ready shuffle m ea ft /\ features_grid shp m ft = Ok g.

Lemma made_facts m ea ft g : made m ea ft g ->
  exists xmin xmax, List.length xmin = ndim m /\ reached xmin xmax None (/ 10000) (/ 100) (hist m (shp (ft_points ft))) g /\
    (forall p c, In (p, c) (hist m (shp (ft_points ft))) <-> In p (ft_points ft) /\ coords_of m p c) /\
    NoDup (map fst (hist m (shp (ft_points ft)))) /\
    (forall p c y, In p (ft_points ft) -> coords_of m p c -> close (/10000) c y -> in_box (g_xmin g) (g_xmax g) y).
Proof.
  intros (Rd & G). destruct (grid_made shp shpP m ft g G) as (xmin & xmax & E1 & E2 & R & PT). pose proof Rd as (C & CC & D & F).
  destruct (points_and_limits Rleb shuffle shuffled m ea ft Rleb_total C D F) as (ND & U & L1 & L2 & _).
  exists xmin, xmax. assert (N1 : List.length xmin = ndim m) by (rewrite (mapM_length _ _ _ E1); auto). split; [exact N1|]. split; [exact R|].
  assert (HI : forall p c, In (p, c) (hist m (shp (ft_points ft))) <-> In p (ft_points ft) /\ coords_of m p c).
  { intros p c. unfold hist. rewrite in_map_iff. split.
    - intros (q & E & I). injection E as -> <-. apply (Permutation_in _ (shpP _)) in I. split; [exact I|]. destruct (PT p I) as (pt & N). exists pt. unfold coords_at. rewrite N. auto.
    - intros (I & pt & N & <-). exists p. unfold coords_at. rewrite N. split; [reflexivity|]. eapply Permutation_in; [apply Permutation_sym, shpP|exact I]. }
  split; [exact HI|]. split; [rewrite hist_fst; eapply Permutation_NoDup; [apply Permutation_sym, shpP|exact ND]|].
  intros p c y Hp Hc (Lc & Cl). destruct (in_limits shuffle shuffled m ea ft xmin xmax p c Rd E1 E2 Hp Hc) as (_ & N2 & B).
  pose proof (coords_of_len shuffle _ _ _ _ _ Rd Hc) as LC.
  apply (C14_limits_cover _ _ _ _ _ _ _ _ R). split; [rewrite map_length; lia|]. intros i Hi. rewrite map_length in Hi. rewrite !nth_map0 by lia.
  specialize (B i ltac:(lia)). specialize (Cl i ltac:(lia)). apply abs_le in Cl. lra.
Qed.

Definition raw (m : mesh R) (g : grid) (a : at_) (filter : list R -> bool) : res (list nat) :=
  let two := (ndim m =? 2)%nat in
  match a with
    | AtX x => if two then search_on_line shk sh g [x; 0%R] [x; 1%R] filter else search_on_plane_yz shk sh g x filter
    | AtY y => if two then search_on_line shk sh g [0%R; y] [1%R; y] filter else search_on_plane_xz shk sh g y filter
    | AtZ z => if two then Err "At::Z works in 3D only"%string else search_on_plane_xy shk sh g z filter
    | AtXY x y => if two then let! o := grid_search sh g [x; y] in Ok (one o)
                  else search_on_line shk sh g [x; y; 0%R] [x; y; 1%R] filter
    | AtYZ y z => if two then Err "At::YZ works in 3D only"%string else search_on_line shk sh g [0%R; y; z] [1%R; y; z] filter
    | AtXZ x z => if two then Err "At::XZ works in 3D only"%string else search_on_line shk sh g [x; 0%R; z] [x; 1%R; z] filter
    | AtXYZ x y z => if two then Err "At::XYZ works in 3D only"%string else let! o := grid_search sh g [x; y; z] in Ok (one o)
    | AtCircle x y r => if two then search_on_circle shk sh g [x; y] r filter else Err "At::Circle works in 2D only"%string
    | AtCylinder ax ay az bx by_ bz r => if two then Err "At::Cylinder works in 3D only"%string
                                         else search_on_cylinder shk sh g [ax; ay; az] [bx; by_; bz] r filter
    end.
Lemma search_raw m g a filter : search_point_ids shk sh m g a filter =
  let! ids := raw m g a filter in
  if (List.length ids =? 0)%nat then Err "cannot find any point with given constraints/filter"%string else Ok (isort Nat.leb ids).
Proof. reflexivity. Qed.

Lemma raw_spec m ea ft g a filter : made m ea ft g -> at_dim (ndim m) a -> ~ single (ndim m) a -> sound_query EPSILON a ->
  exists ids, raw m g a filter = Ok ids /\ NoDup ids /\ forall p, In p ids <-> is_near m (ft_points ft) (tolR (ndim m)) a filter p.
Proof.
  intros M AD NS SQ. destruct (made_facts m ea ft g M) as (xmin & xmax & N & Rc & HI & ND & _). pose proof EPSILON_lt1 as EP.
  assert (S : exists ids, raw m g a filter = Ok ids /\ selects (hist m (shp (ft_points ft))) (fun x => within (on_at (ndim m) a) (tolR (ndim m)) x /\ filter x = true) ids).
  { pose proof (fun aa bb => C15_on_line shk sh _ _ _ _ _ _ _ aa bb filter shkP shP Rc) as OL. pose proof (fun cc => C15_on_plane shk sh _ _ _ _ _ _ _ cc filter shkP shP Rc) as OP.
    pose proof (fun c r => C15_on_circle shk sh _ _ _ _ _ _ _ c r filter shkP shP Rc) as OC. pose proof (fun aa bb r => C15_on_cylinder shk sh _ _ _ _ _ _ _ aa bb r filter shkP shP Rc) as OY.
    rewrite !N in OL. rewrite !N in OP. rewrite !N in OC. rewrite !N in OY. fold (tolR (ndim m)) in OL, OP, OC, OY.
    assert (X : forall (r : res (list nat)) (S : list R -> Prop), (exists ids, r = Ok ids /\ selects (hist m (shp (ft_points ft))) (fun x => within S (tolR (ndim m)) x /\ filter x = true) ids) ->
       (forall p, S p <-> on_at (ndim m) a p) -> exists ids, r = Ok ids /\ selects (hist m (shp (ft_points ft))) (fun x => within (on_at (ndim m) a) (tolR (ndim m)) x /\ filter x = true) ids).
    { intros r S (ids & E & Q) EQ. exists ids. split; [exact E|]. eapply selects_ext; [|exact Q]. intros x. cbv beta. rewrite (within_ext _ _ _ x EQ). tauto. }
    destruct M as ((_ & _ & D & _) & _).
    destruct a; cbn [at_dim single sound_query] in *; unfold raw; cbv zeta.
    - destruct D as [D|D]; rewrite D in *; cbn [Nat.eqb].
      + eapply X; [apply OL; cbn; auto; lra|]. intros p. apply at_x2.
      + eapply X; [apply (OP x eq_refl)|]. intros p. rewrite plane_at by lia. reflexivity.
    - destruct D as [D|D]; rewrite D in *; cbn [Nat.eqb].
      + eapply X; [apply OL; cbn; auto; lra|]. intros p. apply at_y2.
      + eapply X; [apply (OP y eq_refl)|]. intros p. rewrite plane_at by lia. reflexivity.
    - rewrite AD in *. cbn [Nat.eqb]. eapply X; [apply (OP z eq_refl)|]. intros p. rewrite plane_at by lia. reflexivity.
    - destruct D as [D|D]; rewrite D in *; [tauto|]. cbn [Nat.eqb]. eapply X; [apply OL; cbn; auto; lra|]. intros p. apply at_xy3.
    - rewrite AD in *. cbn [Nat.eqb]. eapply X; [apply OL; cbn; auto; lra|]. intros p. apply at_yz3.
    - rewrite AD in *. cbn [Nat.eqb]. eapply X; [apply OL; cbn; auto; lra|]. intros p. apply at_xz3.
    - rewrite AD in *. tauto.
    - rewrite AD in *. cbn [Nat.eqb]. eapply X; [apply OC; auto|]. intros p. reflexivity.
    - rewrite AD in *. destruct SQ as (SQ1 & SQ2). cbn [Nat.eqb]. eapply X; [apply OY; auto|]. intros p. reflexivity. }
  destruct S as (ids & E & Q). exists ids. split; [exact E|]. destruct (C15_exact _ _ _ ND Q) as (A & B). split; [exact A|].
  intros p. rewrite B. unfold is_near. split.
  - intros (x & I & W & Fx). apply HI in I as (I1 & I2). split; [auto|]. exists x. auto.
  - intros (I1 & c & I2 & W & Fx). exists c. split; [apply HI; auto|auto].
Qed.

Lemma isort_lt (l : list nat) : NoDup l -> StronglySorted lt (isort Nat.leb l).
Proof.
  intros H. apply sorted_nodup_lt.
  - eapply strict_sorted; [apply (isort_sorted Nat.leb)| |].
    + intros a b. rewrite !Nat.leb_le. lia.
    + intros a b c. rewrite !Nat.leb_le. lia.
    + eapply Permutation_NoDup; [apply Permutation_sym, isort_perm|exact H].
    + intros x y _ _ _. cbv beta. rewrite Nat.leb_le. auto.
  - eapply Permutation_NoDup; [apply Permutation_sym, isort_perm|exact H].
Qed.

Lemma point_ids_spec m ea ft g a filter : made m ea ft g -> at_dim (ndim m) a -> ~ single (ndim m) a -> sound_query EPSILON a ->
  (exists ids, search_point_ids shk sh m g a filter = Ok ids /\ ids <> [] /\ StronglySorted lt ids /\
     forall p, In p ids <-> is_near m (ft_points ft) (tolR (ndim m)) a filter p) \/
  (exists msg, search_point_ids shk sh m g a filter = Err msg /\ forall p, ~ is_near m (ft_points ft) (tolR (ndim m)) a filter p).
Proof.
  intros M AD NS SQ. destruct (raw_spec m ea ft g a filter M AD NS SQ) as (ids & E & ND & I). rewrite search_raw, E. cbn [bind].
  destruct ids as [|p t].
  - right. eexists. split; [reflexivity|]. intros p Hp. apply I in Hp. destruct Hp.
  - left. exists (isort Nat.leb (p :: t)). split; [reflexivity|]. split; [intros Q; pose proof (isort_length Nat.leb (p :: t)) as L; rewrite Q in L; discriminate|].
    split; [apply isort_lt; exact ND|]. intros q. rewrite isort_in. apply I.
Qed.

Lemma wrong_dim m ea ft g a filter : made m ea ft g -> ~ at_dim (ndim m) a -> exists msg, search_point_ids shk sh m g a filter = Err msg.
Proof.
  intros ((_ & _ & D & _) & _) N. rewrite search_raw. unfold raw. destruct D as [D|D]; rewrite D in *; destruct a; cbn in *; try lia; eauto; tauto.
Qed.

(* lines and axes that are too short *)
Lemma unsound_query m ea ft g a filter : made m ea ft g -> at_dim (ndim m) a -> ft_points ft <> [] ->
  match a with AtCylinder ax ay az bx by_ bz _ => sqdist [bx; by_; bz] [ax; ay; az] <= EPSILON | _ => False end ->
  exists msg, search_point_ids shk sh m g a filter = Err msg.
Proof.
  intros M AD NE U. destruct (made_facts m ea ft g M) as (xmin & xmax & N & Rc & HI & ND & _). destruct a; try contradiction. cbn in AD.
  rewrite search_raw. unfold raw. rewrite AD. cbn [Nat.eqb].
  destruct (C15_errors shk sh _ _ _ _ _ _ _ [ax; ay; az] [bx; by_; bz] r 0 filter shkP Rc) as (_ & _ & Y & _). destruct Y as (msg & ->).
  - right. split; [|exact U]. intros Q. apply (f_equal (map fst)) in Q. rewrite hist_fst in Q. cbn in Q. apply NE. pose proof (shpP (ft_points ft)) as P. rewrite Q in P. apply Permutation_nil in P. exact P.
  - cbn. eauto.
Qed.

Lemma single_point m a : single (ndim m) a -> exists y, List.length y = ndim m /\ (forall p, on_at (ndim m) a p <-> p = y) /\
  forall g filter, raw m g a filter = (let! o := grid_search sh g y in Ok (one o)).
Proof.
  intros S. destruct a; cbn in S; try contradiction.
  - exists [x; y]. rewrite S. split; [reflexivity|]. split.
    + intros p. unfold on_at. split; [intros (L & E1 & E2); list2 p; congruence|intros ->; cbn; auto].
    + intros. unfold raw. rewrite S. reflexivity.
  - exists [x; y; z]. rewrite S. split; [reflexivity|]. split.
    + intros p. unfold on_at. split; [intros (L & E1 & E2 & E3); list3 p; congruence|intros ->; cbn; auto].
    + intros. unfold raw. rewrite S. reflexivity.
Qed.

Lemma single_spec m ea ft g a filter : made m ea ft g -> single (ndim m) a ->
  ((exists p, search_point_ids shk sh m g a filter = Ok [p] /\ is_near m (ft_points ft) (tolR (ndim m)) a (fun _ => true) p) \/
   (exists msg, search_point_ids shk sh m g a filter = Err msg)) /\
  (forall p c y, In p (ft_points ft) -> coords_of m p c -> on_at (ndim m) a y -> close (/ 10000) c y ->
     exists q, search_point_ids shk sh m g a filter = Ok [q]).
Proof.
  intros M S. destruct (made_facts m ea ft g M) as (xmin & xmax & N & Rc & HI & ND & BX). destruct (single_point m a S) as (y & LY & OY & RY).
  rewrite search_raw, RY. split.
  - destruct (C14_search_total sh _ _ _ _ _ _ _ y shP Rc) as (T1 & T2). destruct (reached_facts _ _ _ _ _ _ _ Rc) as (g0 & W & H & D & T & TD & B & _).
    destruct (inside_dec1 g0 y W) as [I|I].
    + destruct (T1 (proj2 (B y) I)) as ([id|] & E); rewrite E; cbn; [|eauto]. left. exists id. split; [reflexivity|].
      destruct (C13_search_sound sh _ _ _ _ _ _ _ y id shP Rc E) as (x & X1 & X2 & X3). apply HI in X1 as (X4 & X5). split; [exact X4|]. exists x. split; [exact X5|]. split; [|reflexivity].
      exists y. split; [apply OY; reflexivity|]. unfold tolR. rewrite <- N. exact X3.
    + destruct T2 as (msg & ->); [rewrite B; exact I|]. cbn. eauto.
  - intros p c z Hp Hc Hz Cl. apply OY in Hz. subst z.
    assert (L : last_insertion (hist m (shp (ft_points ft))) p c).
    { assert (I : In (p, c) (hist m (shp (ft_points ft)))) by (apply HI; auto). apply in_split in I as (h1 & h2 & E). exists h1, h2. split; [exact E|].
      rewrite E, map_app in ND. cbn in ND. apply NoDup_remove_2 in ND. intros Q. apply ND, in_or_app. auto. }
    destruct (C14_search_complete sh _ _ _ _ _ _ _ p c y shP Rc L Cl (BX p c y Hp Hc Cl)) as (q & ->). cbn. eauto.
Qed.

(* ---------------------------------------------------------------- edges *)
Lemma has_iff ids p : has ids p = true <-> In p ids.
Proof. unfold has. rewrite existsb_exists. split; [intros (x & I & E); apply Nat.eqb_eq in E; subst; auto|intros I; exists p; rewrite Nat.eqb_refl; auto]. Qed.

Lemma collect_keys {K} (eqb : K -> K -> bool) (H : forall a b, eqb a b = true <-> a = b) (acc : K -> bool) (look : nat -> option (list K)) ids : 
  let keys := fold_left (fun ks p => match look p with Some es => fold_left (fun ks k => if acc k then sadd eqb ks k else ks) es ks | None => ks end) ids [] in
  NoDup keys /\ forall k, In k keys <-> acc k = true /\ exists p, In p ids /\ In k (match look p with Some l => l | None => [] end).
Proof.
  assert (A : forall es ks, NoDup ks -> NoDup (fold_left (fun ks k => if acc k then sadd eqb ks k else ks) es ks) /\
    forall k, In k (fold_left (fun ks k => if acc k then sadd eqb ks k else ks) es ks) <-> In k ks \/ (acc k = true /\ In k es)).
  { induction es as [|e t IH]; intros ks ND; cbn [fold_left]; [split; [auto|]; intros k; cbn; tauto|].
    destruct (acc e) eqn:E.
    - destruct (IH (sadd eqb ks e) (sadd_nodup _ H _ _ ND)) as (I1 & I2). split; [exact I1|]. intros k. rewrite I2, (sadd_in _ H). cbn. intuition (subst; auto).
    - destruct (IH ks ND) as (I1 & I2). split; [exact I1|]. intros k. rewrite I2. cbn. intuition (subst; auto). congruence. }
  assert (B : forall l ks, NoDup ks ->
    let keys := fold_left (fun ks p => match look p with Some es => fold_left (fun ks k => if acc k then sadd eqb ks k else ks) es ks | None => ks end) l ks in
    NoDup keys /\ forall k, In k keys <-> In k ks \/ (acc k = true /\ exists p, In p l /\ In k (match look p with Some l => l | None => [] end))).
  { induction l as [|p t IH]; intros ks ND; cbn [fold_left]; [split; [auto|]; intros k; split; [auto|]; intros [Q|(_ & p & [] & _)]; auto|].
    destruct (look p) as [es|] eqn:E.
    - destruct (A es ks ND) as (A1 & A2). destruct (IH _ A1) as (I1 & I2). split; [exact I1|]. intros k. rewrite I2, A2. split.
      + intros [[Q|(Q1 & Q2)]|(Q1 & q & Q2 & Q3)]; [auto| |]; right; (split; [auto|]); [exists p; rewrite E; cbn; auto|exists q; cbn; auto].
      + intros [Q|(Q1 & q & [<-|Q2] & Q3)]; [auto| |]; [rewrite E in Q3; auto|]. right. split; [auto|]. exists q. auto.
    - destruct (IH ks ND) as (I1 & I2). split; [exact I1|]. intros k. rewrite I2. split.
      + intros [Q|(Q1 & q & Q2 & Q3)]; [auto|]. right. split; [auto|]. exists q. cbn. auto.
      + intros [Q|(Q1 & q & [<-|Q2] & Q3)]; [auto| |]; [rewrite E in Q3; destruct Q3|]. right. split; [auto|]. exists q. auto. }
  destruct (B ids [] (NoDup_nil _)) as (B1 & B2). split; [exact B1|]. intros k. rewrite B2. cbn. tauto.
Qed.

Lemma isort_keys {K} (leb : K -> K -> bool) (KT : forall a b, leb a b = true \/ leb b a = true)
  (KTr : forall a b c, leb a b = true -> leb b c = true -> leb a c = true) (KA : forall a b, leb a b = true -> leb b a = true -> a = b) l :
  NoDup l -> StronglySorted (fun a b => leb b a = false) (isort leb l).
Proof.
  intros ND. eapply strict_sorted; [apply (isort_sorted leb l KT KTr)| |].
  - eapply Permutation_NoDup; [apply Permutation_sym, isort_perm|exact ND].
  - intros x y _ _ N L. cbv beta in L. destruct (leb y x) eqn:E; [|reflexivity]. exfalso. apply N. auto.
Qed.
Lemma sorted_weaken {A} (R S : A -> A -> Prop) l : (forall x y, R x y -> S x y) -> StronglySorted R l -> StronglySorted S l.
Proof. intros H. induction 1 as [|a t S1 IH F]; constructor; auto. eapply Forall_impl; [|exact F]. auto. Qed.
Lemma ekeys_sorted l : NoDup l -> StronglySorted lex (isort ekey_leb l).
Proof.
  intros ND. eapply sorted_weaken; [|apply (isort_keys ekey_leb ekey_leb_total ekey_leb_trans ekey_leb_anti l ND)].
  intros x y H. cbv beta in H. unfold lex. destruct (lt_eq_lt_dec (fst x) (fst y)) as [[L|E]|L]; [auto| |].
  - right. split; [exact E|]. destruct (le_lt_dec (snd y) (snd x)) as [L|L]; [|exact L]. rewrite (proj2 (ekey_leb_iff y x)) in H; [discriminate|]. right. auto.
  - rewrite (proj2 (ekey_leb_iff y x)) in H; [discriminate|auto].
Qed.
Lemma perm_in {A} (leb : A -> A -> bool) (l : list A) x : In x (isort leb l) <-> In x l.
Proof. split; apply Permutation_in; [apply isort_perm|apply Permutation_sym, isort_perm]. Qed.

Lemma key_points ed a b : edge_key ed = Ok (a, b) -> In a (e_points ed) /\ In b (e_points ed).
Proof.
  unfold edge_key. intros H. apply bind_ok in H as (x & E1 & H). apply bind_ok in H as (y & E2 & H). injection H as H.
  assert (I1 : In x (e_points ed)). { unfold get in E1. destruct (nth_error (e_points ed) 0) eqn:E; [|discriminate]. injection E1 as ->. eapply nth_error_In; eauto. }
  assert (I2 : In y (e_points ed)). { unfold get in E2. destruct (nth_error (e_points ed) 1) eqn:E; [|discriminate]. injection E2 as ->. eapply nth_error_In; eauto. }
  unfold sort2 in H. cbn [fst snd] in H. destruct (y <? x)%nat; injection H as <- <-; auto.
Qed.
Lemma fkey_points fc k p : face_key fc = Ok k -> In p k -> In p (f_points fc).
Proof.
  unfold face_key. intros H I. apply bind_ok in H as (ps & E1 & H). injection H as <-. unfold sort4 in I. apply perm_in in I.
  apply (mapM_in _ _ _ p E1) in I as (i & _ & G). unfold get in G. destruct (nth_error (f_points fc) i) eqn:E; [|discriminate]. injection G as ->. eapply nth_error_In; eauto.
Qed.
Lemma fkey_nonempty fc k : face_key fc = Ok k -> k <> [].
Proof.
  unfold face_key. intros H. apply bind_ok in H as (ps & E1 & H). injection H as <-. apply mapM_length in E1. intros Q. unfold sort4 in Q.
  pose proof (isort_length Nat.leb ps) as L. rewrite Q, E1, seq_length in L. destruct (3 <? List.length (f_points fc))%nat in L; discriminate.
Qed.

Definition between (ft : @features R) (ids : list nat) (a b : nat) : Prop := (exists ed, get_edge ft a b = Ok ed) /\ In a ids /\ In b ids.
Definition spanned (ft : @features R) (ids : list nat) (k : fkey) : Prop := (exists fc, get_face ft k = Ok fc) /\ forall p, In p k -> In p ids.

Definition ekeys_of (ft : @features R) (ids : list nat) : list ekey :=
  fold_left (fun ks p =>
    match mget Nat.eqb (ft_point_to_edges ft) p with
    | Some es => fold_left (fun ks (k : ekey) => if has ids (fst k) && has ids (snd k) then sadd ekey_eqb ks k else ks) es ks
    | None => ks
    end) ids [].
Definition fkeys_of (ft : @features R) (ids : list nat) : list fkey :=
  fold_left (fun ks p =>
      match mget Nat.eqb (ft_point_to_faces ft) p with
      | Some fs => fold_left (fun ks (k : fkey) => if forallb (has ids) k then sadd fkey_eqb ks k else ks) fs ks
      | None => ks
      end) ids [].
Lemma ekeys_spec m ea ft ids : ready shuffle m ea ft -> NoDup (ekeys_of ft ids) /\ forall a b, In (a, b) (ekeys_of ft ids) <-> between ft ids a b.
Proof.
  intros (C & _ & D & F). destruct (point_maps Rleb shuffle shuffled m ea ft C D F) as (PM & _).
  destruct (collect_keys ekey_eqb ekey_eqb_eq (fun k => has ids (fst k) && has ids (snd k)) (mget Nat.eqb (ft_point_to_edges ft)) ids) as (A & B).
  split; [exact A|]. intros a b. unfold ekeys_of. rewrite B. cbn [fst snd]. rewrite andb_true_iff, !has_iff. unfold between. split.
  - intros ((I1 & I2) & p & _ & I3). apply PM in I3 as (ed & G & _). eauto.
  - intros ((ed & G) & I1 & I2). split; [auto|]. exists a. split; [exact I1|]. apply PM. exists ed. split; [exact G|].
    destruct (get_edge_key Rleb shuffle shuffled m ea ft a b ed C D F G) as (K & _). apply (key_points _ _ _ K).
Qed.
Lemma fkeys_spec m ea ft ids : ready shuffle m ea ft -> ndim m = 3%nat -> NoDup (fkeys_of ft ids) /\ forall k, In k (fkeys_of ft ids) <-> spanned ft ids k.
Proof.
  intros (C & _ & D & F) D3. destruct (point_maps Rleb shuffle shuffled m ea ft C D F) as (_ & PM).
  destruct (collect_keys fkey_eqb fkey_eqb_eq (forallb (has ids)) (mget Nat.eqb (ft_point_to_faces ft)) ids) as (A & B).
  split; [exact A|]. intros k. unfold fkeys_of. rewrite B, forallb_forall. unfold spanned. split.
  - intros (I1 & p & _ & I3). apply PM in I3 as (fc & G & _). split; [eauto|]. intros q Q. apply has_iff. auto.
  - intros ((fc & G) & I1). split; [intros q Q; apply has_iff; auto|].
    destruct (get_face_points Rleb shuffle m ea ft k fc C D3 F G) as (_ & _ & _ & _ & _ & _ & _ & _ & _ & _ & K).
    destruct k as [|p t] eqn:Ek; [destruct (fkey_nonempty _ _ K eq_refl)|]. exists p. split; [apply I1; left; reflexivity|]. apply PM. exists fc. split; [exact G|].
    apply (fkey_points _ _ _ K). left. reflexivity.
Qed.

Lemma edge_keys_eq m ft g a filter : search_edge_keys shk sh m ft g a filter =
  let! ids := search_point_ids shk sh m g a filter in
  if (List.length (ekeys_of ft ids) =? 0)%nat then Err "cannot find any edge with given constraints/filter"%string else Ok (isort ekey_leb (ekeys_of ft ids)).
Proof. reflexivity. Qed.
Lemma face_keys_eq m ft g a filter : search_face_keys shk sh m ft g a filter =
  if negb (ndim m =? 3)%nat then Err "cannot find face keys in 2D"%string
  else let! ids := search_point_ids shk sh m g a filter in
  if (List.length (fkeys_of ft ids) =? 0)%nat then Err "cannot find any face with given constraints/filter"%string else Ok (isort fkey_leb (fkeys_of ft ids)).
Proof. reflexivity. Qed.

Lemma edge_keys_spec m ea ft g a filter ids : ready shuffle m ea ft -> search_point_ids shk sh m g a filter = Ok ids ->
  (exists keys, search_edge_keys shk sh m ft g a filter = Ok keys /\ keys <> [] /\ StronglySorted lex keys /\
     forall a b, In (a, b) keys <-> between ft ids a b) \/
  (exists msg, search_edge_keys shk sh m ft g a filter = Err msg /\ forall a b, ~ between ft ids a b).
Proof.
  intros Rd E. destruct (ekeys_spec m ea ft ids Rd) as (ND & I). rewrite edge_keys_eq, E. cbn [bind]. destruct (ekeys_of ft ids) as [|k t] eqn:EK.
  - right. eexists. split; [reflexivity|]. intros x y B. apply I in B. destruct B.
  - left. exists (isort ekey_leb (k :: t)). split; [reflexivity|]. split; [intros Q; pose proof (isort_length ekey_leb (k :: t)) as L; rewrite Q in L; discriminate|].
    split; [apply ekeys_sorted; exact ND|]. intros x y. rewrite perm_in. apply I.
Qed.
Lemma face_keys_spec m ea ft g a filter ids : ready shuffle m ea ft -> ndim m = 3%nat -> search_point_ids shk sh m g a filter = Ok ids ->
  (exists keys, search_face_keys shk sh m ft g a filter = Ok keys /\ keys <> [] /\ StronglySorted (fun k k' => fkey_leb k' k = false) keys /\
     forall k, In k keys <-> spanned ft ids k) \/
  (exists msg, search_face_keys shk sh m ft g a filter = Err msg /\ forall k, ~ spanned ft ids k).
Proof.
  intros Rd D E. destruct (fkeys_spec m ea ft ids Rd D) as (ND & I). rewrite face_keys_eq, E, D. cbn [bind Nat.eqb negb]. destruct (fkeys_of ft ids) as [|k t] eqn:EK.
  - right. eexists. split; [reflexivity|]. intros x B. apply I in B. destruct B.
  - left. exists (isort fkey_leb (k :: t)). split; [reflexivity|]. split; [intros Q; pose proof (isort_length fkey_leb (k :: t)) as L; rewrite Q in L; discriminate|].
    split; [apply (isort_keys fkey_leb fkey_leb_total fkey_leb_trans fkey_leb_anti _ ND)|]. intros x. rewrite perm_in. apply I.
Qed.

(* keys to features *)
Lemma edges_of_spec (ft : @features R) keys : (forall a b, In (a, b) keys -> exists ed, get_edge ft a b = Ok ed) ->
  exists eds, edges_of_keys ft keys = Ok eds /\ Forall2 (fun k ed => get_edge ft (fst k) (snd k) = Ok ed) keys eds.
Proof.
  induction keys as [|[a b] t IH]; intros H; [exists []; split; [reflexivity|constructor]|].
  destruct (H a b (or_introl eq_refl)) as (ed & G). destruct IH as (eds & E & Fo); [intros; apply H; right; auto|].
  exists (ed :: eds). split; [|constructor; [exact G|exact Fo]]. unfold edges_of_keys in *. cbn [mapM]. apply get_edge_iff in G. rewrite G. cbn [bind]. rewrite E. reflexivity.
Qed.
Lemma faces_of_spec (ft : @features R) keys : (forall k, In k keys -> exists fc, get_face ft k = Ok fc) ->
  exists fcs, faces_of_keys ft keys = Ok fcs /\ Forall2 (fun k fc => get_face ft k = Ok fc) keys fcs.
Proof.
  induction keys as [|k t IH]; intros H; [exists []; split; [reflexivity|constructor]|].
  destruct (H k (or_introl eq_refl)) as (ed & G). destruct IH as (eds & E & Fo); [intros; apply H; right; auto|].
  exists (ed :: eds). split; [|constructor; [exact G|exact Fo]]. unfold faces_of_keys in *. cbn [mapM]. apply get_face_iff in G. rewrite G. cbn [bind]. rewrite E. reflexivity.
Qed.
Lemma F2_in {A B} (P : A -> B -> Prop) l r b : Forall2 P l r -> In b r -> exists a, In a l /\ P a b.
Proof. induction 1; intros []; [subst; eexists; split; [left; reflexivity|auto]|]. destruct IHForall2 as (a & I & Q); auto. exists a. split; [right; auto|auto]. Qed.
Lemma F2_in' {A B} (P : A -> B -> Prop) l r a : Forall2 P l r -> In a l -> exists b, In b r /\ P a b.
Proof. induction 1; intros []; [subst; eexists; split; [left; reflexivity|auto]|]. destruct IHForall2 as (b & I & Q); auto. exists b. split; [right; auto|auto]. Qed.
Lemma F2_sorted {A B} (P : A -> B -> Prop) (S : A -> A -> Prop) (S' : B -> B -> Prop) l r : Forall2 P l r -> StronglySorted S l ->
  (forall x y a b, P x a -> P y b -> S x y -> S' a b) -> StronglySorted S' r.
Proof.
  intros F SS H. induction F as [|x a l r Px F IH]; [constructor|]. inversion SS as [|? ? SS' FA]; subst. constructor; [auto|]. rewrite Forall_forall in FA |- *. intros b Hb.
  destruct (F2_in _ _ _ _ F Hb) as (y & Iy & Py). eauto.
Qed.

Definition edges_sorted (eds : list edge) : Prop := StronglySorted (fun x y => forall k k', edge_key x = Ok k -> edge_key y = Ok k' -> lex k k') eds.
Definition faces_sorted (fcs : list face) : Prop := StronglySorted (fun x y => forall k k', face_key x = Ok k -> face_key y = Ok k' -> fkey_leb k' k = false) fcs.

Lemma edges_from m ea ft keys : ready shuffle m ea ft -> StronglySorted lex keys -> (forall a b, In (a, b) keys -> exists ed, get_edge ft a b = Ok ed) ->
  exists eds, edges_of_keys ft keys = Ok eds /\ edges_sorted eds /\ forall ed, In ed eds <-> exists a b, get_edge ft a b = Ok ed /\ In (a, b) keys.
Proof.
  intros (C & _ & D & F) SS H. destruct (edges_of_spec ft keys H) as (eds & E & FF). exists eds. split; [exact E|]. split.
  - eapply F2_sorted; [exact FF|exact SS|]. intros [a b] [a' b'] x y Gx Gy L k k' K K'. cbn [fst snd] in *.
    pose proof (proj1 (get_edge_key Rleb shuffle shuffled m ea ft _ _ _ C D F Gx)). pose proof (proj1 (get_edge_key Rleb shuffle shuffled m ea ft _ _ _ C D F Gy)). congruence.
  - intros ed. split.
    + intros I. destruct (F2_in _ _ _ _ FF I) as ([a b] & Ik & G). exists a, b. auto.
    + intros (a & b & G & I). destruct (F2_in' _ _ _ _ FF I) as (ed' & I' & G'). cbn [fst snd] in G'. congruence.
Qed.
Lemma faces_from m ea ft keys : ready shuffle m ea ft -> ndim m = 3%nat -> StronglySorted (fun k k' => fkey_leb k' k = false) keys -> (forall k, In k keys -> exists fc, get_face ft k = Ok fc) ->
  exists fcs, faces_of_keys ft keys = Ok fcs /\ faces_sorted fcs /\ forall fc, In fc fcs <-> exists k, get_face ft k = Ok fc /\ In k keys.
Proof.
  intros (C & _ & D & F) D3 SS H. destruct (faces_of_spec ft keys H) as (eds & E & FF). exists eds. split; [exact E|]. split.
  - eapply F2_sorted; [exact FF|exact SS|]. intros a a' x y Gx Gy L k k' K K'.
    destruct (get_face_points Rleb shuffle m ea ft a x C D3 F Gx) as (_ & _ & _ & _ & _ & _ & _ & _ & _ & _ & K1).
    destruct (get_face_points Rleb shuffle m ea ft a' y C D3 F Gy) as (_ & _ & _ & _ & _ & _ & _ & _ & _ & _ & K2). congruence.
  - intros ed. split.
    + intros I. destruct (F2_in _ _ _ _ FF I) as (a & Ik & G). exists a. auto.
    + intros (a & G & I). destruct (F2_in' _ _ _ _ FF I) as (ed' & I' & G'). congruence.
Qed.

Lemma edges_spec m ea ft g a filter ids : ready shuffle m ea ft -> search_point_ids shk sh m g a filter = Ok ids ->
  (exists eds, search_edges shk sh m ft g a filter = Ok eds /\ eds <> [] /\ edges_sorted eds /\
     forall ed, In ed eds <-> exists i j, get_edge ft i j = Ok ed /\ In i ids /\ In j ids) \/
  (exists msg, search_edges shk sh m ft g a filter = Err msg /\ forall i j ed, get_edge ft i j = Ok ed -> ~ (In i ids /\ In j ids)).
Proof.
  intros Rd E. unfold search_edges. destruct (edge_keys_spec m ea ft g a filter ids Rd E) as [(keys & -> & NE & SS & I)|(msg & -> & N)]; cbn [bind].
  - left. destruct (edges_from m ea ft keys Rd SS) as (eds & EE & S & J); [intros x y X; apply I in X as (X & _); exact X|]. exists eds. split; [exact EE|]. split; [|split; [exact S|]].
    + intros ->. destruct keys as [|[x y] t]; [congruence|]. assert (X : In (x, y) ((x, y) :: t)) by (left; reflexivity). pose proof (proj1 (I x y) X) as ((ed & G) & _). destruct (proj2 (J ed)). exists x, y. auto.
    + intros ed. rewrite J. split; intros (i & j & G & X); exists i, j; (split; [exact G|]); [apply I in X as (_ & X); exact X|apply I; split; eauto].
  - right. exists msg. split; [reflexivity|]. intros i j ed G X. apply (N i j). split; eauto.
Qed.
Lemma faces_spec m ea ft g a filter ids : ready shuffle m ea ft -> ndim m = 3%nat -> search_point_ids shk sh m g a filter = Ok ids ->
  (exists fcs, search_faces shk sh m ft g a filter = Ok fcs /\ fcs <> [] /\ faces_sorted fcs /\
     forall fc, In fc fcs <-> exists k, get_face ft k = Ok fc /\ forall p, In p k -> In p ids) \/
  (exists msg, search_faces shk sh m ft g a filter = Err msg /\ forall k fc, get_face ft k = Ok fc -> ~ (forall p, In p k -> In p ids)).
Proof.
  intros Rd D3 E. unfold search_faces. destruct (face_keys_spec m ea ft g a filter ids Rd D3 E) as [(keys & -> & NE & SS & I)|(msg & -> & N)]; cbn [bind].
  - left. destruct (faces_from m ea ft keys Rd D3 SS) as (eds & EE & S & J); [intros x X; apply I in X as (X & _); exact X|]. exists eds. split; [exact EE|]. split; [|split; [exact S|]].
    + intros ->. destruct keys as [|x t]; [congruence|]. assert (X : In x (x :: t)) by (left; reflexivity). pose proof (proj1 (I x) X) as ((ed & G) & _). destruct (proj2 (J ed)). exists x. auto.
    + intros ed. rewrite J. split; intros (i & G & X); exists i; (split; [exact G|]); [apply I in X as (_ & X); exact X|apply I; split; eauto].
  - right. exists msg. split; [reflexivity|]. intros i ed G X. apply (N i). split; eauto.
Qed.
Lemma search_err_keys m ft g a filter msg : search_point_ids shk sh m g a filter = Err msg ->
  search_edge_keys shk sh m ft g a filter = Err msg /\ search_edges shk sh m ft g a filter = Err msg /\
  (ndim m = 3%nat -> search_face_keys shk sh m ft g a filter = Err msg /\ search_faces shk sh m ft g a filter = Err msg).
Proof.
  intros E. unfold search_edges, search_faces. rewrite edge_keys_eq, face_keys_eq, E. cbn. split; [auto|]. split; [auto|]. intros ->. auto.
Qed.

(* ---------------------------------------------------------------- several queries *)
Lemma many_keys {A K} (eqb : K -> K -> bool) (H : forall a b, eqb a b = true <-> a = b) (q : A -> res (list K)) ats :
  (forall a, In a ats -> exists ks, q a = Ok ks) -> forall ks0, NoDup ks0 ->
  exists keys, foldM (fun (ks : list K) a => let! found := q a in Ok (fold_left (sadd eqb) found ks)) ats ks0 = Ok keys /\ NoDup keys /\
    forall k, In k keys <-> In k ks0 \/ exists a ks, In a ats /\ q a = Ok ks /\ In k ks.
Proof.
  induction ats as [|a t IH]; intros HA ks0 ND; cbn [foldM].
  - exists ks0. split; [reflexivity|]. split; [auto|]. intros k. split; [auto|]. intros [X|(a & ks & [] & _)]. exact X.
  - destruct (HA a (or_introl eq_refl)) as (ks & E). rewrite E. cbn [bind].
    destruct (IH (fun b Hb => HA b (or_intror Hb)) (fold_left (sadd eqb) ks ks0) (fold_sadd_nodup _ H _ _ ND)) as (keys & E1 & N1 & I1). exists keys. split; [exact E1|]. split; [exact N1|].
    intros k. rewrite I1, (fold_sadd_in _ H). split.
    + intros [[X|X]|(b & ks' & X & Y & Z)]; [auto| |]; right; [exists a, ks|exists b, ks']; cbn; auto.
    + intros [X|(b & ks' & [<-|X] & Y & Z)]; [auto| |]; [rewrite E in Y; injection Y as <-; auto|]. right. exists b, ks'. auto.
Qed.
Lemma many_err {A K} (eqb : K -> K -> bool) (q : A -> res (list K)) l1 a l2 msg : (forall b, In b l1 -> exists ks, q b = Ok ks) -> q a = Err msg -> forall ks0,
  foldM (fun (ks : list K) a => let! found := q a in Ok (fold_left (sadd eqb) found ks)) (l1 ++ a :: l2) ks0 = Err msg.
Proof.
  intros HA E. induction l1 as [|b t IH]; intros ks0; cbn [app foldM].
  - rewrite E. reflexivity.
  - destruct (HA b (or_introl eq_refl)) as (ks & ->). cbn [bind]. apply IH. intros c Hc. apply HA. right. exact Hc.
Qed.
Lemma many_edges_spec m ea ft g ats filter : ready shuffle m ea ft -> 
  (forall a, In a ats -> exists eds, search_edges shk sh m ft g a filter = Ok eds) ->
  exists eds, search_many_edges shk sh m ft g ats filter = Ok eds /\ edges_sorted eds /\
    forall ed, In ed eds <-> exists a eds', In a ats /\ search_edges shk sh m ft g a filter = Ok eds' /\ In ed eds'.
Proof.
  intros Rd HA. assert (Q : forall a eds, search_edges shk sh m ft g a filter = Ok eds -> exists ids keys, search_point_ids shk sh m g a filter = Ok ids /\
     search_edge_keys shk sh m ft g a filter = Ok keys /\ (forall i j, In (i, j) keys <-> between ft ids i j) /\ forall ed, In ed eds <-> exists i j, get_edge ft i j = Ok ed /\ In (i, j) keys).
  { intros a eds E. destruct (search_point_ids shk sh m g a filter) as [ids|msg| |] eqn:P.
    - exists ids. destruct (edge_keys_spec m ea ft g a filter ids Rd P) as [(keys & K & NE & SS & I)|(msg & K & N)].
      + exists keys. split; [reflexivity|]. split; [exact K|]. split; [exact I|]. destruct (edges_from m ea ft keys Rd SS) as (eds' & EE & _ & J); [intros x y X; apply I in X as (X & _); exact X|].
        unfold search_edges in E. rewrite K in E. cbn [bind] in E. rewrite EE in E. injection E as <-. exact J.
      + unfold search_edges in E. rewrite K in E. discriminate.
    - unfold search_edges in E. rewrite edge_keys_eq, P in E. discriminate.
    - unfold search_edges in E. rewrite edge_keys_eq, P in E. discriminate.
    - unfold search_edges in E. rewrite edge_keys_eq, P in E. discriminate. }
  destruct (many_keys ekey_eqb ekey_eqb_eq (fun a => search_edge_keys shk sh m ft g a filter) ats) with (ks0 := @nil ekey) as (keys & K & ND & I); [|constructor|].
  { intros a Ha. destruct (HA a Ha) as (eds & E). destruct (Q a eds E) as (ids & keys & _ & K & _). eauto. }
  assert (HG : forall i j, In (i, j) keys -> exists ed, get_edge ft i j = Ok ed).
  { intros i j X. apply I in X as [[]|(a & ks & Ha & Ka & Ia)]. destruct (HA a Ha) as (eds & E). destruct (Q a eds E) as (ids & keys' & _ & K' & B & _). rewrite Ka in K'. injection K' as <-. apply B in Ia as (G & _). exact G. }
  destruct (edges_from m ea ft (isort ekey_leb keys) Rd (ekeys_sorted _ ND)) as (eds & EE & S & J); [intros i j X; apply perm_in in X; auto|].
  exists eds. split; [unfold search_many_edges; rewrite K; cbn [bind]; exact EE|]. split; [exact S|]. intros ed. rewrite J. split.
  - intros (i & j & G & X). apply perm_in in X. apply I in X as [[]|(a & ks & Ha & Ka & Ia)]. destruct (HA a Ha) as (eds' & E). exists a, eds'. split; [auto|]. split; [auto|].
    destruct (Q a eds' E) as (ids & keys' & _ & K' & _ & B). rewrite Ka in K'. injection K' as <-. apply B. exists i, j. auto.
  - intros (a & eds' & Ha & E & X). destruct (Q a eds' E) as (ids & keys' & _ & K' & _ & B). apply B in X as (i & j & G & X). exists i, j. split; [exact G|]. apply perm_in, I. right. exists a, keys'. auto.
Qed.
Lemma many_faces_spec m ea ft g ats filter : ready shuffle m ea ft -> ndim m = 3%nat ->
  (forall a, In a ats -> exists fcs, search_faces shk sh m ft g a filter = Ok fcs) ->
  exists fcs, search_many_faces shk sh m ft g ats filter = Ok fcs /\ faces_sorted fcs /\
    forall fc, In fc fcs <-> exists a fcs', In a ats /\ search_faces shk sh m ft g a filter = Ok fcs' /\ In fc fcs'.
Proof.
  intros Rd D3 HA. assert (Q : forall a eds, search_faces shk sh m ft g a filter = Ok eds -> exists ids keys, search_point_ids shk sh m g a filter = Ok ids /\
     search_face_keys shk sh m ft g a filter = Ok keys /\ (forall k, In k keys <-> spanned ft ids k) /\ forall ed, In ed eds <-> exists k, get_face ft k = Ok ed /\ In k keys).
  { intros a eds E. destruct (search_point_ids shk sh m g a filter) as [ids|msg| |] eqn:P.
    - exists ids. destruct (face_keys_spec m ea ft g a filter ids Rd D3 P) as [(keys & K & NE & SS & I)|(msg & K & N)].
      + exists keys. split; [reflexivity|]. split; [exact K|]. split; [exact I|]. destruct (faces_from m ea ft keys Rd D3 SS) as (eds' & EE & _ & J); [intros x X; apply I in X as (X & _); exact X|].
        unfold search_faces in E. rewrite K in E. cbn [bind] in E. rewrite EE in E. injection E as <-. exact J.
      + unfold search_faces in E. rewrite K in E. discriminate.
    - unfold search_faces in E. rewrite face_keys_eq, P, D3 in E. discriminate.
    - unfold search_faces in E. rewrite face_keys_eq, P, D3 in E. discriminate.
    - unfold search_faces in E. rewrite face_keys_eq, P, D3 in E. discriminate. }
  destruct (many_keys fkey_eqb fkey_eqb_eq (fun a => search_face_keys shk sh m ft g a filter) ats) with (ks0 := @nil fkey) as (keys & K & ND & I); [|constructor|].
  { intros a Ha. destruct (HA a Ha) as (eds & E). destruct (Q a eds E) as (ids & keys & _ & K & _). eauto. }
  assert (HG : forall k, In k keys -> exists ed, get_face ft k = Ok ed).
  { intros k X. apply I in X as [[]|(a & ks & Ha & Ka & Ia)]. destruct (HA a Ha) as (eds & E). destruct (Q a eds E) as (ids & keys' & _ & K' & B & _). rewrite Ka in K'. injection K' as <-. apply B in Ia as (G & _). exact G. }
  destruct (faces_from m ea ft (isort fkey_leb keys) Rd D3 (isort_keys fkey_leb fkey_leb_total fkey_leb_trans fkey_leb_anti _ ND)) as (eds & EE & S & J); [intros i X; apply perm_in in X; auto|].
  exists eds. split; [unfold search_many_faces; rewrite K; cbn [bind]; exact EE|]. split; [exact S|]. intros ed. rewrite J. split.
  - intros (i & G & X). apply perm_in in X. apply I in X as [[]|(a & ks & Ha & Ka & Ia)]. destruct (HA a Ha) as (eds' & E). exists a, eds'. split; [auto|]. split; [auto|].
    destruct (Q a eds' E) as (ids & keys' & _ & K' & _ & B). rewrite Ka in K'. injection K' as <-. apply B. exists i. auto.
  - intros (a & eds' & Ha & E & X). destruct (Q a eds' E) as (ids & keys' & _ & K' & _ & B). apply B in X as (i & G & X). exists i. split; [exact G|]. apply perm_in, I. right. exists a, keys'. auto.
Qed.

(* ---------------------------------------------------------------- search_features_2d *)
Section F2D.
Variable acc : ekey -> bool.
Variable byp : bool.
Variable look : ekey -> option (list (nat * nat)).
Definition estep (st : list ekey * list nat) (k : ekey) : list ekey * list nat :=
  let ks := if acc k then sadd ekey_eqb (fst st) k else fst st in
  let cs := if byp || acc k then
              match look k with
              | Some l => fold_left (fun cs (ce : nat * nat) => sadd Nat.eqb cs (fst ce)) l (snd st)
              | None => snd st
              end
            else snd st in
  (ks, cs).
Definition good (P : ekey -> Prop) (st : list ekey * list nat) : Prop :=
  NoDup (fst st) /\ NoDup (snd st) /\ (forall k, In k (fst st) <-> P k /\ acc k = true) /\
  (forall c, In c (snd st) <-> exists k e, P k /\ (byp || acc k) = true /\ In (c, e) (match look k with Some l => l | None => [] end)).
Lemma cells_fold l : forall cs, NoDup cs -> NoDup (fold_left (fun cs (ce : nat * nat) => sadd Nat.eqb cs (fst ce)) l cs) /\
  forall c, In c (fold_left (fun cs (ce : nat * nat) => sadd Nat.eqb cs (fst ce)) l cs) <-> In c cs \/ exists e, In (c, e) l.
Proof.
  induction l as [|[c0 e0] t IH]; intros cs ND; cbn [fold_left fst].
  - split; [auto|]. intros c. split; [auto|]. intros [X|(e & [])]. exact X.
  - destruct (IH _ (sadd_nodup _ nat_eqb_eq _ c0 ND)) as (A & B). split; [exact A|]. intros c. rewrite B, (sadd_in _ nat_eqb_eq). split.
    + intros [[-> |X]|(e & X)]; [right; exists e0; left; reflexivity|auto|]. right. exists e. right. exact X.
    + intros [X|(e & [E|X])]; [auto| |]; [injection E as -> ->; auto|]. right. exists e. exact X.
Qed.
Lemma good_ext P Q st : (forall k, P k <-> Q k) -> good P st -> good Q st.
Proof.
  intros E (A & B & C & D). split; [auto|]. split; [auto|]. split; [intros k; rewrite C, E; tauto|]. intros c. rewrite D. split; intros (k & e & X & Y); exists k, e; (split; [apply E; exact X|exact Y]).
Qed.
Lemma estep_good P st k : good P st -> good (fun x => P x \/ x = k) (estep st k).
Proof.
  intros (N1 & N2 & I1 & I2). unfold estep, good. cbn [fst snd].
  assert (A : NoDup (if acc k then sadd ekey_eqb (fst st) k else fst st)) by (destruct (acc k); [apply (sadd_nodup _ ekey_eqb_eq); auto|auto]). split; [exact A|]. clear A.
  destruct (byp || acc k) eqn:BK.
  - destruct (cells_fold (match look k with Some l => l | None => [] end) (snd st) N2) as (F1 & F2).
    assert (EQ : match look k with Some l => fold_left (fun cs (ce : nat * nat) => sadd Nat.eqb cs (fst ce)) l (snd st) | None => snd st end =
      fold_left (fun cs (ce : nat * nat) => sadd Nat.eqb cs (fst ce)) (match look k with Some l => l | None => [] end) (snd st)) by (destruct (look k); reflexivity).
    rewrite EQ. split; [exact F1|]. split.
    + intros x. destruct (acc k) eqn:AK; [rewrite (sadd_in _ ekey_eqb_eq)|]; rewrite I1; intuition (subst; auto); congruence.
    + intros c. rewrite F2, I2. split.
      * intros [(x & e & X & Y & Z)|(e & X)]; [exists x, e; auto|]. exists k, e. auto.
      * intros (x & e & [X| ->] & Y & Z); [left; exists x, e; auto|]. right. exists e. exact Z.
  - split; [exact N2|]. split.
    + apply orb_false_iff in BK as (_ & BK). rewrite BK. intros x. rewrite I1. intuition (subst; auto). congruence.
    + intros c. rewrite I2. split; [intros (x & e & X & Y & Z); exists x, e; auto|]. intros (x & e & [X| ->] & Y & Z); [exists x, e; auto|congruence].
Qed.
Lemma esteps_good es : forall P st, good P st -> good (fun x => P x \/ In x es) (fold_left estep es st).
Proof.
  induction es as [|k t IH]; intros P st G; cbn [fold_left].
  - eapply good_ext; [|exact G]. cbn. tauto.
  - eapply good_ext; [|apply IH, estep_good, G]. intros x. cbn. intuition (subst; auto).
Qed.
Lemma psteps_good (lookp : nat -> option (list ekey)) ids : forall P st, good P st ->
  good (fun x => P x \/ exists p, In p ids /\ In x (match lookp p with Some l => l | None => [] end))
    (fold_left (fun st p => match lookp p with Some es => fold_left estep es st | None => st end) ids st).
Proof.
  induction ids as [|p t IH]; intros P st G; cbn [fold_left].
  - eapply good_ext; [|exact G]. intros x. split; [auto|]. intros [X|(q & [] & _)]. exact X.
  - destruct (lookp p) as [es|] eqn:E.
    + eapply good_ext; [|apply IH, esteps_good, G]. intros x. cbv beta. split.
      * intros [[X|X]|(q & X & Y)]; [auto| |]; right; [exists p; rewrite E; cbn; auto|exists q; cbn; auto].
      * intros [X|(q & [<-|X] & Y)]; [auto| |]; [rewrite E in Y; auto|]. right. exists q. auto.
    + eapply good_ext; [|apply IH, G]. intros x. cbv beta. split.
      * intros [X|(q & X & Y)]; [auto|]. right. exists q. cbn. auto.
      * intros [X|(q & [<-|X] & Y)]; [auto| |]; [rewrite E in Y; destruct Y|]. right. exists q. auto.
Qed.
End F2D.

Lemma features_2d_spec m ea ft g byp a filter ids : ready shuffle m ea ft -> ndim m = 2%nat -> search_point_ids shk sh m g a filter = Ok ids ->
  exists cs eds, search_features_2d shk sh m ft g byp a filter = Ok (ids, cs, eds) /\
    StronglySorted lt cs /\ edges_sorted eds /\
    (forall ed, In ed eds <-> exists i j, get_edge ft i j = Ok ed /\ In i ids /\ In j ids) /\
    (forall c, In c cs <-> exists i j ed e, get_edge ft i j = Ok ed /\ has_edge m i j (c, e) /\
       (exists p, In p ids /\ In p (e_points ed)) /\ (byp = true \/ (In i ids /\ In j ids))).
Proof.
  intros Rd D2 E. pose proof Rd as (C & _ & D & F). destruct (point_maps Rleb shuffle shuffled m ea ft C D F) as (PM & _).
  unfold search_features_2d. rewrite D2, E. cbn [Nat.eqb negb bind].
  set (acc := fun k : ekey => has ids (fst k) && has ids (snd k)).
  pose proof (psteps_good acc byp (mget ekey_eqb (ft_all_2d_edges ft)) (mget Nat.eqb (ft_point_to_edges ft)) ids (fun _ => False) ([], [])) as G.
  match goal with |- context [let '(_, _) := ?t in _] => set (FF := t) end.
  change (good acc byp (mget ekey_eqb (ft_all_2d_edges ft)) (fun _ => False) ([], []) -> good acc byp (mget ekey_eqb (ft_all_2d_edges ft))
     (fun x => False \/ exists p, In p ids /\ In x (match mget Nat.eqb (ft_point_to_edges ft) p with Some l => l | None => [] end)) FF) in G.
  destruct FF as [keys cells]. destruct G as (N1 & N2 & I1 & I2).
  { split; [constructor|]. split; [constructor|]. cbn. split; [intros; tauto|]. intros c. split; [tauto|]. intros (k & e & [] & _). }
  cbn [fst snd] in *.
  assert (K : forall i j, In (i, j) keys <-> between ft ids i j).
  { intros i j. rewrite I1. unfold acc, between. cbn [fst snd]. rewrite andb_true_iff, !has_iff. split.
    - intros ([[]|(p & _ & X)] & Y). split; [|exact Y]. apply PM in X as (ed & X & _). eauto.
    - intros ((ed & X) & Y1 & Y2). split; [|auto]. right. exists i. split; [exact Y1|]. apply PM. exists ed. split; [exact X|].
      destruct (get_edge_key Rleb shuffle shuffled m ea ft i j ed C D F X) as (Q & _). apply (key_points _ _ _ Q). }
  destruct (edges_from m ea ft (isort ekey_leb keys) Rd (ekeys_sorted _ N1)) as (eds & EE & S & J); [intros i j X; apply perm_in, K in X as (X & _); exact X|].
  exists (isort Nat.leb cells), eds. rewrite EE. cbn [bind]. split; [reflexivity|]. split; [apply isort_lt; exact N2|]. split; [exact S|]. split.
  - intros ed. rewrite J. split; intros (i & j & G & X); exists i, j; (split; [exact G|]); [apply perm_in, K in X as (_ & X); exact X|apply perm_in, K; split; eauto].
  - intros c. rewrite isort_in, I2. pose proof (features_map_2d Rleb shuffle m ea ft D2 F) as EM. destruct (edge_map_spec m _ EM (nodup_ids m C)) as (_ & ES & _).
    split.
    + intros ([i j] & e & [[]|(p & Hp & X)] & Y & Z). apply PM in X as (ed & G & X). exists i, j, ed, e. split; [exact G|].
      destruct (get_edge_key Rleb shuffle shuffled m ea ft i j ed C D F G) as (_ & L). specialize (ES i j L).
      split; [|split; [eauto|]].
      * destruct (mget ekey_eqb (ft_all_2d_edges ft) (i, j)); [apply ES; exact Z|destruct Z].
      * apply orb_true_iff in Y as [Y|Y]; [auto|]. unfold acc in Y. cbn [fst snd] in Y. rewrite andb_true_iff, !has_iff in Y. auto.
    + intros (i & j & ed & e & G & X & (p & Hp & Ip) & Y). exists (i, j), e. destruct (get_edge_key Rleb shuffle shuffled m ea ft i j ed C D F G) as (_ & L). specialize (ES i j L).
      split; [right; exists p; split; [exact Hp|]; apply PM; eauto|]. split.
      * apply orb_true_iff. unfold acc. cbn [fst snd]. rewrite andb_true_iff, !has_iff. tauto.
      * destruct (mget ekey_eqb (ft_all_2d_edges ft) (i, j)); [apply ES; exact X|destruct (ES _ X)].
Qed.
End Points.
