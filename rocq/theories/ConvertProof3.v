(* Proofs about the conversion of meshes: the invariant of the loop over the cells *)
From Coq Require Import String Reals QArith Qreals List Arith Bool ZArith Lia Lra Permutation.
From Verif Require Import Base BaseFacts Kind ShapesModel ShapesProof ShapesTables MeshModel MeshQuerySpec TopoModel TopoSpec TopoMaps TopoProof TopoFeat TopoFeat4 TopoFeat5 PadModel PadSpec PadProof PadProof2 PadProof4 ConvertModel ConvertSpec ConvertProof ConvertProof2.
Import ListNotations.
Local Open Scope list_scope.
Local Open Scope nat_scope.

(* where a new point comes from: a corner of the old mesh, or node a of cell c *)
Inductive origin := OCorner (old : nat) | ONode (c a : nat).

Lemma nodup_snoc {A} (l : list A) x : NoDup l -> ~ In x l -> NoDup (l ++ [x]).
Proof. intros H N. apply nodup_app; [auto|repeat constructor; simpl; tauto|]. intros y Hy [<-|[]]. auto. Qed.
Lemma nth_error_snoc {A} (l : list A) x i : nth_error (l ++ [x]) i = if i =? List.length l then Some x else nth_error l i.
Proof.
  destruct (Nat.eqb_spec i (List.length l)) as [->|N].
  - rewrite nth_error_app2, Nat.sub_diag by lia. reflexivity.
  - destruct (Nat.lt_ge_cases i (List.length l)); [apply nth_error_app1; auto|].
    rewrite nth_error_app2 by lia. destruct (i - List.length l) as [|j] eqn:E; [lia|]. simpl.
    rewrite (proj2 (nth_error_None l i)) by lia. destruct j; reflexivity.
Qed.
Lemma nth_error_left {A} (l l' : list A) i x : nth_error l i = Some x -> nth_error (l ++ l') i = Some x.
Proof. intros H. rewrite nth_error_app1; auto. apply nth_error_Some. congruence. Qed.

Section Inv.
Variable leb : R -> R -> bool.
Variable shuffle : emap -> emap.
Variable m : mesh R.
Variables source target : geokind.
Hypothesis C : consistent m.
Hypothesis K : coords_complete m.
Hypothesis D : ndim m = 2.
Hypothesis Ps : plane source.
Hypothesis Ec : kind_class target = kind_class source.
Hypothesis One : one_kind m source.
Variable ft : @features R.
Hypothesis Ft : features_new leb shuffle m true = Ok ft.
Variable n2e : list (option nat).
Hypothesis N2E : node_to_edge target = Ok n2e.

Notation nc := (ncorners source).
Notation tn := (kind_nnode target).
Notation ten := (kind_edge_nnode target).
Notation ncell := (List.length (cells m)).

Let Pt : plane target.
Proof. apply (class_facts source target Ps Ec). Qed.

Definition node_mark (cl : cell) (a : nat) (z : Z) : Prop :=
  (exists e, on_edge target e a /\ edge_mark m cl e z) \/ ((forall e, ~ on_edge target e a) /\ z = 0%Z).
Definition good_point (p : nat) (pt : point R) (o : origin) : Prop :=
  pt_id pt = p /\
  match o with
  | OCorner old => exists q, nth_error (points m) old = Some q /\ pt_marker pt = pt_marker q /\ pt_coords pt = pt_coords q
  | ONode c a => nc <= a < tn /\ exists cl, nth_error (cells m) c = Some cl /\
      pt_coords pt = image m cl (ref_coords target a) /\ node_mark cl a (pt_marker pt)
  end.
Definition store (pts : list (point R)) (corners : list (nat * nat)) (org : list origin) : Prop :=
  List.length org = List.length pts /\ NoDup org /\
  (forall p pt o, nth_error pts p = Some pt -> nth_error org p = Some o -> good_point p pt o) /\
  (forall old new, mget Nat.eqb corners old = Some new <-> nth_error org new = Some (OCorner old)).

Definition entry (rows : list (list (option nat))) (c a : nat) : option nat := nth a (nth c rows []) None.
Definition takes (rows : list (list (option nat))) (c a p : nat) : Prop :=
  exists e n ne i, n < c /\ shares m c e n ne /\ 2 <= i < ten /\ edge_node_id_inward target e i = a /\
    entry rows n (edge_node_id target ne i) = Some p.
Definition from_earlier (c a : nat) : Prop :=
  exists e n ne i, n < c /\ shares m c e n ne /\ 2 <= i < ten /\ edge_node_id_inward target e i = a.
Definition entry_ok (rows : list (list (option nat))) (org : list origin) (c : nat) (cl : cell) (a p : nat) : Prop :=
  (a < nc -> exists old, nth_error (c_points cl) a = Some old /\ nth_error org p = Some (OCorner old)) /\
  (nc <= a -> (nth_error org p = Some (ONode c a) /\ ~ from_earlier c a) \/ takes rows c a p).
Definition used (rows : list (list (option nat))) (k : nat) (p : nat) (o : origin) : Prop :=
  exists c a, c < k /\ a < tn /\ entry rows c a = Some p /\ match o with OCorner _ => a < nc | ONode c' a' => c' = c /\ a' = a end.
Definition table (k : nat) (rows : list (list (option nat))) (org : list origin) : Prop :=
  List.length rows = ncell /\ (forall c, c < ncell -> List.length (nth c rows []) = tn) /\
  (forall c a, k <= c -> entry rows c a = None) /\
  (forall c cl a, c < k -> nth_error (cells m) c = Some cl -> a < tn -> exists p, entry rows c a = Some p /\ entry_ok rows org c cl a p) /\
  (forall p o, nth_error org p = Some o -> used rows k p o).
Definition inv (k : nat) (st : conv) : Prop :=
  (exists org, store (v_points st) (v_corners st) org /\ table k (v_rows st) org) /\
  List.length (v_marks st) = kind_nedge target /\ (kind_edge_nnode source = 2 -> Forall (eq 0%Z) (v_marks st)) /\
  pad_wf (v_pad st) /\ p_kind (v_pad st) = source /\ p_space (v_pad st) = 2.

Lemma shares_in c e n ne : shares m c e n ne -> c < ncell /\ n < ncell /\ e < kind_nedge target /\ ne < kind_nedge target.
Proof.
  destruct (class_facts source target Ps Ec) as (EN & _ & _).
  assert (X : forall a b c e, has_edge m a b (c, e) -> c < ncell /\ e < kind_nedge target).
  { intros a b c0 e0 (p & q & (cl & H1 & H2 & H3 & H4 & _) & _). simpl in *. rewrite (One cl H1) in H4. split; [|lia].
    apply In_nth_error in H1 as (i & Hi). destruct C as [_ CC]. destruct (CC i cl Hi) as (Id & _). rewrite H2 in Id. subst i.
    apply nth_error_Some. congruence. }
  intros (_ & a & b & H1 & H2). apply X in H1. apply X in H2. tauto.
Qed.

(** corners *)
Section Cell.
Variables (k : nat) (cl : cell).
Hypothesis Hk : nth_error (cells m) k = Some cl.
Let Hin : In cl (cells m) := nth_error_In _ _ Hk.
Let Ek : c_kind cl = source := One cl Hin.

Definition corner_inv (org0 : list origin) (a : nat) (st : list (point R) * list (nat * nat) * list (option nat)) : Prop :=
  let '(pts, corners, con) := st in
  exists ext, store pts corners (org0 ++ ext) /\ List.length con = tn /\
    (forall b, b < a -> exists old p, nth_error (c_points cl) b = Some old /\ nth b con None = Some p /\ nth_error (org0 ++ ext) p = Some (OCorner old)) /\
    (forall b, a <= b -> nth b con None = None) /\
    (forall p, List.length org0 <= p < List.length (org0 ++ ext) ->
       exists b old, b < a /\ nth b con None = Some p /\ nth_error (org0 ++ ext) p = Some (OCorner old)).

Lemma corner_step_ok org0 a st : a < nc -> corner_inv org0 a st -> exists st', corner_step m cl st a = Ok st' /\ corner_inv org0 (S a) st'.
Proof.
  intros Ha. destruct st as [[pts corners] con]. intros (ext & (SL & SN & SG & SC) & Lc & A & B & U).
  destruct (plane_facts source Ps) as (_ & Hn & _ & _). destruct (plane_facts target Pt) as (_ & Hnt & _ & _).
  destruct (class_facts source target Ps Ec) as (_ & ENC & _).
  destruct (cell_point m source target C D Ps Ec cl a Hin Ek ltac:(lia)) as (old & pt & E1 & E2).
  unfold corner_step. unfold get at 1. rewrite E1. cbn [bind].
  destruct (mget Nat.eqb corners old) as [new|] eqn:G.
  - rewrite set_ok by lia. cbn [bind]. eexists. split; [reflexivity|].
    exists ext. split; [split; auto|]. split; [now rewrite upd_length|]. split; [|split].
    + intros b Hb. destruct (Nat.eq_dec b a) as [->|N].
      * exists old, new. split; [auto|]. split; [apply nth_upd_same; lia|]. now apply SC.
      * rewrite nth_upd_other by lia. apply A. lia.
    + intros b Hb. rewrite nth_upd_other by lia. apply B. lia.
    + intros p Hp. destruct (U p Hp) as (b & o & Hb & V & W). exists b, o. rewrite nth_upd_other by lia. auto.
  - unfold get. rewrite E2. cbn [bind]. rewrite set_ok by lia. cbn [bind]. eexists. split; [reflexivity|].
    assert (New : forall p, nth_error (org0 ++ ext) p <> Some (OCorner old)) by (intros p Hp; apply SC in Hp; congruence).
    exists (ext ++ [OCorner old]). rewrite app_assoc.
    split; [split; [|split; [|split]]|split; [now rewrite upd_length|split; [|split]]].
    + rewrite !app_length, <- SL, app_length. reflexivity.
    + apply nodup_snoc; auto. intros I. apply In_nth_error in I as (p & Hp). eapply New; eauto.
    + intros p q o. rewrite !nth_error_snoc, SL. destruct (Nat.eqb_spec p (List.length pts)) as [->|N]; [|apply SG].
      intros [= <-] [= <-]. split; [reflexivity|]. exists pt. auto.
    + intros o new. rewrite nth_error_snoc, SL. destruct (Nat.eq_dec o old) as [->|N].
      * rewrite (mget_mput_same Nat.eqb Nat.eqb_eq). split.
        -- intros [= <-]. now rewrite Nat.eqb_refl.
        -- destruct (Nat.eqb_spec new (List.length pts)) as [->|]; [auto|]. intros H. exfalso. eapply New; eauto.
      * rewrite (mget_mput_other Nat.eqb Nat.eqb_eq) by auto. rewrite SC. destruct (Nat.eqb_spec new (List.length pts)) as [->|]; [|tauto].
        split; [intros H|congruence]. exfalso. assert (X : List.length pts < List.length (org0 ++ ext)) by (apply nth_error_Some; congruence). lia.
    + intros b Hb. destruct (Nat.eq_dec b a) as [->|N].
      * exists old, (List.length pts). split; [auto|]. split; [apply nth_upd_same; lia|]. rewrite nth_error_snoc, SL, Nat.eqb_refl. reflexivity.
      * rewrite nth_upd_other by lia. destruct (A b ltac:(lia)) as (o & p & X & Y & Z). exists o, p. split; [auto|]. split; [auto|].
        now apply nth_error_left.
    + intros b Hb. rewrite nth_upd_other by lia. apply B. lia.
    + intros p Hp. rewrite app_length in Hp. simpl in Hp. destruct (Nat.eq_dec p (List.length pts)) as [->|N].
      * exists a, old. split; [lia|]. split; [apply nth_upd_same; lia|]. rewrite nth_error_snoc, SL, Nat.eqb_refl. reflexivity.
      * destruct (U p ltac:(lia)) as (b & o & Hb & V & W). exists b, o. rewrite nth_upd_other by lia. split; [lia|]. split; [auto|].
        now apply nth_error_left.
Qed.

(** neighbours *)
Definition nb_inv (rows : list (list (option nat))) (con1 : list (option nat)) (pre : list (nat * nat * nat)) (con : list (option nat)) : Prop :=
  List.length con = tn /\ (forall b, b < nc -> nth b con None = nth b con1 None) /\
  forall b, nc <= b -> match nth b con None with
    | Some p => exists e n ne i, In (e, n, ne) pre /\ n < k /\ 2 <= i < ten /\ edge_node_id_inward target e i = b /\ entry rows n (edge_node_id target ne i) = Some p
    | None => forall e n ne i, In (e, n, ne) pre -> n < k -> 2 <= i < ten -> edge_node_id_inward target e i <> b
    end.

Lemma neighbor_step_ok rows org con1 pre con e n ne : table k rows org -> nb_inv rows con1 pre con -> shares m k e n ne ->
  exists con', neighbor_step target rows con (e, n, ne) = Ok con' /\ nb_inv rows con1 (pre ++ [(e, n, ne)]) con'.
Proof.
  intros (T1 & T2 & T3 & T4 & _) (L & A & B) Sh.
  destruct (shares_in _ _ _ _ Sh) as (_ & Hn & He & Hne). assert (Nk : n <> k) by (destruct Sh; auto).
  destruct (class_facts source target Ps Ec) as (_ & ENC & _).
  unfold neighbor_step.
  set (Q := fun j (v : list (option nat)) => List.length v = tn /\ (forall b, b < nc -> nth b v None = nth b con1 None) /\
     forall b, nc <= b -> match nth b v None with
    | Some p => (exists e n ne i, In (e, n, ne) pre /\ n < k /\ 2 <= i < ten /\ edge_node_id_inward target e i = b /\ entry rows n (edge_node_id target ne i) = Some p) \/
                (exists i, n < k /\ 2 <= i < j /\ edge_node_id_inward target e i = b /\ entry rows n (edge_node_id target ne i) = Some p)
    | None => (forall e n ne i, In (e, n, ne) pre -> n < k -> 2 <= i < ten -> edge_node_id_inward target e i <> b) /\
              (n < k -> forall i, 2 <= i < j -> edge_node_id_inward target e i <> b)
    end).
  match goal with |- exists _, foldM ?f _ _ = _ /\ _ => destruct (foldM_from f Q 2 (ten - 2) con) as (v & Ev & Lv & Av & Bv) end.
  - split; [auto|]. split; [auto|]. intros b Hb. specialize (B b Hb). destruct (nth b con None) as [p|].
    + left. exact B.
    + split; [exact B|]. intros; lia.
  - intros i v Hi (Lv & Av & Bv).
    destruct (mid_facts target Pt e i He ltac:(lia)) as (_ & Ri & Inj & _).
    destruct (mid_facts target Pt ne i Hne ltac:(lia)) as (Ro & _).
    destruct (Nat.leb_spec (kind_nedge target) ne); [lia|].
    rewrite (get_ok _ _ []) by lia. cbn [bind]. rewrite (get_ok _ _ None) by (rewrite T2; lia). cbn [bind].
    fold (entry rows n (edge_node_id target ne i)).
    destruct (Nat.lt_ge_cases n k) as [Hnk|Hnk].
    + destruct (nth_error (cells m) n) as [cn|] eqn:En; [|apply nth_error_None in En; lia].
      destruct (T4 n cn (edge_node_id target ne i) Hnk En ltac:(lia)) as (p & Ep & _). rewrite Ep.
      rewrite set_ok by lia. eexists. split; [reflexivity|]. split; [now rewrite upd_length|]. split.
      * intros b Hb. rewrite nth_upd_other by lia. auto.
      * intros b Hb. destruct (Nat.eq_dec (edge_node_id_inward target e i) b) as [<-|N].
        -- rewrite nth_upd_same by lia. right. exists i. split; [auto|]. split; [lia|]. auto.
        -- rewrite nth_upd_other by lia. specialize (Bv b Hb). destruct (nth b v None).
           ++ destruct Bv as [X|(i0 & X & Y & Z)]; [auto|]. right. exists i0. split; [auto|]. split; [lia|auto].
           ++ destruct Bv as [X Y]. split; [auto|]. intros Hn2 i0 Hi0. destruct (Nat.eq_dec i0 i) as [->|]; [auto|]. apply Y; auto. lia.
    + rewrite T3 by lia. eexists. split; [reflexivity|]. split; [auto|]. split; [auto|].
      intros b Hb. specialize (Bv b Hb). destruct (nth b v None).
      ++ destruct Bv as [X|(i0 & X & Y & Z)]; [auto|]. lia.
      ++ destruct Bv as [X Y]. split; [auto|]. intros; lia.
  - exists v. split; [exact Ev|]. split; [auto|]. split; [auto|]. intros b Hb. specialize (Bv b Hb).
    destruct (plane_facts target Pt) as (_ & _ & _ & G2).
    destruct (nth b v None) as [p|].
    + destruct Bv as [(e0 & n0 & ne0 & i0 & X & Y)|(i0 & X & Y & Z & W)].
      * exists e0, n0, ne0, i0. split; [apply in_or_app; auto|auto].
      * exists e, n, ne, i0. split; [apply in_or_app; right; left; auto|]. split; [auto|]. split; [lia|auto].
    + destruct Bv as [X Y]. intros e0 n0 ne0 i0 I0 Hn0 Hi0. apply in_app_or in I0 as [I0|[[= <- <- <-]|[]]].
      * eapply X; eauto.
      * apply Y; auto. lia.
Qed.

(** new nodes *)
Definition node_inv (corners : list (nat * nat)) (org1 : list origin) (con2 : list (option nat)) (a : nat)
    (st : list (point R) * list (option nat) * pad) : Prop :=
  let '(pts, con, p) := st in
  exists ext, store pts corners (org1 ++ ext) /\ List.length con = tn /\
    (forall b, b < a -> match nth b con2 None with
       | Some q => nth b con None = Some q
       | None => nc <= b -> exists q, nth b con None = Some q /\ nth_error (org1 ++ ext) q = Some (ONode k b)
       end) /\
    (forall b, a <= b -> nth b con None = nth b con2 None) /\
    (forall q, List.length org1 <= q < List.length (org1 ++ ext) ->
       exists b, nc <= b < a /\ nth b con None = Some q /\ nth_error (org1 ++ ext) q = Some (ONode k b)) /\
    element_of m cl p /\ p_ok p = true.

Lemma node_step_ok corners org1 con2 marks a st : nc <= a < tn ->
  (forall c b, In (ONode c b) org1 -> c < k) ->
  List.length marks = kind_nedge target -> (forall e, e < kind_nedge target -> edge_mark m cl e (nth e marks 0%Z)) ->
  node_inv corners org1 con2 a st ->
  exists st', node_step target n2e marks st a = Ok st' /\ node_inv corners org1 con2 (S a) st'.
Proof.
  intros Ha Old Lm Hm. destruct st as [[pts con] p]. intros (ext & (SL & SN & SG & SC) & L & A & B & U & El & O).
  assert (X2 := B a (le_n a)).
  unfold node_step. rewrite (get_ok _ _ None) by lia. cbn [bind]. rewrite X2.
  destruct (nth a con2 None) as [q|] eqn:Eq.
  - eexists. split; [reflexivity|]. exists ext. split; [split; auto|]. split; [auto|]. split; [|split; [|split]].
    + intros b Hb. destruct (Nat.eq_dec b a) as [->|N]; [rewrite Eq; congruence|]. apply A. lia.
    + intros b Hb. apply B. lia.
    + intros q0 Hq0. destruct (U q0 Hq0) as (b & Hb & V). exists b. split; [lia|auto].
    + auto.
  - destruct (node_to_edge_ok target Pt) as (v & Ev & Lv & Hv). rewrite N2E in Ev. injection Ev as <-.
    specialize (Hv a ltac:(lia)). rewrite (get_ok n2e a None) by lia. cbn [bind].
    assert (M : exists z, match nth a n2e None with None => Ok 0%Z | Some e => get marks e end = Ok z /\ node_mark cl a z).
    { destruct (nth a n2e None) as [e|].
      - assert (He : e < kind_nedge target) by apply Hv. exists (nth e marks 0%Z). split; [apply get_ok; lia|]. left. exists e. auto.
      - exists 0%Z. split; [auto|]. right. auto. }
    destruct M as (z & -> & Hz). cbn [bind].
    rewrite (coords_image m source target C D Ps Ec cl p (ref_coords target a) Hin Ek El O). rewrite set_ok by lia. cbn [bind].
    eexists. split; [reflexivity|].
    assert (New : ~ In (ONode k a) (org1 ++ ext)).
    { intros I. apply in_app_or in I as [I|I]; [apply Old in I; lia|].
      apply In_nth_error in I as (j & Hj). assert (j < List.length ext) by (apply nth_error_Some; congruence).
      destruct (U (List.length org1 + j)) as (b & Hb & _ & V); [rewrite app_length; lia|].
      rewrite nth_error_app2 in V by lia. replace (List.length org1 + j - List.length org1) with j in V by lia. rewrite Hj in V. injection V as <-. lia. }
    exists (ext ++ [ONode k a]). rewrite app_assoc.
    split; [split; [|split; [|split]]|split; [now rewrite upd_length|split; [|split; [|split]]]].
    + rewrite !app_length, <- SL, app_length. reflexivity.
    + apply nodup_snoc; auto.
    + intros q pt o. rewrite !nth_error_snoc, SL. destruct (Nat.eqb_spec q (List.length pts)) as [->|N]; [|apply SG].
      intros [= <-] [= <-]. split; [reflexivity|]. split; [auto|]. exists cl. auto.
    + intros o new. rewrite SC, nth_error_snoc, SL. destruct (Nat.eqb_spec new (List.length pts)) as [->|]; [|tauto].
      split; [|congruence]. intros H. exfalso. assert (Y : List.length pts < List.length (org1 ++ ext)) by (apply nth_error_Some; congruence). lia.
    + intros b Hb. destruct (Nat.eq_dec b a) as [->|N].
      * rewrite Eq. intros _. exists (List.length pts). split; [apply nth_upd_same; lia|]. rewrite nth_error_snoc, SL, Nat.eqb_refl. reflexivity.
      * rewrite nth_upd_other by lia. specialize (A b ltac:(lia)). destruct (nth b con2 None); [auto|]. intros Hb2.
        destruct (A Hb2) as (q & V & W). exists q. split; [auto|]. now apply nth_error_left.
    + intros b Hb. rewrite nth_upd_other by lia. apply B. lia.
    + intros q Hq. rewrite app_length in Hq. simpl in Hq. destruct (Nat.eq_dec q (List.length pts)) as [->|N].
      * exists a. split; [lia|]. split; [apply nth_upd_same; lia|]. rewrite nth_error_snoc, SL, Nat.eqb_refl. reflexivity.
      * destruct (U q ltac:(lia)) as (b & Hb & V & W). exists b. rewrite nth_upd_other by lia. split; [lia|]. split; [auto|].
        now apply nth_error_left.
    + destruct (with_interp_element m cl p (calc_interp source (ref_coords target a)) El) as [E1 E2]. split; [auto|]. rewrite E2; auto.
Qed.
End Cell.
End Inv.
