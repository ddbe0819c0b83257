(* Proofs about the conversion of meshes: the result *)
From Coq Require Import String Reals QArith Qreals List Arith Bool ZArith Lia Lra Permutation.
From Verif Require Import Base BaseFacts Kind ShapesModel ShapesSpec ShapesProof ShapesTables ShapesShared MeshModel MeshQuerySpec TopoModel TopoSpec TopoMaps TopoProof TopoFeat TopoFeat4 TopoFeat5 PadModel PadSpec PadProof PadProof2 PadProof4 ConvertModel ConvertSpec ConvertProof ConvertProof2 ConvertProof3 ConvertProof4.
Import ListNotations.
Local Open Scope list_scope.
Local Open Scope nat_scope.

(** inputs *)
Lemma foldM_each {S} (f : S -> nat -> res S) l : forall s s' , foldM f l s = Ok s' -> forall i, In i l -> exists s1 s2, f s1 i = Ok s2.
Proof.
  induction l as [|x l IH]; intros s s' H i I; [destruct I|]. simpl in H. destruct (f s x) as [s1| | |] eqn:E; try discriminate.
  destruct I as [<-|I]; eauto.
Qed.

Section Top.
Variable leb : R -> R -> bool.
Variable shuffle : emap -> emap.

Lemma convert_inputs m target d : convert_2d leb shuffle m target = Ok d -> exists source, convertible m source target.
Proof.
  unfold convert_2d. destruct (Nat.eqb_spec (ndim m) 2) as [D|]; [cbn [negb]|discriminate].
  destruct (cells m) as [|c0 cs] eqn:Ecs; [discriminate|]. rewrite <- Ecs.
  destruct (class_eqb (kind_class target) (kind_class (c_kind c0))) eqn:E1; [cbn [negb]|discriminate]. apply class_eqb_eq in E1.
  destruct (negb (class_eqb (kind_class target) CTri) && negb (class_eqb (kind_class target) CQua)) eqn:E2; [discriminate|].
  destruct (node_to_edge target) as [n2e| | |]; try discriminate. cbn [bind].
  destruct (features_new leb shuffle m true) as [ft| | |]; try discriminate. cbn [bind].
  destruct (pad_new (ndim m) (c_kind c0)) as [p| | |]; try discriminate.
  match goal with |- bind ?x _ = _ -> _ => destruct x as [st| | |] eqn:E3; try discriminate end. intros _.
  exists (c_kind c0). split; [auto|]. split; [congruence|]. split; [|split; [|auto]].
  - intros c Hc. apply In_nth_error in Hc as (i & Hi). assert (i < List.length (cells m)) by (apply nth_error_Some; congruence).
    destruct (foldM_each _ _ _ _ E3 i) as (s1 & s2 & F); [apply in_seq; lia|].
    unfold convert_cell in F. unfold get at 1 in F. rewrite Hi in F. cbn [bind] in F.
    destruct (kind_eqb (c_kind c) (c_kind c0)) eqn:E; [now apply kind_eqb_eq|discriminate].
  - unfold plane. rewrite <- E1. destruct (kind_class target); simpl in E2; try discriminate; auto.
Qed.

Hypothesis Sh : forall l, Permutation (shuffle l) l.

Lemma convert_run m source target : consistent m -> coords_complete m -> convertible m source target ->
  exists st cs, convert_2d leb shuffle m target = Ok (mkMesh 2 (v_points st) cs [] []) /\
    inv m source target (List.length (cells m)) st /\ finish_cells m target (v_rows st) = Ok cs.
Proof.
  intros C K (D & Ne & One & Ps & Ec). unfold convert_2d. rewrite D. cbn [Nat.eqb negb].
  destruct (cells m) as [|c0 cs] eqn:Ecs; [congruence|]. rewrite <- Ecs in *.
  assert (Es : c_kind c0 = source) by (apply One; rewrite Ecs; left; auto). rewrite Es.
  rewrite (proj2 (class_eqb_eq _ _) Ec). cbn [negb].
  assert (X : negb (class_eqb (kind_class target) CTri) && negb (class_eqb (kind_class target) CQua) = false).
  { rewrite Ec. destruct Ps as [-> | ->]; reflexivity. }
  rewrite X. destruct (class_facts source target Ps Ec) as (_ & _ & Pt).
  destruct (node_to_edge_ok target Pt) as (n2e & N2E & _). rewrite N2E. cbn [bind].
  destruct (new_total_2d leb shuffle Sh m true C K D) as (ft & Ft). rewrite Ft. cbn [bind].
  destruct (plane_facts source Ps) as (D2 & _).
  destruct (pad_new_ok 2 source) as (p & -> & W & Kp & Sp & _); [auto|lia|].
  assert (Nc : (if class_eqb (kind_class source) CTri then 3 else 4) = ncorners source).
  { unfold ncorners. destruct Ps as [-> | ->]; reflexivity. }
  rewrite Nc.
  destruct (foldM_from (convert_cell m ft source target n2e (ncorners source)) (inv m source target) 0 (List.length (cells m))
    (mkConv [] (repeat (repeat None (kind_nnode target)) (List.length (cells m))) [] (repeat 0%Z (kind_nedge target)) p)) as (st & E & I).
  { apply inv_0; auto. }
  { intros i s Hi I. eapply convert_cell_ok; eauto; lia. }
  rewrite E. cbn [bind]. simpl in I. destruct I as ((org & SS & TT) & I).
  destruct (finish_ok m source target D (v_rows st) org TT) as (cs' & F & _).
  rewrite F. cbn [bind]. exists st, cs'. split; [auto|]. split; [|auto]. split; [eauto|auto].
Qed.
End Top.

(** view of the result *)
Section View.
Variable leb : R -> R -> bool.
Variable shuffle : emap -> emap.
Hypothesis Sh : forall l, Permutation (shuffle l) l.
Variable m : mesh R.
Variables source target : geokind.
Hypothesis C : consistent m.
Hypothesis K : coords_complete m.
Hypothesis V : convertible m source target.
Variable d : mesh R.
Hypothesis Rd : convert_2d leb shuffle m target = Ok d.

Notation nc := (ncorners source).
Notation tn := (kind_nnode target).
Notation ten := (kind_edge_nnode target).
Notation ncell := (List.length (cells m)).

Let D : ndim m = 2 := proj1 V.
Let One : one_kind m source.
Proof. apply V. Qed.
Let Ps : plane source.
Proof. apply V. Qed.
Let Ec : kind_class target = kind_class source.
Proof. apply V. Qed.
Let Pt : plane target.
Proof. apply (class_facts source target Ps Ec). Qed.

Definition nfrom (c a : nat) : Prop := from_earlier m target c a.
Definition ntakes (c a q : nat) : Prop :=
  exists e n ne i, n < c /\ shares m c e n ne /\ 2 <= i < ten /\ edge_node_id_inward target e i = a /\
    node_id d n (edge_node_id target ne i) q.

Lemma cell_kind c cl : nth_error (cells m) c = Some cl -> c_kind cl = source.
Proof. intros H. apply One. eapply nth_error_In; eauto. Qed.

Lemma view : exists org,
  ndim d = 2 /\ marked_edges d = [] /\ marked_faces d = [] /\
  List.length (cells d) = ncell /\
  (forall c cl, nth_error (cells m) c = Some cl -> exists dc, nth_error (cells d) c = Some dc /\
     c_id dc = c /\ c_marker dc = c_marker cl /\ c_kind dc = target /\ List.length (c_points dc) = tn) /\
  List.length org = List.length (points d) /\ NoDup org /\
  (forall p pt o, nth_error (points d) p = Some pt -> nth_error org p = Some o -> good_point m source target p pt o) /\
  (forall c a q, c < ncell -> a < nc -> node_id d c a q -> exists old, node_id m c a old /\ nth_error org q = Some (OCorner old)) /\
  (forall c a q, c < ncell -> nc <= a < tn -> node_id d c a q -> (nth_error org q = Some (ONode c a) /\ ~ nfrom c a) \/ ntakes c a q) /\
  (forall q o, nth_error org q = Some o -> exists c a, c < ncell /\ a < tn /\ node_id d c a q /\ match o with OCorner _ => a < nc | ONode c' a' => c' = c /\ a' = a end).
Proof.
  destruct (convert_run leb shuffle Sh m source target C K V) as (st & cs & E & ((org & SS & TT) & _) & F).
  assert (Ed : d = mkMesh 2 (v_points st) cs [] []) by congruence. unfold ntakes. rewrite Ed. simpl.
  destruct (finish_ok m source target D (v_rows st) org TT) as (cs' & F' & Lc & Hc). rewrite F in F'. injection F' as <-.
  assert (Nid : forall c a q, c < ncell -> (node_id (mkMesh 2 (v_points st) cs [] []) c a q <-> entry (v_rows st) c a = Some q)).
  { intros c a q G. destruct (nth_error (cells m) c) as [cl|] eqn:Ecl; [|apply nth_error_None in Ecl; lia].
    destruct (Hc c cl Ecl) as (dc & Hd & _ & _ & _ & _ & P). split.
    - intros (dc' & Hd' & Hq). simpl in Hd'. rewrite Hd in Hd'. injection Hd' as <-. now apply P.
    - intros Hq. exists dc. split; [auto|]. now apply P. }
  destruct SS as (SL & SN & SG & _). destruct TT as (T1 & T2 & _ & T4 & T5).
  exists org. split; [auto|]. split; [auto|]. split; [auto|]. split; [auto|]. split.
  { intros c cl G. destruct (Hc c cl G) as (dc & Hd & A1 & A2 & A3 & A4 & _). exists dc. auto. }
  split; [auto|]. split; [auto|]. split; [auto|]. split; [|split].
  - intros c a q G Ha N. apply Nid in N; auto. destruct (nth_error (cells m) c) as [cl|] eqn:Ecl; [|apply nth_error_None in Ecl; lia].
    destruct (plane_facts target Pt) as (_ & Hnt & _). destruct (class_facts source target Ps Ec) as (_ & ENC & _).
    destruct (T4 c cl a G Ecl) as (q' & E1 & E2 & _); [lia|]. rewrite N in E1. injection E1 as <-.
    destruct (E2 Ha) as (old & X & Y). exists old. split; [|auto]. exists cl. auto.
  - intros c a q G Ha N. apply Nid in N; auto. destruct (nth_error (cells m) c) as [cl|] eqn:Ecl; [|apply nth_error_None in Ecl; lia].
    destruct (T4 c cl a G Ecl) as (q' & E1 & _ & E2); [lia|]. rewrite N in E1. injection E1 as <-.
    destruct (E2 ltac:(lia)) as [X|(e & n & ne & i & Hn & X & Hi & Y & Z)]; [left; auto|right].
    exists e, n, ne, i. do 4 (split; [auto|]). apply Nid; auto. lia.
  - intros q o Hq. destruct (T5 q o Hq) as (c & a & G & Ha & N & X). exists c, a. do 2 (split; [auto|]). split; [|auto]. apply Nid; auto.
Qed.
End View.
