(* Joining the meshes of several rectangular blocks. *)
From Coq Require Import String Reals List Lia Lra Bool Arith ZArith Permutation.
From Verif Require Import Base BaseFacts Kind MeshModel MeshQuerySpec TopoModel TopoSpec GeomModel GeomSpec GeomProof GridModel GridSpec GridProof SearchModel SearchProof
  JoinModel JoinSpec JoinProof JoinProof2 ShapesModel BlockModel BlockSpec BlockProof BlockProof3 PropJoin GraphModel GraphVocab PropGraph StructModel StructSpec StructProof StructProof2 StructProof3.
Import ListNotations.
Local Open Scope list_scope.
Local Open Scope R_scope.

(* ---------------------------------------------------------------- disjoint boxes *)
Definition sep (b c : box) : Prop := bx1 b <= bx0 c \/ bx1 c <= bx0 b \/ by1 b <= by0 c \/ by1 c <= by0 b.
Lemma sep_sym b c : sep b c -> sep c b. Proof. unfold sep. tauto. Qed.
Lemma disjoint_nil : disjoint_boxes [].
Proof. split; [intros b []|]. intros i j b c _ H. destruct i; discriminate. Qed.
Lemma disjoint_app l1 l2 : disjoint_boxes (l1 ++ l2) <-> disjoint_boxes l1 /\ disjoint_boxes l2 /\ forall b c, In b l1 -> In c l2 -> sep b c.
Proof.
  split.
  - intros (W & D). split; [|split].
    + split; [intros b I; apply W, in_app_iff; auto|]. intros i j b c N Hi Hj. apply (D i j b c N); rewrite nth_error_app1; auto; apply nth_error_Some; congruence.
    + split; [intros b I; apply W, in_app_iff; auto|]. intros i j b c N Hi Hj. apply (D (List.length l1 + i)%nat (List.length l1 + j)%nat b c); [lia| |]; rewrite nth_error_app2 by lia; rewrite minus_plus; auto.
    + intros b c I1 I2. apply In_nth_error in I1 as (i & Hi). apply In_nth_error in I2 as (j & Hj). assert (i < List.length l1)%nat by (apply nth_error_Some; congruence).
      apply (D i (List.length l1 + j)%nat b c); [lia| |]; [rewrite nth_error_app1 by lia; exact Hi|rewrite nth_error_app2 by lia; rewrite minus_plus; exact Hj].
  - intros ((W1 & D1) & (W2 & D2) & S). split; [intros b I; apply in_app_iff in I as [I|I]; auto|]. intros i j b c N Hi Hj.
    destruct (le_lt_dec (List.length l1) i) as [Li|Li]; [rewrite nth_error_app2 in Hi by lia|rewrite nth_error_app1 in Hi by lia];
    (destruct (le_lt_dec (List.length l1) j) as [Lj|Lj]; [rewrite nth_error_app2 in Hj by lia|rewrite nth_error_app1 in Hj by lia]).
    + apply (D2 (i - List.length l1)%nat (j - List.length l1)%nat b c); auto; lia.
    + apply sep_sym, S; eapply nth_error_In; eassumption.
    + apply S; eapply nth_error_In; eassumption.
    + apply (D1 i j b c); auto.
Qed.
Lemma disjoint_one b : bx0 b < bx1 b -> by0 b < by1 b -> disjoint_boxes [b].
Proof. intros H1 H2. split; [intros c [<-|[]]; auto|]. intros [|[|i]] [|[|j]] c d N Hc Hd; cbn in *; try discriminate; lia. Qed.
Lemma disjoint_flat {A} (f : A -> list box) l : (forall x, In x l -> disjoint_boxes (f x)) ->
  ForallOrdPairs (fun x y => forall b c, In b (f x) -> In c (f y) -> sep b c) l -> disjoint_boxes (flat_map f l).
Proof.
  intros H F. induction F as [|x l Fx F IH]; cbn; [apply disjoint_nil|]. apply disjoint_app. split; [apply H; left; reflexivity|].
  split; [apply IH; intros y Iy; apply H; right; exact Iy|]. intros b c Ib Ic. apply in_flat_map in Ic as (y & Iy & Ic). rewrite Forall_forall in Fx. exact (Fx y Iy b c Ib Ic).
Qed.
Lemma pairs_seq (R : nat -> nat -> Prop) : forall n s, (forall i j, (s <= i < j)%nat -> (j < s + n)%nat -> R i j) -> ForallOrdPairs R (seq s n).
Proof.
  induction n as [|n IH]; intros s H; cbn; constructor.
  - apply Forall_forall. intros j Ij. apply in_seq in Ij. apply H; lia.
  - apply IH. intros i j L1 L2. apply H; lia.
Qed.

Lemma in_grid bx n m c : In c (grid_boxes bx n m) <-> exists i j, (i < n)%nat /\ (j < m)%nat /\
  c = mkBox (bx_marker bx) (tick (bx0 bx) (bx1 bx) n i) (tick (bx0 bx) (bx1 bx) n (S i)) (tick (by0 bx) (by1 bx) m j) (tick (by0 bx) (by1 bx) m (S j)).
Proof.
  unfold grid_boxes. rewrite in_flat_map. split.
  - intros (j & Ij & I). apply in_map_iff in I as (i & <- & Ii). apply in_seq in Ij. apply in_seq in Ii. exists i, j. repeat split; lia.
  - intros (i & j & Hi & Hj & ->). exists j. split; [apply in_seq; lia|]. apply in_map_iff. exists i. split; [reflexivity|apply in_seq; lia].
Qed.
Lemma grid_within bx n m c : bx0 bx < bx1 bx -> by0 bx < by1 bx -> In c (grid_boxes bx n m) ->
  (bx0 bx <= bx0 c < bx1 c /\ bx1 c <= bx1 bx) /\ (by0 bx <= by0 c < by1 c /\ by1 c <= by1 bx).
Proof.
  intros LX LY I. apply in_grid in I as (i & j & Hi & Hj & ->). cbn [bx0 bx1 by0 by1].
  assert (A : forall a b k q, a < b -> (q < k)%nat -> a <= tick a b k q < tick a b k (S q) /\ tick a b k (S q) <= b).
  { intros a b k q L Hq. pose proof (tick_mono a b k 0 q ltac:(lia) L ltac:(lia)). rewrite tick_0 in *. pose proof (tick_mono a b k (S q) k ltac:(lia) L ltac:(lia)). rewrite tick_n in * by lia.
    pose proof (tick_strict a b k q (S q) ltac:(lia) L ltac:(lia)). lra. }
  split; apply A; auto.
Qed.
Lemma grid_disjoint bx n m : bx0 bx < bx1 bx -> by0 bx < by1 bx -> disjoint_boxes (grid_boxes bx n m).
Proof.
  intros LX LY. unfold grid_boxes. apply disjoint_flat.
  - intros j Ij. apply in_seq in Ij. rewrite <- (app_nil_r (map _ _)). rewrite app_nil_r.
    assert (E : forall (g : nat -> box) l, map g l = flat_map (fun i => [g i]) l) by (intros g l; induction l; cbn; congruence). rewrite E. apply disjoint_flat.
    + intros i Ii. apply in_seq in Ii. apply disjoint_one; cbn; apply tick_strict; auto; lia.
    + apply pairs_seq. intros i i' L1 L2 b c [<-|[]] [<-|[]]. left. cbn. apply tick_mono; auto; lia.
  - apply pairs_seq. intros j j' L1 L2 b c Ib Ic. apply in_map_iff in Ib as (i & <- & _). apply in_map_iff in Ic as (i' & <- & _). right. right. left. cbn. apply tick_mono; auto; lia.
Qed.

(* ---------------------------------------------------------------- renumbering *)
Lemma perm_onto l n : Permutation l (seq 0 n) -> forall j, (j < n)%nat -> exists i, (i < n)%nat /\ nth i l 0%nat = j.
Proof.
  intros H j Hj. assert (I : In j l) by (eapply Permutation_in; [apply Permutation_sym, H|apply in_seq; lia]). apply (In_nth l j 0%nat) in I as (i & Li & E).
  exists i. split; [|exact E]. apply Permutation_length in H. rewrite seq_length in H. lia.
Qed.
Lemma renumber_depicts target m bs m' : depicts target m bs -> renumber_mesh m false = Ok m' -> depicts target m' bs.
Proof.
  intros (C1 & C2 & N & U1 & U2 & D & A & S) H.
  assert (W : well_formed m). { split; [|exact C2]. intros c p Ic Ip. apply In_nth_error in Ic as (i & Ic). destruct C1 as (_ & C1). apply (proj2 (proj2 (C1 i c Ic))). exact Ip. }
  destruct (C08_renumber_mesh R m m' false W H) as (o & P & (R1 & R2 & R3 & R4) & M1 & M2).
  assert (Fw : forall p x, coords_of m p x -> coords_of m' (nth p o 0%nat) x). { intros p x (pt & X & <-). eexists. split; [apply R3; exact X|reflexivity]. }
  assert (Lo : List.length o = List.length (points m)) by (apply Permutation_length in P; rewrite seq_length in P; exact P).
  assert (Bw : forall q x, coords_of m' q x -> exists p, nth p o 0%nat = q /\ coords_of m p x).
  { intros q x X. destruct (perm_onto _ _ P q) as (p & Lp & E). { rewrite <- R2. eapply coords_range. exact X. }
    exists p. split; [exact E|]. destruct (coords_get m p Lp) as (y & Y). pose proof (Fw p y Y) as Z. rewrite E in Z. rewrite (coords_inj _ _ _ _ X Z). exact Y. }
  assert (Rng : forall p, (p < List.length (points m))%nat -> (nth p o 0 < List.length (points m'))%nat). { intros p Lp. destruct (coords_get m p Lp) as (y & Y). eapply coords_range. apply Fw. exact Y. }
  split; [split|].
  - intros q pt X. destruct (perm_onto _ _ P q) as (p & Lp & E). { rewrite <- R2. apply nth_error_Some. congruence. }
    destruct (nth_error (points m) p) as [pt0|] eqn:X0; [|apply nth_error_None in X0; lia]. apply R3 in X0. rewrite E in X0. rewrite X in X0. injection X0 as ->. reflexivity.
  - intros i c X. rewrite R4, nth_error_map in X. destruct (nth_error (cells m) i) as [c0|] eqn:X0; [|discriminate]. injection X as <-. cbn. destruct C1 as (_ & C1). destruct (C1 i c0 X0) as (Y1 & Y2 & Y3).
    split; [exact Y1|]. split; [rewrite map_length; exact Y2|]. intros q Iq. apply in_map_iff in Iq as (p & <- & Ip). apply Rng, Y3, Ip.
  - split. { intros pt I. apply In_nth_error in I as (q & X). destruct (Bw q (pt_coords pt)) as (p & _ & (pt0 & X0 & E)); [exists pt; auto|]. rewrite <- E, R1. apply C2. eapply nth_error_In. exact X0. }
    split; [congruence|]. split; [congruence|]. split; [congruence|]. split; [|split].
    + intros i j x Xi Xj. destruct (Bw i x Xi) as (p & <- & Xp). destruct (Bw j x Xj) as (q & <- & Xq). rewrite (D p q x Xp Xq). reflexivity.
    + intros q Lq. rewrite R2 in Lq. destruct (perm_onto _ _ P q Lq) as (p & Lp & E). destruct (A p Lp) as (c & Ic & Ip). rewrite R4. eexists. split; [apply in_map; exact Ic|]. cbn. rewrite <- E. apply (in_map (fun p => nth p o 0%nat)). exact Ip.
    + unfold shows. rewrite R4. apply Forall2_map_l. eapply Forall2_weaken; [|exact S]. intros c g _ (S1 & S2 & S3). split; [exact S1|]. split; [exact S2|]. cbn. apply Forall2_map_l. eapply Forall2_weaken; [|exact S3]. intros p x _. apply Fw.
Qed.

(* ---------------------------------------------------------------- joining *)
Definition gapped (e : R) (S : R -> Prop) : Prop := forall u v, S u -> S v -> u = v \/ e < Rabs (u - v).

Section Join.
Variable shp : list nat -> list nat.
Variable shuffle : emap -> emap.
Variable sh : container -> container.
Hypothesis O : any_order shp shuffle sh.
Variable target : geokind.
Hypothesis Q : In target (targets 2).
Variables SX SY : R -> Prop.
Hypothesis GX : gapped (tolR 2) SX.
Hypothesis GY : gapped (tolR 2) SY.

Definition good (m : mesh R) (bs : list box) : Prop := depicts target m bs /\ bs <> [] /\ disjoint_boxes bs /\ forall i x, coords_of m i x -> exists u v, SX u /\ SY v /\ x = [u; v].

Lemma join_good a b ba bb : good a ba -> good b bb -> disjoint_boxes (ba ++ bb) -> exists m, join_two_meshes shp shuffle sh a b = Ok m /\ good m (ba ++ bb).
Proof.
  intros ((A1 & A2 & A3 & A4 & A5 & A6 & A7 & A8) & An & Ad & Ac) ((B1 & B2 & B3 & B4 & B5 & B6 & B7 & B8) & _ & _ & Bc) Dj.
  assert (Va : valid a) by (split; [exact A1|split; [exact A2|left; exact A3]]). assert (Vb : valid b) by (split; [exact B1|split; [exact B2|left; exact B3]]).
  pose proof (boxes_framed target Q shuffle (proj1 (proj2 O)) a ba Va A3 A7 A8 An Ad) as Fr.
  assert (Nab : ndim a = ndim b) by congruence.
  destruct (join_exact shp shuffle sh O a b (map (box_shape target) ba) (map (box_shape target) bb) Va Vb Nab (conj A4 A5) (conj B4 B5) Fr) as (m & H & Vm & Nm & (U1 & U2) & Dm & Um & Sm & Cm); auto.
  - intros i j x y X Y. destruct (Ac i x X) as (u & v & Su & Sv & ->). destruct (Bc j y Y) as (u' & v' & Su' & Sv' & ->). rewrite A3.
    destruct (GX u u' Su Su') as [<-|Gu]; [destruct (GY v v' Sv Sv') as [<-|Gv]; [left; reflexivity|]|]; right.
    + pose proof (coord_le_euclid [u; v] [u; v'] 1 v v' eq_refl eq_refl). lra.
    + pose proof (coord_le_euclid [u; v] [u'; v'] 0 u u' eq_refl eq_refl). lra.
  - exists m. split; [exact H|]. rewrite <- map_app in Sm. destruct Vm as (Vm1 & Vm2 & _). split; [repeat (split; [first [assumption|congruence]|]); assumption|].
    split; [destruct ba; [congruence|discriminate]|]. split; [exact Dj|]. intros i x X. destruct (proj1 (Cm x)) as [(k & Y)|(k & Y)]; eauto.
Qed.

Lemma join_list : forall ms bss a ba, good a ba -> Forall2 good ms bss -> disjoint_boxes (ba ++ concat bss) ->
  exists m, foldM (join_two_meshes shp shuffle sh) ms a = Ok m /\ good m (ba ++ concat bss).
Proof.
  intros ms bss a ba Ga F. revert a ba Ga. induction F as [|b bb ms bss Gb F IH]; intros a ba Ga D; cbn [foldM concat] in *.
  - rewrite app_nil_r in *. eauto.
  - assert (D' : disjoint_boxes (ba ++ bb)) by (rewrite app_assoc in D; apply disjoint_app in D; apply D).
    destruct (join_good a b ba bb Ga Gb D') as (m & H & Gm). rewrite H. cbn [bind]. rewrite app_assoc in D |- *. exact (IH m (ba ++ bb) Gm D).
Qed.
Lemma join_many ms bss : (2 <= List.length ms)%nat -> Forall2 good ms bss -> disjoint_boxes (concat bss) ->
  exists m, join_meshes shp shuffle sh ms = Ok m /\ good m (concat bss).
Proof.
  intros L F D. destruct F as [|a ba ms bss Ga F]; [cbn in L; lia|]. destruct F as [|b bb ms bss Gb F]; [cbn in L; lia|].
  destruct (join_list (b :: ms) (bb :: bss) a ba Ga (Forall2_cons _ _ Gb F) D) as (m & H & Gm). exists m. split; [exact H|exact Gm].
Qed.
End Join.
