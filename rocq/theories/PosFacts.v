(* The kinds of the cells of a block; nodes on the sides of the block. *)
From Coq Require Import String Reals QArith Qreals List Lia Lra Bool Arith ZArith Permutation.
From Verif Require Import Base BaseFacts TopoMaps Kind MeshModel TopoModel ShapesModel ShapesSpec ShapesProof
  GeomModel GeomProof GridModel PadModel PadSpec PadProof PadProof2 PadProof4
  BlockModel BlockSpec BlockProof BlockProof2 BlockProof3 BlockProof4.
Import ListNotations.
Local Open Scope list_scope.
Local Open Scope R_scope.

(* ---------------------------------------------------------------- facts on the kinds *)
Definition side_high (nd s : nat) : bool := if (nd =? 2)%nat then (s =? 1)%nat || (s =? 2)%nat else Nat.odd s.
Lemma side_end_eq nd s : (nd = 2 \/ nd = 3)%nat -> (s < nsides nd)%nat -> side_end nd s = if side_high nd s then 1 else -1.
Proof. intros [-> | ->]; unfold nsides; cbn [Nat.eqb]; intros H; do 6 (destruct s as [|s]; [reflexivity|]); lia. Qed.
Definition end_off (k : geokind) (h : bool) : nat := if h then per k else 0%nat.
Definition is_ok_true (r : res bool) : bool := match r with Ok true => true | _ => false end.
Definition corner_check (nd : nat) (k : geokind) : bool :=
  (corners nd <=? kind_nnode k)%nat && forallb (fun m => forallb (fun a => (offset k m a =? 0)%nat || (offset k m a =? per k)%nat) (seq 0 nd)) (seq 0 (corners nd)).
Definition edge_check (nd : nat) (k : geokind) (e : nat) : bool :=
  forallb (fun j => edge_node_id k e j <? kind_nnode k)%nat (seq 0 (kind_edge_nnode k)) &&
  (edge_node_id k e 0 <? corners nd)%nat && (edge_node_id k e 1 <? corners nd)%nat &&
  forallb (fun s => match on_side nd e s with Ok _ => true | _ => false end) (seq 0 (nsides nd)) &&
  existsb (fun d =>
    forallb (fun j => (0 <? offset k (edge_node_id k e j) d)%nat && (offset k (edge_node_id k e j) d <? per k)%nat) (seq 2 (kind_edge_nnode k - 2)) &&
    forallb (fun a => (a =? d)%nat || forallb (fun j => (offset k (edge_node_id k e j) a =? offset k (edge_node_id k e 0) a)%nat) (seq 0 (kind_edge_nnode k))) (seq 0 nd) &&
    forallb (fun s => (side_axis nd s =? d)%nat || negb (offset k (edge_node_id k e 0) (side_axis nd s) =? end_off k (side_high nd s))%nat || is_ok_true (on_side nd e s)) (seq 0 (nsides nd)))
    (seq 0 nd).
Definition interior_check (nd : nat) (k : geokind) : bool :=
  forallb (fun i => (interior_node k i <? kind_nnode k)%nat && forallb (fun a => (0 <? offset k (interior_node k i) a)%nat && (offset k (interior_node k i) a <? per k)%nat) (seq 0 nd))
    (seq 0 (kind_n_interior_nodes k)).
Definition kind_check (nd : nat) (k : geokind) : bool :=
  corner_check nd k && forallb (edge_check nd k) (seq 0 (kind_nedge k)) && interior_check nd k &&
  match serendipity k with Some s => (kind_nnode s <=? kind_nnode k)%nat && (kind_ndim s =? nd)%nat | None => true end.
Lemma kinds_checked nd k : (nd = 2 \/ nd = 3)%nat -> In k (targets nd) -> kind_check nd k = true.
Proof.
  intros Hn. assert (H : forallb (kind_check nd) (targets nd) = true) by (destruct Hn as [-> | ->]; vm_compute; reflexivity).
  rewrite forallb_forall in H. auto.
Qed.
Section Kinds.
Variables (nd : nat) (k : geokind).
Hypothesis Hn : (nd = 2 \/ nd = 3)%nat.
Hypothesis Hk : In k (targets nd).
Lemma corner_nnode : (corners nd <= kind_nnode k)%nat.
Proof. pose proof (kinds_checked nd k Hn Hk) as C. unfold kind_check, corner_check in C. rewrite !andb_true_iff in C. apply Nat.leb_le. tauto. Qed.
Lemma corner_offset m a : (m < corners nd)%nat -> (a < nd)%nat -> offset k m a = 0%nat \/ offset k m a = per k.
Proof.
  intros Hm Ha. pose proof (kinds_checked nd k Hn Hk) as C. unfold kind_check, corner_check in C. rewrite !andb_true_iff in C.
  destruct C as [[[[_ C] _] _] _]. rewrite forallb_forall in C. specialize (C m ltac:(apply in_seq; lia)). rewrite forallb_forall in C.
  specialize (C a ltac:(apply in_seq; lia)). rewrite orb_true_iff, !Nat.eqb_eq in C. auto.
Qed.
Lemma edge_facts e : (e < kind_nedge k)%nat ->
  (forall j, (j < kind_edge_nnode k)%nat -> (edge_node_id k e j < kind_nnode k)%nat) /\
  (edge_node_id k e 0 < corners nd)%nat /\ (edge_node_id k e 1 < corners nd)%nat /\
  (forall s, (s < nsides nd)%nat -> exists v, on_side nd e s = Ok v) /\
  exists d, (d < nd)%nat /\
    (forall j, (2 <= j < kind_edge_nnode k)%nat -> (0 < offset k (edge_node_id k e j) d < per k)%nat) /\
    (forall a j, (a < nd)%nat -> a <> d -> (j < kind_edge_nnode k)%nat -> offset k (edge_node_id k e j) a = offset k (edge_node_id k e 0) a) /\
    (forall s, (s < nsides nd)%nat -> side_axis nd s <> d -> offset k (edge_node_id k e 0) (side_axis nd s) = end_off k (side_high nd s) -> on_side nd e s = Ok true).
Proof.
  intros He. pose proof (kinds_checked nd k Hn Hk) as C. unfold kind_check in C. rewrite !andb_true_iff in C. destruct C as [[[_ C] _] _].
  rewrite forallb_forall in C. specialize (C e ltac:(apply in_seq; lia)). unfold edge_check in C. rewrite !andb_true_iff in C.
  destruct C as [[[[C1 C2] C3] C4] C5]. rewrite forallb_forall in C1, C4. apply existsb_exists in C5 as (d & Hd & C5). apply in_seq in Hd.
  rewrite !andb_true_iff in C5. destruct C5 as [[D1 D2] D3]. rewrite forallb_forall in D1, D2, D3.
  split; [intros j Hj; apply Nat.ltb_lt, C1, in_seq; lia|]. split; [apply Nat.ltb_lt; auto|]. split; [apply Nat.ltb_lt; auto|]. split.
  { intros s Hs. specialize (C4 s ltac:(apply in_seq; lia)). destruct (on_side nd e s); try discriminate. eauto. }
  exists d. split; [lia|]. split; [|split].
  - intros j Hj. specialize (D1 j ltac:(apply in_seq; lia)). rewrite andb_true_iff, !Nat.ltb_lt in D1. lia.
  - intros a j Ha Hx Hj. specialize (D2 a ltac:(apply in_seq; lia)). rewrite orb_true_iff, Nat.eqb_eq in D2. destruct D2 as [D2|D2]; [contradiction|].
    rewrite forallb_forall in D2. apply Nat.eqb_eq, D2, in_seq. lia.
  - intros s Hs Hx E. specialize (D3 s ltac:(apply in_seq; lia)). rewrite !orb_true_iff, negb_true_iff, Nat.eqb_eq, Nat.eqb_neq in D3.
    destruct D3 as [[D3|D3]|D3]; [contradiction|contradiction|]. destruct (on_side nd e s) as [[]| | |]; try discriminate. auto.
Qed.
Lemma interior_facts i : (i < kind_n_interior_nodes k)%nat -> (interior_node k i < kind_nnode k)%nat /\
  forall a, (a < nd)%nat -> (0 < offset k (interior_node k i) a < per k)%nat.
Proof.
  intros Hi. pose proof (kinds_checked nd k Hn Hk) as C. unfold kind_check, interior_check in C. rewrite !andb_true_iff in C. destruct C as [[_ C] _].
  rewrite forallb_forall in C. specialize (C i ltac:(apply in_seq; lia)). rewrite andb_true_iff, Nat.ltb_lt in C. destruct C as [C1 C2]. split; auto.
  rewrite forallb_forall in C2. intros a Ha. specialize (C2 a ltac:(apply in_seq; lia)). rewrite andb_true_iff, !Nat.ltb_lt in C2. lia.
Qed.
Lemma serendipity_facts s : serendipity k = Some s -> (kind_nnode s <= kind_nnode k)%nat /\ kind_ndim s = nd.
Proof.
  intros E. pose proof (kinds_checked nd k Hn Hk) as C. unfold kind_check in C. rewrite !andb_true_iff in C. destruct C as [_ C]. rewrite E in C.
  rewrite andb_true_iff, Nat.leb_le, Nat.eqb_eq in C. auto.
Qed.
End Kinds.

(* ---------------------------------------------------------------- the nodes *)
Section Nodes.
Variables (b : block) (target : geokind).
Hypothesis W : wf_block b.
Hypothesis F : In target (targets (b_ndim b)).
Hypothesis Sp : spaced b target.
Notation nd := (b_ndim b).
Notation nn := (kind_nnode target).
Notation ksi := (node_ksi b target).

Lemma at_side_node s idx m : valid_index b idx -> (m < nn)%nat -> (s < nsides nd)%nat ->
  (at_side nd s (ksi idx m) <->
   nth (side_axis nd s) idx 0%nat = (if side_high nd s then ndivs b (side_axis nd s) - 1 else 0)%nat /\
   offset target m (side_axis nd s) = end_off target (side_high nd s)).
Proof.
  intros V Hm Hs. unfold at_side. rewrite side_end_eq by (auto; apply W). pose proof (side_axis_lt nd s (w_nd b W) Hs) as Ha.
  pose proof (tol_pos b W). unfold end_off. destruct (side_high nd s).
  - destruct (ksi_high b target W F Sp idx m _ V Hm Ha) as [[A ->]|[A L]]; split; intros Q; try tauto; lra.
  - destruct (ksi_low b target W F Sp idx m _ V Hm Ha) as [[A ->]|[A L]]; split; intros Q; try tauto; lra.
Qed.
Lemma node_clear idx m : valid_index b idx -> (m < nn)%nat -> clear_of_sides nd (ksi idx m).
Proof.
  intros V Hm s Hs. rewrite side_end_eq by (auto; apply W). pose proof (side_axis_lt nd s (w_nd b W) Hs) as Ha. pose proof (tol_le b W) as T.
  intros Q. destruct (side_high nd s).
  - destruct (ksi_high b target W F Sp idx m _ V Hm Ha) as [[A E]|[A L]]; [contradiction|]. rewrite Rabs_pos_eq; lra.
  - destruct (ksi_low b target W F Sp idx m _ V Hm Ha) as [[A E]|[A L]]; [contradiction|]. rewrite Rabs_left1; lra.
Qed.

Lemma not_corner idx m : valid_index b idx -> (m < nn)%nat -> (exists d, (d < nd)%nat /\ (0 < offset target m d < per target)%nat) ->
  ~ exists idx' m', valid_index b idx' /\ (m' < corners nd)%nat /\ ksi idx m = ksi idx' m'.
Proof.
  intros V Hm (d & Hd & O) (idx' & m' & V' & Hm' & E). pose proof (corner_nnode nd target (w_nd b W) F).
  apply (ksi_iff b target W F Sp) in E; auto; [|lia]. destruct V as [L1 V], V' as [L2 V'].
  assert (E2 : nth d (lattice target idx m) 0%nat = nth d (lattice target idx' m') 0%nat) by congruence. rewrite !nth_lattice in E2 by lia.
  set (i := nth d idx 0%nat) in *. set (i' := nth d idx' 0%nat) in *.
  destruct (corner_offset nd target (w_nd b W) F m' d Hm' Hd) as [C|C]; rewrite C in E2; destruct (lt_eq_lt_dec i i') as [[Q|Q]|Q]; nia.
Qed.
Lemma same_axis s s' : (s < nsides nd)%nat -> (s' < nsides nd)%nat -> s <> s' -> side_axis nd s = side_axis nd s' -> side_high nd s <> side_high nd s'.
Proof.
  destruct (w_nd b W) as [-> | ->]; unfold nsides; cbn [Nat.eqb]; intros H H'.
  - do 4 (destruct s as [|s]; [do 4 (destruct s' as [|s']; [cbn; congruence|]); lia|]). lia.
  - do 6 (destruct s as [|s]; [do 6 (destruct s' as [|s']; [cbn; congruence|]); lia|]). lia.
Qed.

End Nodes.
