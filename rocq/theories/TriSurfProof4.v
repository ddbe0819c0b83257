(* The triangulation of a surface: its free edges are those of the surface. *)
From Coq Require Import String Reals QArith Qreals List Arith Bool Lia Lra Permutation.
From Verif Require Import Base BaseFacts Kind MeshModel MeshQuerySpec ShapesData ShapesModel ShapesSpec ShapesProof ShapesTables PadModel PadSpec
  PadProof ConvertModel TopoModel TriSurfModel TriSurfSpec TriSurfProof TriSurfProof2 TriSurfProof3.
Import ListNotations.
Local Open Scope nat_scope.

Definition both {A B} (f : A -> B) (e : A * A) : B * B := (f (fst e), f (snd e)).
Lemma swap_both {A B} (f : A -> B) l : map swap (map (both f) l) = map (both f) (map swap l).
Proof. rewrite !map_map. apply map_ext. intros [a b]. reflexivity. Qed.
Lemma closed_map {A B} (f : A -> B) l : balanced l -> balanced (map (both f) l).
Proof. unfold balanced. intros H. rewrite swap_both. now apply Permutation_map. Qed.
Lemma closed_app {A} (a b : list (A * A)) : balanced a -> balanced b -> balanced (a ++ b).
Proof. unfold balanced. intros H1 H2. rewrite map_app. now apply Permutation_app. Qed.
Lemma closed_perm {A} (a b : list (A * A)) : Permutation a b -> balanced a -> balanced b.
Proof. unfold balanced. intros P H. rewrite <- P. exact H. Qed.
Lemma swap_swap {A} (e : A * A) : swap (swap e) = e.
Proof. now destruct e. Qed.
Lemma closed_cancel {A} (a b : list (A * A)) : balanced (a ++ b) -> balanced b -> balanced a.
Proof.
  unfold balanced. intros H1 H2. rewrite map_app in H1. apply Permutation_app_inv_r with (l := b).
  rewrite <- H1. now apply Permutation_app_head.
Qed.
Lemma closed_sym {A} (l : list (A * A)) : NoDup l -> (forall e, In e l -> In (swap e) l) -> balanced l.
Proof.
  intros N H. unfold balanced. apply NoDup_Permutation; auto.
  - apply NoDup_map_inj; auto. intros x y E. rewrite <- (swap_swap x), <- (swap_swap y). now rewrite E.
  - intros e. split; intros He.
    + apply in_map_iff in He as (e' & <- & He). auto.
    + apply in_map_iff. exists (swap e). split; [apply swap_swap|auto].
Qed.

(** One cell *)
Lemma loop_nodup_check k : negb (is_2d k) || pnodup (loop_edges (boundary_loop k)) = true.
Proof. destruct k; vm_compute; reflexivity. Qed.
Lemma loop_nodup k : plane_kind k -> NoDup (loop_edges (boundary_loop k)).
Proof.
  intros P. pose proof (loop_nodup_check k) as H. rewrite (proj2 (is_2d_class k) P) in H. cbn [negb orb] in H. now apply pnodup_ok.
Qed.

Definition inner (k : geokind) : list (nat * nat) := filter (fun e => negb (pmem e (loop_edges (boundary_loop k)))) (directed_edges k).
Lemma pmem_dec e l : pmem e l = true \/ ~ In e l.
Proof. destruct (pmem e l) eqn:E; [auto|right]. intros H. apply pmem_In in H. congruence. Qed.
Lemma inner_closed k : plane_kind k -> balanced (inner k).
Proof.
  intros P. destruct (tri_manifold k P) as (N & B & C & _). unfold inner. apply closed_sym; [now apply NoDup_filter|].
  intros [a b] H. apply filter_In in H as (H & F). apply filter_In. unfold swap. cbn [fst snd].
  destruct (C a b H) as [X|X].
  - apply pmem_In in X. rewrite X in F. discriminate.
  - split; [auto|]. destruct (pmem_dec (b, a) (loop_edges (boundary_loop k))) as [Y|Y].
    + apply pmem_In in Y. apply B in Y as (_ & Y). tauto.
    + destruct (pmem (b, a) _) eqn:Z; [apply pmem_In in Z; tauto|reflexivity].
Qed.
Lemma edges_split k : plane_kind k -> Permutation (directed_edges k) (loop_edges (boundary_loop k) ++ inner k).
Proof.
  intros P. destruct (tri_manifold k P) as (N & B & C & _). apply NoDup_Permutation; auto.
  - apply NoDup_app_intro; [now apply loop_nodup|now apply NoDup_filter|].
    intros e H F. apply filter_In in F as (_ & F). apply pmem_In in H. rewrite H in F. discriminate.
  - intros [a b]. rewrite in_app_iff. unfold inner. rewrite filter_In. split.
    + intros H. destruct (pmem_dec (a, b) (loop_edges (boundary_loop k))) as [Y|Y]; [left; now apply pmem_In|right].
      split; [auto|]. destruct (pmem (a, b) _) eqn:Z; [apply pmem_In in Z; tauto|reflexivity].
    + intros [H|(H & _)]; [now apply B|auto].
Qed.

Lemma all_edges_map {A B} (f : A -> B) l : all_edges (map (map f) l) = map (both f) (all_edges l).
Proof.
  induction l as [|t l IH]; [reflexivity|]. unfold all_edges in *. cbn [map flat_map]. rewrite map_app, IH. f_equal.
  destruct t as [|a [|b [|c [|]]]]; reflexivity.
Qed.
Lemma cell_edges c k pts : plane_kind k -> all_edges (cell_triangles c k pts) = map (both (corner_origin c k pts)) (directed_edges k).
Proof.
  intros P. rewrite cell_triangles_plane by auto. unfold directed_edges.
  induction (seq 0 (triangulate_ntriangle k)) as [|t l IH]; [reflexivity|]. unfold all_edges in *. cbn [map flat_map concat].
  rewrite map_app, IH. reflexivity.
Qed.

Lemma loop_edges_map {A} (f : nat -> nat) l (g : nat -> A) (h : nat -> A) : (forall n, In n l -> g n = h (f n)) ->
  map (both g) (loop_edges l) = map (both h) (loop_edges (map f l)).
Proof.
  assert (O : forall l, (forall n, In n l -> g n = h (f n)) -> map (both g) (loop_edges_open l) = map (both h) (loop_edges_open (map f l))).
  { clear l. induction l as [|a [|b l] IH]; intros H; [reflexivity|reflexivity|]. cbn [map loop_edges_open] in *.
    f_equal; [|apply IH; intros; apply H; now right]. unfold both. cbn [fst snd]. rewrite !H by (simpl; auto). reflexivity. }
  intros H. destruct l as [|a l]; [reflexivity|]. unfold loop_edges. cbn [map].
  change (f a :: map f l ++ [f a]) with ((f a :: map f l) ++ [f a]).
  replace ((f a :: map f l) ++ [f a]) with (map f ((a :: l) ++ [a])) by now rewrite map_app.
  apply O. intros n Hn. apply H. apply in_app_iff in Hn as [Hn|[<-|[]]]; [auto|now left].
Qed.

Lemma loop_lt k n : plane_kind k -> In n (boundary_loop k) -> n < kind_nnode k.
Proof.
  intros E Hn. pose proof (tri_nodes_check k) as N. rewrite (proj2 (is_2d_class k) E) in N.
  cbn [negb orb] in N. apply andb_prop in N as [N _]. apply andb_prop in N as [_ N]. rewrite forallb_forall in N.
  specialize (N _ Hn). now apply Nat.ltb_lt.
Qed.

Lemma cell_edges_split c k pts : plane_kind k ->
  Permutation (all_edges (cell_triangles c k pts)) (map (both Node) (cell_boundary k pts) ++ map (both (corner_origin c k pts)) (inner k)).
Proof.
  intros P. rewrite cell_edges by auto. rewrite (edges_split k P), map_app. apply Permutation_app_tail.
  unfold cell_boundary. rewrite (loop_edges_map (fun m => nth m pts 0) _ _ Node); [reflexivity|].
  intros n Hn. apply loop_lt in Hn; auto. unfold corner_origin. destruct (Nat.ltb_spec n (kind_nnode k)); [auto|lia].
Qed.

Lemma surface_edges_split s : forall c, exists I, balanced I /\
  Permutation (all_edges (triangles_from c s)) (map (both Node) (surface_boundary s) ++ I).
Proof.
  induction s as [|[k pts] s IH]; intros c; [exists []; split; [apply Permutation_refl|apply Permutation_refl]|].
  destruct (IH (S c)) as (I & HI & HP). cbn [triangles_from surface_boundary flat_map fst snd]. fold (surface_boundary s).
  unfold all_edges. rewrite flat_map_app. fold (all_edges (cell_triangles c k pts)). fold (all_edges (triangles_from (S c) s)).
  destruct (tri_or_qua k) eqn:E.
  - apply plane_tri_or_qua in E. exists (map (both (corner_origin c k pts)) (inner k) ++ I).
    split; [apply closed_app; [apply closed_map, inner_closed; auto|auto]|].
    rewrite (cell_edges_split c k pts E), HP, map_app, <- !app_assoc. apply Permutation_app_head.
    rewrite !app_assoc. apply Permutation_app_tail. apply Permutation_app_comm.
  - rewrite cell_triangles_other by (rewrite <- plane_tri_or_qua; congruence). exists I. split; auto.
Qed.

(** The triangulation *)
Fixpoint index_of (o : origin) (l : list origin) : nat :=
  match l with [] => 0 | x :: t => if origin_dec x o then 0 else S (index_of o t) end.
Lemma index_of_nth lab : NoDup lab -> forall n o, nth_error lab n = Some o -> index_of o lab = n.
Proof.
  induction lab as [|x lab IH]; intros N n o H; [destruct n; discriminate|]. inversion N; subst. destruct n as [|n].
  - injection H as ->. simpl. destruct (origin_dec o o); tauto.
  - simpl in *. destruct (origin_dec x o) as [->|]; [apply nth_error_In in H; tauto|]. f_equal. now apply IH.
Qed.
Lemma nth_index lab o : In o lab -> nth_error lab (index_of o lab) = Some o.
Proof.
  induction lab as [|x lab IH]; intros H; [destruct H|]. simpl. destruct (origin_dec x o) as [->|N]; [reflexivity|].
  simpl. apply IH. destruct H; [congruence|auto].
Qed.

Lemma tris_as_labels lab tris T : NoDup lab -> Forall2 (Forall2 (fun p o => nth_error lab p = Some o)) tris T ->
  tris = map (map (fun o => index_of o lab)) T.
Proof.
  intros N H. induction H as [|x y l l' Hxy _ IH]; [reflexivity|]. cbn [map]. f_equal; [|exact IH].
  induction Hxy as [|p o u v Hp _ IH2]; [reflexivity|]. cbn [map]. f_equal; [|exact IH2]. symmetry. now apply index_of_nth.
Qed.

Lemma triangulation_edges m s tr lab : triangulates m s tr lab -> exists num inner, balanced inner /\
  Permutation (all_edges (t_tris tr)) (map (both num) (surface_boundary s) ++ inner) /\
  (forall a b, In (a, b) (surface_boundary s) -> nth_error lab (num a) = Some (Node a) /\ nth_error lab (num b) = Some (Node b)).
Proof.
  intros (N & I & _ & _ & _ & _ & T). pose proof (proj1 N) as Nd.
  destruct (surface_edges_split s 0) as (inn & HI & HP). fold (surface_triangles s) in HP.
  exists (fun a => index_of (Node a) lab), (map (both (fun o => index_of o lab)) inn).
  split; [now apply closed_map|].
  assert (EE : all_edges (t_tris tr) = map (both (fun o => index_of o lab)) (all_edges (surface_triangles s))).
  { rewrite (tris_as_labels lab (t_tris tr) _ Nd T). apply all_edges_map. }
  split.
  - rewrite EE, HP, map_app, map_map. reflexivity.
  - assert (K : forall a b, In (a, b) (surface_boundary s) -> In (Node a) lab /\ In (Node b) lab).
    { intros a b H. assert (HI' : In (Node a, Node b) (all_edges (surface_triangles s))).
      { eapply Permutation_in; [symmetry; exact HP|]. apply in_app_iff. left. apply in_map_iff. exists (a, b). auto. }
      unfold all_edges in HI'. apply in_flat_map in HI' as (tri & H1 & H2).
      destruct tri as [|x [|y [|z [|]]]]; try destruct H2. all: rewrite !I; split; apply in_concat; exists [x; y; z]; (split; [auto|]).
      all: cbn [tri_edges In] in *; repeat match goal with H : _ \/ _ |- _ => destruct H | H : False |- _ => destruct H | H : (_, _) = (_, _) |- _ => injection H as ? ? end; subst; simpl; auto. }
    intros a b H. destruct (K a b H). split; apply nth_index; auto.
Qed.

Lemma triangulation_closed m s tr lab : triangulates m s tr lab -> balanced (surface_boundary s) -> balanced (all_edges (t_tris tr)).
Proof.
  intros T B. destruct (triangulation_edges m s tr lab T) as (num & inn & HI & HP & _).
  eapply closed_perm; [symmetry; exact HP|]. apply closed_app; [now apply closed_map|auto].
Qed.
