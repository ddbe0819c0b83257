(* C100: the conversion of a mesh to another order keeps edges, boundary and neighbours *)
From Coq Require Import String Reals List Arith Bool Lia ZArith Permutation Sorted.
From Verif Require Import Base BaseFacts Kind MeshModel GraphModel MeshQuerySpec TopoModel TopoSpec TopoFeat3 TopoFeat5 TopoFeat6 TopoFinal GeomModel
  ConvertModel ConvertSpec ConvertProof8 PropConvert BalanceSpec ConvFeatSpec ConvFeatProof.
Import ListNotations.
Local Open Scope list_scope.
Local Open Scope nat_scope.

(** every corner of the mesh becomes one corner of the result, different corners become different ones; positions and
    markers stay *)
Theorem C100_corners : forall shuffle m source target d, converts shuffle m source target d ->
  (forall c a p, a < ncorners source -> node_id m c a p -> exists p', node_id d c a p' /\ becomes m d p p') /\
  (forall c a p', a < ncorners source -> node_id d c a p' -> exists p, node_id m c a p /\ becomes m d p p') /\
  (forall p p' q q', becomes m d p p' -> becomes m d q q' -> (p' = q' <-> p = q)) /\
  (forall p p', becomes m d p p' -> exists x x', nth_error (points m) p = Some x /\ nth_error (points d) p' = Some x' /\
     pt_coords x' = pt_coords x /\ pt_marker x' = pt_marker x).
Proof.
  intros shuffle m source target d V. split; [|split; [|split]].
  - intros c a p A N. pose proof N as (cl & E & _). exact (corner_some shuffle m source target d V c cl a p E A N).
  - intros c a p' A N. exact (corner_back shuffle m source target d V c a p' A N).
  - exact (becomes_same shuffle m source target d V).
  - intros p p' (c & cl & a & E & A & N & N'). rewrite (kind_m shuffle m source target d V c cl E) in A.
    assert (L : c < List.length (cells m)) by (apply nth_error_Some; congruence).
    pose proof N' as (dc & Ed & Ep). destruct (C48_valid _ _ _ _ _ V) as (Cd & _). destruct (proj2 Cd c dc Ed) as (_ & _ & Rg).
    destruct (nth_error (points d) p') as [x'|] eqn:X'; [|apply nth_error_None in X'; specialize (Rg p' (nth_error_In _ _ Ep)); lia].
    destruct (C48_corners _ _ _ _ _ V c a p' x' L A N' X') as (old & op & No & Xo & M & Co). assert (old = p) by (destruct No as (? & ? & ?), N as (? & ? & ?); congruence). subst old.
    exists op, x'. auto.
Qed.
Print Assumptions C100_corners.

(** the features list the same edges, with the same direction and the edge kind of the target; also the number is the same *)
Theorem C100_edges : forall shuffle0 m source target d (leb : R -> R -> bool) (shuffle shuffle' : emap -> emap) ea ft ft',
  converts shuffle0 m source target d -> (forall l, Permutation (shuffle l) l) -> (forall l, Permutation (shuffle' l) l) ->
  features_new leb shuffle m ea = Ok ft -> features_new leb shuffle' d ea = Ok ft' ->
  (forall a b ed, get_edge ft a b = Ok ed -> exists a' b' ed', becomes m d a a' /\ becomes m d b b' /\
     get_edge ft' (Nat.min a' b') (Nat.max a' b') = Ok ed' /\ kind_edge_kind target = Some (e_kind ed') /\
     exists p q r p' q' r', e_points ed = p :: q :: r /\ e_points ed' = p' :: q' :: r' /\ becomes m d p p' /\ becomes m d q q') /\
  (forall a' b' ed', get_edge ft' a' b' = Ok ed' -> exists a b ed, becomes m d a a' /\ becomes m d b b' /\ get_edge ft (Nat.min a b) (Nat.max a b) = Ok ed) /\
  List.length (ft_edges ft') = List.length (ft_edges ft).
Proof.
  intros shuffle0 m source target d leb sh sh' ea ft ft' V S S' F F'. split; [|split].
  - exact (edges_fwd shuffle0 m source target d V leb sh sh' S S' ea ft ft' F F').
  - exact (edges_bwd shuffle0 m source target d V leb sh sh' S S' ea ft ft' F F').
  - apply Nat.le_antisymm; [exact (count_bwd shuffle0 m source target d V leb sh sh' S S' ea ft ft' F F')|exact (count_fwd shuffle0 m source target d V leb sh sh' S S' ea ft ft' F F')].
Qed.
Print Assumptions C100_edges.

(** the neighbours are the same *)
Theorem C100_neighbors : forall shuffle0 m source target d (leb : R -> R -> bool) (shuffle shuffle' : emap -> emap) ea ft ft' c r,
  converts shuffle0 m source target d -> features_new leb shuffle m ea = Ok ft -> features_new leb shuffle' d ea = Ok ft' ->
  get_neighbors_2d m ft c = Ok r -> exists r', get_neighbors_2d d ft' c = Ok r' /\ Permutation r' r.
Proof. intros shuffle0 m source target d leb sh sh' ea ft ft' c r V F F' G. exact (neighbors_conv shuffle0 m source target d V leb sh sh' ea ft ft' F F' c r G). Qed.
Print Assumptions C100_neighbors.

(** the result is numbered in one sense exactly if the mesh is (the hypothesis of C96 and C99) *)
Theorem C100_directed : forall shuffle m source target d, converts shuffle m source target d -> (directed d <-> directed m).
Proof. intros shuffle m source target d V. exact (directed_conv shuffle m source target d V). Qed.
Print Assumptions C100_directed.

Example C100_ex : forall shuffle, (forall l, Permutation (shuffle l) l) -> forall t, kind_class t = CTri ->
  exists d ft ft', converts shuffle sq Tri3 t d /\ features_new Rleb shuffle sq false = Ok ft /\ features_new Rleb shuffle d false = Ok ft' /\
    directed sq /\ shares sq 0 1 1 1 /\ exists r, get_neighbors_2d sq ft 0 = Ok r.
Proof.
  intros sh Sh t Ht. destruct (C48_ex sh Sh t Ht) as ((d & V) & _ & Ss). destruct (C48_valid _ _ _ _ _ V) as (Cd & Kd & Dd & _).
  destruct (new_total Rleb sh Sh sq false sq_consistent sq_complete (or_introl eq_refl)) as (ft & F).
  destruct (new_total Rleb sh Sh d false Cd Kd (or_introl Dd)) as (ft' & F').
  exists d, ft, ft'. split; [exact V|]. split; [exact F|]. split; [exact F'|]. split.
  - intros c e c' e' p q E E'. apply edge_table_in in E, E'. rewrite sq_table in *. cbn in E, E'. 
    repeat (destruct E as [E|E]; [injection E as <- <- <- <-; repeat (destruct E' as [E'|E']; [try discriminate E'; injection E' as <- <-; reflexivity|]); destruct E'|]). destruct E.
  - split; [exact Ss|]. apply (neighbors_total Rleb sh sq false ft 0 sq_consistent (fits_m _ _ _ _ _ V) eq_refl F). cbn. lia.
Qed.
