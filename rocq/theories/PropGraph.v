(* Properties C01-C10: undirected graphs and renumbering. *)
From Coq Require Import String List Arith Bool Lia Permutation ZArith.
From Verif Require Import Base BaseFacts Kind MeshModel GraphModel GraphSpec GraphVocab
  GraphProof GraphProof2 GraphProof3 GraphProof4 GraphProof5 GraphWitness GraphSlow.
Import ListNotations.
Open Scope nat_scope.

(* graph used in the examples: 0-3-1-2-3, 2-4, 4-5 *)
Definition ex_edges : list (nat * nat) := [(0,3);(3,1);(1,2);(2,3);(2,4);(4,5)].
Definition ex_graph : graph :=
  mkGraph [[3]; [2; 3]; [1; 4; 3]; [0; 1; 2]; [5; 2]; [4]] 6 [1; 2; 3; 3; 2; 1] 0.
Lemma ex_range : (forall e, In e ex_edges -> fst e < 6 /\ snd e < 6) /\
  (forall u, u < 6 -> exists e, In e ex_edges /\ (u = fst e \/ u = snd e)).
Proof.
  apply range_by_check; vm_compute; reflexivity.
Qed.
Lemma ex_built : from_edges ex_edges true true = Ok ex_graph.
Proof. vm_compute. reflexivity. Qed.
Lemma ex_ready : nv ex_graph = 6 /\ ready ex_graph /\ connected (edge ex_graph) (nv ex_graph).
Proof.
  destruct (from_edges_ready ex_edges 6 true true ex_graph (proj1 ex_range) (proj2 ex_range) ex_built) as (A & _ & B & C & _).
  rewrite A. auto.
Qed.

(* a mesh with two quadrilaterals and a rod; coordinates in Z *)
Definition ex_mesh : mesh Z :=
  mkMesh 2
    [mkPoint 0 0%Z [0; 0]%Z; mkPoint 1 (-1)%Z [1; 0]%Z; mkPoint 2 0%Z [2; 0]%Z; mkPoint 3 0%Z [0; 1]%Z;
     mkPoint 4 (-7)%Z [1; 1]%Z; mkPoint 5 0%Z [2; 1]%Z; mkPoint 6 0%Z [3; 1]%Z]
    [mkCell 0 1%Z Qua4 [0; 1; 4; 3]; mkCell 1 2%Z Qua4 [1; 2; 5; 4]; mkCell 2 3%Z Lin2 [5; 6]]
    [((-10)%Z, 0, 1)] [].
Lemma ex_mesh_wf : well_formed ex_mesh.
Proof.
  split.
  - intros c p Hc Hp. simpl in Hc. repeat (destruct Hc as [<-|Hc]; [simpl in *; lia|]). destruct Hc.
  - intros p Hp. simpl in Hp. repeat (destruct Hp as [<-|Hp]; [reflexivity|]). destruct Hp.
Qed.
Lemma ex_mesh_graph : exists g, from_mesh ex_mesh true true = Ok g /\ nv g = 7.
Proof. eexists. split; [vm_compute; reflexivity|reflexivity]. Qed.

(** C01 *)
Theorem C01_cuthill_mckee_permutation : forall g root,
  ready g -> connected (edge g) (nv g) -> root < nv g ->
  exists ord, cuthill_mckee g (Some root) = Ok ord /\ Permutation ord (seq 0 (nv g)) /\ exists q, ord = q ++ [root].
Proof. exact cm_permutation. Qed.
Print Assumptions C01_cuthill_mckee_permutation.
Example C01_ex : ready ex_graph /\ connected (edge ex_graph) (nv ex_graph) /\ 3 < nv ex_graph /\
  cuthill_mckee ex_graph (Some 3) = Ok [5; 4; 2; 1; 0; 3].
Proof. split; [apply ex_ready|]. split; [apply ex_ready|]. split; [vm_compute; lia|vm_compute; reflexivity]. Qed.

(* without a start vertex the start is the answer of pseudo_peripheral(None) *)
Theorem C01_default_start : forall g ord,
  ready g -> 0 < nv g -> connected (edge g) (nv g) -> cuthill_mckee g None = Ok ord ->
  exists root, pseudo_peripheral g None = Ok root /\ root < nv g /\ cuthill_mckee g (Some root) = Ok ord.
Proof.
  intros g ord R H0 C H.
  destruct (cm_start g None ord R H0 C ltac:(discriminate) H) as (r & [K|[_ K]] & Hr & E1); [discriminate|eauto].
Qed.
Print Assumptions C01_default_start.
Example C01_default_ex : cuthill_mckee ex_graph None = Ok [0; 3; 1; 2; 4; 5].
Proof. vm_compute. reflexivity. Qed.

(* the connectivity assumption is needed: built without the connectivity check, a graph with two
   components gets an answer that is not a permutation *)
Theorem C01_disconnected_refuted : exists edges g ord,
  from_edges edges true false = Ok g /\ cuthill_mckee g (Some 0) = Ok ord /\ ~ NoDup ord.
Proof.
  exists [(0,1);(2,3)]. eexists. eexists. split; [vm_compute; reflexivity|]. split; [vm_compute; reflexivity|].
  intros H. inversion H as [|? ? H1 H2]; subst. apply H1. simpl. auto.
Qed.
Print Assumptions C01_disconnected_refuted.

(** C02 *)
Theorem C02_level_order : forall g root ord,
  ready g -> connected (edge g) (nv g) -> root < nv g -> cuthill_mckee g (Some root) = Ok ord ->
  (forall x y dx dy, before ord x y -> is_dist (edge g) root x dx -> is_dist (edge g) root y dy -> dy <= dx) /\
  (forall x, In x ord -> x <> root -> exists p, before ord x p /\ edge g p x).
Proof. intros g root ord R C Hr H. destruct (cm_rule g root ord R C Hr H) as (A & B & _). auto. Qed.
Print Assumptions C02_level_order.

(* read from the end, the order is the Cuthill-McKee order: vertices are sorted by the position of
   their first numbered neighbour and, for the same neighbour, by degree and then by id *)
Theorem C02_cuthill_mckee_rule : forall g root ord,
  ready g -> connected (edge g) (nv g) -> root < nv g -> cuthill_mckee g (Some root) = Ok ord ->
  forall x y, before (rev ord) x y -> x <> root ->
     exists px py, first_neighbour (edge g) (rev ord) px x /\ first_neighbour (edge g) (rev ord) py y /\
       (before (rev ord) px py \/
        (px = py /\ (nth x (degree g) 0 < nth y (degree g) 0 \/ (nth x (degree g) 0 = nth y (degree g) 0 /\ x < y)))).
Proof. intros g root ord R C Hr H. destruct (cm_rule g root ord R C Hr H) as (_ & _ & A). exact A. Qed.
Print Assumptions C02_cuthill_mckee_rule.
Example C02_ex : exists ord, cuthill_mckee ex_graph (Some 3) = Ok ord /\ before (rev ord) 1 2 /\ 1 <> 3.
Proof. eexists. split; [vm_compute; reflexivity|]. split; [exists [3; 0], [], [4; 5]; reflexivity|discriminate]. Qed.

(** C03 *)
Theorem C03_shortest_path : forall g a b,
  in_bounds (adjacency g) -> a < nv g -> reachable (edge g) a b ->
  exists path, shortest_path_bfs g a b = Ok path /\ is_path (edge g) path /\
    hd_error path = Some a /\ (exists q, path = q ++ [b]) /\ NoDup path /\
    forall k, walk (edge g) a b k -> List.length path <= S k.
Proof. exact shortest_path_correct. Qed.
Print Assumptions C03_shortest_path.
Example C03_ex : in_bounds (adjacency ex_graph) /\ 0 < nv ex_graph /\ reachable (edge ex_graph) 0 5 /\
  shortest_path_bfs ex_graph 0 5 = Ok [0; 3; 2; 4; 5].
Proof.
  split; [apply ex_ready|]. split; [vm_compute; lia|]. split; [apply ex_ready; vm_compute; lia|vm_compute; reflexivity].
Qed.

(* when b cannot be reached from a the answer is the single vertex b, which is not a path from a *)
Theorem C03_unreachable : forall g a b,
  in_bounds (adjacency g) -> a < nv g -> b < nv g -> ~ reachable (edge g) a b ->
  shortest_path_bfs g a b = Ok [b].
Proof. exact shortest_path_unreachable. Qed.
Print Assumptions C03_unreachable.
Example C03_unreachable_ex : exists g, from_edges [(0,1);(2,3)] true false = Ok g /\ shortest_path_bfs g 0 3 = Ok [3].
Proof. eexists. split; vm_compute; reflexivity. Qed.

(** C04 *)
Theorem C04_calc_distance : forall g root, in_bounds (adjacency g) -> root < nv g ->
  exists mdist dist, calc_distance g root = Ok (mdist, dist) /\ List.length dist = nv g /\
    (forall v, v < nv g -> reachable (edge g) root v -> is_dist (edge g) root v (nth v dist 0)) /\
    (forall v, v < nv g -> ~ reachable (edge g) root v -> nth v dist 0 = 0) /\
    is_ecc (edge g) (nv g) root mdist.
Proof. exact calc_distance_correct. Qed.
Print Assumptions C04_calc_distance.
Example C04_ex : in_bounds (adjacency ex_graph) /\ calc_distance ex_graph 0 = Ok (4, [0; 2; 2; 1; 3; 4]).
Proof. split; [apply ex_ready|vm_compute; reflexivity]. Qed.

(** C05 *)
Theorem C05_from_edges_connected : forall edges n calc, 0 < n ->
  (forall e, In e edges -> fst e < n /\ snd e < n) ->
  (forall u, u < n -> exists e, In e edges /\ (u = fst e \/ u = snd e)) ->
  ((exists g, from_edges edges calc true = Ok g) <-> connected (fun a b => In (a, b) edges \/ In (b, a) edges) n) /\
  ((exists g, from_edges edges calc true = Ok g) \/
   from_edges edges calc true = Err "there are hanging vertices/edges in the mesh (graph is disconnected)") /\
  (exists g, from_edges edges calc false = Ok g).
Proof. exact from_edges_connectivity. Qed.
Print Assumptions C05_from_edges_connected.
Example C05_ex : from_edges ex_edges true true = Ok ex_graph /\
  from_edges [(0,1);(2,3)] true true = Err "there are hanging vertices/edges in the mesh (graph is disconnected)".
Proof. split; vm_compute; reflexivity. Qed.

Theorem C05_from_mesh_connected : forall (T : Type) (m : mesh T) calc, cells_in_range m -> points m <> [] ->
  ((exists g, from_mesh m calc true = Ok g) <-> forall v, v < List.length (points m) -> reachable (mesh_edge m) 0 v) /\
  ((exists g, from_mesh m calc true = Ok g) \/
   from_mesh m calc true = Err "there are hanging vertices/edges in the mesh (graph is disconnected)").
Proof. intros T. exact from_mesh_connectivity. Qed.
Print Assumptions C05_from_mesh_connected.
Example C05_mesh_ex : cells_in_range ex_mesh /\ points ex_mesh <> [] /\ exists g, from_mesh ex_mesh true true = Ok g.
Proof. split; [apply ex_mesh_wf|]. split; [discriminate|]. destruct ex_mesh_graph as (g & H & _). eauto. Qed.

(** C06 *)
Theorem C06_graph_of_mesh : forall (T : Type) (m : mesh T) calc chk g, cells_in_range m -> from_mesh m calc chk = Ok g ->
  nv g = List.length (points m) /\ (forall a b, edge g a b <-> mesh_edge m a b) /\
  (calc = true -> ready g) /\ (chk = true -> connected (edge g) (nv g)) /\
  nedge g = List.length (get_edges g).
Proof. intros T. exact from_mesh_ready. Qed.
Print Assumptions C06_graph_of_mesh.
Example C06_ex : exists g, from_mesh ex_mesh true true = Ok g /\ nedge g = 12 /\ has_edge g 0 4 = true.
Proof. eexists. split; [vm_compute; reflexivity|]. split; vm_compute; reflexivity. Qed.

Theorem C06_graph_of_edges : forall edges n calc chk g,
  (forall e, In e edges -> fst e < n /\ snd e < n) ->
  (forall u, u < n -> exists e, In e edges /\ (u = fst e \/ u = snd e)) ->
  from_edges edges calc chk = Ok g ->
  nv g = n /\ (forall a b, edge g a b <-> In (a, b) edges \/ In (b, a) edges) /\
  (calc = true -> ready g) /\ (chk = true -> connected (edge g) n) /\
  ((forall u, ~ In (u, u) edges) -> nedge g = List.length (get_edges g)).
Proof. exact from_edges_ready. Qed.
Print Assumptions C06_graph_of_edges.

(* the queries *)
Theorem C06_get_edges : forall g, ready g ->
  NoDup (get_edges g) /\ (forall a b, In (a, b) (get_edges g) <-> a < b /\ edge g a b).
Proof. intros g R. exact (get_edges_spec g (r_nodup g R)). Qed.
Print Assumptions C06_get_edges.
Theorem C06_has_edge : forall g a b, ready g -> (has_edge g a b = true <-> edge g a b).
Proof. intros g a b R. exact (has_edge_spec g a b (r_bounds g R)). Qed.
Print Assumptions C06_has_edge.
Theorem C06_get_degree : forall g u, ready g -> u < nv g -> get_degree g u = Ok (List.length (nth u (adjacency g) [])).
Proof. exact get_degree_spec. Qed.
Print Assumptions C06_get_degree.
Example C06_queries_ex : ready ex_graph /\ get_edges ex_graph = [(0,3);(1,2);(1,3);(2,4);(2,3);(4,5)] /\ get_degree ex_graph 2 = Ok 3.
Proof. split; [apply ex_ready|]. split; vm_compute; reflexivity. Qed.

(* the result does not depend on the order in which the hash sets are iterated *)
Theorem C06_hash_order_irrelevant : forall adj1 adj2 calc chk, in_bounds adj1 ->
  Forall2 (@Permutation nat) adj1 adj2 ->
  from_adjacency_set adj1 calc chk = from_adjacency_set adj2 calc chk.
Proof. exact order_irrelevant. Qed.
Print Assumptions C06_hash_order_irrelevant.
Example C06_order_ex : in_bounds [[1; 2]; [0]; [0]] /\ Forall2 (@Permutation nat) [[1; 2]; [0]; [0]] [[2; 1]; [0]; [0]].
Proof.
  split.
  - intros [|[|[|[|u]]]]; simpl; repeat constructor.
  - repeat constructor.
Qed.

(* nedge counts a self-loop as half an edge *)
Theorem C06_self_loop_nedge_refuted : exists edges g, from_edges edges true true = Ok g /\
  edge g 0 0 /\ nedge g = 1 /\ edge g 0 1.
Proof. exists [(0,0);(0,1)]. eexists. split; [vm_compute; reflexivity|]. vm_compute. auto. Qed.
Print Assumptions C06_self_loop_nedge_refuted.

(** C07 *)
Theorem C07_bandwidth : forall g, 0 < nv g ->
  1 <= calc_bandwidth g /\
  (forall i j, edge g i j -> i < j -> j - i + 1 <= calc_bandwidth g) /\
  (calc_bandwidth g = 1 \/ exists i j, edge g i j /\ i < j /\ calc_bandwidth g = j - i + 1).
Proof. exact calc_bandwidth_spec. Qed.
Print Assumptions C07_bandwidth.
Example C07_ex : 0 < nv ex_graph /\ calc_bandwidth ex_graph = 4.
Proof. split; [vm_compute; lia|reflexivity]. Qed.

(* the bandwidth of a renumbered mesh in terms of the old mesh *)
Theorem C07_bandwidth_renumbered : forall (T : Type) (m m' : mesh T) o2n calc chk g',
  well_formed m -> points m <> [] -> renumber_points m o2n = Ok m' -> from_mesh m' calc chk = Ok g' ->
  1 <= calc_bandwidth g' /\
  (forall a b, mesh_edge m a b -> nth a o2n 0 < nth b o2n 0 -> nth b o2n 0 - nth a o2n 0 + 1 <= calc_bandwidth g') /\
  (calc_bandwidth g' = 1 \/ exists a b, mesh_edge m a b /\ nth a o2n 0 < nth b o2n 0 /\
     calc_bandwidth g' = nth b o2n 0 - nth a o2n 0 + 1).
Proof. intros T. exact bandwidth_renumbered. Qed.
Print Assumptions C07_bandwidth_renumbered.
Example C07_renumbered_ex : exists m' g', renumber_points ex_mesh [6; 5; 4; 3; 2; 1; 0] = Ok m' /\
  from_mesh m' true true = Ok g' /\ calc_bandwidth g' = 5.
Proof. eexists. eexists. split; [vm_compute; reflexivity|]. split; vm_compute; reflexivity. Qed.

(** C08 *)
Theorem C08_renumber_points : forall (T : Type) (m : mesh T) o2n, well_formed m ->
  (Permutation o2n (seq 0 (List.length (points m))) ->
     exists m', renumber_points m o2n = Ok m' /\ renumbered m o2n m' /\
       marked_edges m' = marked_edges m /\ marked_faces m' = marked_faces m) /\
  (~ Permutation o2n (seq 0 (List.length (points m))) -> exists msg, renumber_points m o2n = Err msg).
Proof. intros T. exact renumber_points_spec. Qed.
Print Assumptions C08_renumber_points.
Example C08_ex : well_formed ex_mesh /\ exists m', renumber_points ex_mesh [6; 5; 4; 3; 2; 1; 0] = Ok m' /\
   renumber_points ex_mesh [6; 5; 4; 3; 2; 1; 1] = Err "not all points have been updated".
Proof. split; [apply ex_mesh_wf|]. eexists. split; vm_compute; reflexivity. Qed.

Theorem C08_renumber_mesh : forall (T : Type) (m m' : mesh T) chk, well_formed m -> renumber_mesh m chk = Ok m' ->
  exists o2n, Permutation o2n (seq 0 (List.length (points m))) /\ renumbered m o2n m' /\
    marked_edges m' = marked_edges m /\ marked_faces m' = marked_faces m.
Proof. intros T. exact renumber_mesh_spec. Qed.
Print Assumptions C08_renumber_mesh.

(* the renumbering applied is the (reverse) Cuthill-McKee ordering of the graph of the mesh *)
Theorem C08_renumber_mesh_order : forall (T : Type) (m m' : mesh T) chk, well_formed m -> points m <> [] ->
  connected (mesh_edge m) (List.length (points m)) -> renumber_mesh m chk = Ok m' ->
  exists g ord o2n, from_mesh m true chk = Ok g /\ cuthill_mckee g None = Ok ord /\
    Permutation ord (seq 0 (List.length (points m))) /\ Permutation o2n (seq 0 (List.length (points m))) /\
    (forall new, new < List.length (points m) -> nth (nth new ord 0) o2n 0 = new) /\ renumbered m o2n m'.
Proof. intros T. exact renumber_mesh_order. Qed.
Print Assumptions C08_renumber_mesh_order.

Theorem C08_renumber_mesh_succeeds : forall (T : Type) (m : mesh T) chk g r, well_formed m -> points m <> [] ->
  connected (mesh_edge m) (List.length (points m)) ->
  from_mesh m true chk = Ok g -> pseudo_peripheral g None = Ok r ->
  exists m', renumber_mesh m chk = Ok m'.
Proof. intros T. exact renumber_mesh_total. Qed.
Print Assumptions C08_renumber_mesh_succeeds.
Example C08_mesh_ex : exists g r, from_mesh ex_mesh true true = Ok g /\ pseudo_peripheral g None = Ok r /\
  connected (mesh_edge ex_mesh) 7 /\ exists m', renumber_mesh ex_mesh true = Ok m'.
Proof.
  assert (exists g, from_mesh ex_mesh true true = Ok g /\ exists r, pseudo_peripheral g None = Ok r) as (g & Hg & r & Hr).
  { eexists. split; [vm_compute; reflexivity|]. eexists. vm_compute. reflexivity. }
  exists g, r. split; auto. split; auto. split; [|eexists; vm_compute; reflexivity].
  destruct (from_mesh_ready ex_mesh true true g (proj1 ex_mesh_wf) Hg) as (A & B & _ & C & _).
  specialize (C eq_refl). rewrite A in C. intros u v Hu Hv. destruct (C u v Hu Hv) as [k Hk]. exists k.
  eapply walk_iff; [|exact Hk]. exact B.
Qed.

(** C09: false; the marked edge of ex_mesh joins other coordinates after renumbering *)
Theorem C09_marked_edges_follow_refuted : exists (m m' : mesh Z) o2n mk a b,
  well_formed m /\ Permutation o2n (seq 0 (List.length (points m))) /\ renumber_points m o2n = Ok m' /\
  In (mk, a, b) (marked_edges m) /\
  ~ (exists a' b', In (mk, a', b') (marked_edges m') /\
       option_map pt_coords (nth_error (points m') a') = option_map pt_coords (nth_error (points m) a) /\
       option_map pt_coords (nth_error (points m') b') = option_map pt_coords (nth_error (points m) b)).
Proof.
  exists ex_mesh. eexists. exists [6; 5; 4; 3; 2; 1; 0], (-10)%Z, 0, 1.
  split; [apply ex_mesh_wf|]. split.
  - change (seq 0 (List.length (points ex_mesh))) with (rev [6; 5; 4; 3; 2; 1; 0]). apply Permutation_rev.
  - split; [vm_compute; reflexivity|]. split; [simpl; auto|].
    intros (a' & b' & [H|[]] & H1 & H2). inversion H; subst. vm_compute in H1. discriminate.
Qed.
Print Assumptions C09_marked_edges_follow_refuted.

(* what does hold: the lists of marked edges and faces are left as they are, so they stay attached
   to their geometry exactly when the points concerned keep their numbers *)
Theorem C09_marked_untouched : forall (T : Type) (m m' : mesh T) o2n, well_formed m -> renumber_points m o2n = Ok m' ->
  marked_edges m' = marked_edges m /\ marked_faces m' = marked_faces m /\
  forall mk a b, In (mk, a, b) (marked_edges m) -> a < List.length (points m) -> b < List.length (points m) ->
    nth a o2n 0 = a -> nth b o2n 0 = b ->
    option_map pt_coords (nth_error (points m') a) = option_map pt_coords (nth_error (points m) a) /\
    option_map pt_coords (nth_error (points m') b) = option_map pt_coords (nth_error (points m) b).
Proof. intros T. exact marked_fixed. Qed.
Print Assumptions C09_marked_untouched.
Example C09_ex : exists m', renumber_points ex_mesh [0; 1; 4; 3; 2; 6; 5] = Ok m'.
Proof. eexists. vm_compute. reflexivity. Qed.

(** C10 *)
Theorem C10_pseudo_peripheral : forall g start r, ready g -> connected (edge g) (nv g) ->
  start_of g start < nv g -> pseudo_peripheral g start = Ok r ->
  r < nv g /\ exists u e, u < nv g /\ is_ecc (edge g) (nv g) u e /\ is_ecc (edge g) (nv g) r e /\
    is_dist (edge g) u r e /\ (forall es, is_ecc (edge g) (nv g) (start_of g start) es -> es <= e) /\
    forall v, v < nv g -> is_dist (edge g) u v e ->
      nth r (degree g) 0 < nth v (degree g) 0 \/ (nth r (degree g) 0 = nth v (degree g) 0 /\ r <= v).
Proof.
  intros g start r R C. exact (pseudo_peripheral_spec g (r_bounds g R) (r_sym g R) C (ready_len g R) start r).
Qed.
Print Assumptions C10_pseudo_peripheral.
Example C10_ex : start_of ex_graph (Some 3) < nv ex_graph /\ pseudo_peripheral ex_graph (Some 3) = Ok 0.
Proof. split; [vm_compute; lia|reflexivity]. Qed.

(* no other outcome than a vertex or the error; a vertex if no eccentricity exceeds that of the
   start by ten or more *)
Theorem C10_outcome : forall g start, ready g -> connected (edge g) (nv g) -> start_of g start < nv g ->
  (exists r, pseudo_peripheral g start = Ok r) \/
  pseudo_peripheral g start = Err "INTERNAL ERROR: iterations did not converge".
Proof. intros g start R C. exact (pseudo_peripheral_outcome g (r_bounds g R) C (ready_len g R) start). Qed.
Print Assumptions C10_outcome.

Theorem C10_converges : forall g start es, ready g -> connected (edge g) (nv g) -> start_of g start < nv g ->
  is_ecc (edge g) (nv g) (start_of g start) es ->
  (forall v e, v < nv g -> is_ecc (edge g) (nv g) v e -> e <= es + 9) ->
  exists r, pseudo_peripheral g start = Ok r.
Proof.
  intros g start es R C. exact (pseudo_peripheral_total g (r_bounds g R) (r_sym g R) C (ready_len g R) start es).
Qed.
Print Assumptions C10_converges.
Example C10_converges_ex : is_ecc (edge ex_graph) (nv ex_graph) 3 3 /\
  forall v e, v < nv ex_graph -> is_ecc (edge ex_graph) (nv ex_graph) v e -> e <= 3 + 9.
Proof.
  assert (K : forall v e, v < nv ex_graph -> is_ecc (edge ex_graph) (nv ex_graph) v e ->
     match calc_distance ex_graph v with Ok p => fst p = e | _ => False end).
  { intros v e Hv He. destruct (calc_distance_correct ex_graph v (r_bounds _ (proj1 (proj2 ex_ready))) Hv) as (m & d & E1 & _ & _ & _ & Ec).
    rewrite E1. simpl. eapply ecc_fun; eauto. }
  split.
  - destruct (calc_distance_correct ex_graph 3 (r_bounds _ (proj1 (proj2 ex_ready))) ltac:(vm_compute; lia)) as (m & d & E1 & _ & _ & _ & Ec).
    vm_compute in E1. inversion E1; subst. exact Ec.
  - intros v e Hv He. specialize (K v e Hv He). unfold nv in Hv. simpl in Hv.
    do 6 (destruct v as [|v]; [vm_compute in K; lia|]). lia.
Qed.

(* ten iterations are not always enough: on this connected graph the search gives up, so
   cuthill_mckee(None) fails too *)
Theorem C10_always_converges_refuted : exists edges g,
  from_edges edges true true = Ok g /\ ready g /\ connected (edge g) (nv g) /\
  pseudo_peripheral g None = Err "INTERNAL ERROR: iterations did not converge" /\
  cuthill_mckee g None = Err "INTERNAL ERROR: iterations did not converge".
Proof. exact slow_graph. Qed.
Print Assumptions C10_always_converges_refuted.
