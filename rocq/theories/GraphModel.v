(* Undirected graphs.  Models src/graph/graph_und.rs.
   Simplifications:
   - A HashSet<usize> is a list without repetition, in some order; the theorems hold for every order.
   - The workspace fields queue, explored, distance and parent of GraphUnd are cleared at the start
     of every method that uses them (graph_und.rs:233-236, 271-283, 323-331); they are local state of
     the modelled functions and not part of the record.  Functions that leave results in
     self.distance / self.parent return them.
   - The entry usize::MAX of the array parent is None.
   - usize is nat. *)
From Coq Require Import String List Arith Bool.
From Verif Require Import Base MeshModel.
Import ListNotations.
Open Scope nat_scope.

(* graph_und.rs:13-60 *)
Record graph := mkGraph {
  adjacency : list (list nat);
  nedge : nat;
  degree : list nat;
  p_min_degree : nat }.

(* while queue.len() != 0 { if let Some(a) = queue.pop_front() { body } }
   The state S contains the queue; [fuel] bounds the number of pops. *)
Fixpoint while_queue {S} (queue : S -> list nat) (set_queue : S -> list nat -> S)
    (body : nat -> S -> res S) (fuel : nat) (s : S) : res S :=
  match queue s with
  | [] => Ok s
  | a :: q =>
      match fuel with
      | 0 => NoFuel
      | S fuel' => let! s' := body a (set_queue s q) in while_queue queue set_queue body fuel' s'
      end
  end.

(* graph_und.rs:70-90: state (explored, queue) *)
Definition conn_body (adj : list (list nat)) (a : nat) (s : list bool * list nat)
    : res (list bool * list nat) :=
  let! row := get adj a in
  foldM (fun (s : list bool * list nat) b =>
           let '(explored, queue) := s in
           let! e := get explored b in
           if e then Ok s else
           let! explored := set explored b true in
           Ok (explored, queue ++ [b]))
        row s.

Definition conn_search (adj : list (list nat)) : res (list bool) :=
  let nnode := List.length adj in
  let! explored := set (repeat false nnode) 0 true in
  let! s := while_queue snd (fun s q => (fst s, q)) (conn_body adj) (S nnode) (explored, [0]) in
  Ok (fst s).

Definition check_connected (adj : list (list nat)) : res unit :=
  let! explored := conn_search adj in
  if forallb (fun e => e) explored then Ok tt
  else Err "there are hanging vertices/edges in the mesh (graph is disconnected)".

(* graph_und.rs:98-107: index of the first minimum; (p_min_degree, min_degree), None = usize::MAX *)
Fixpoint min_degree_loop (p : nat) (deg : list nat) (best : nat * option nat) : nat * option nat :=
  match deg with
  | [] => best
  | d :: t =>
      let lt := match snd best with None => true | Some m => d <? m end in
      min_degree_loop (S p) t (if lt then (p, Some d) else best)
  end.

(* lexicographic order of the key (degree[p], p) (graph_und.rs:111); degree[p] must be in range *)
Definition key_leb (deg : list nat) (p q : nat) : bool :=
  let dp := nth p deg 0 in let dq := nth q deg 0 in
  (dp <? dq) || ((dp =? dq) && (p <=? q)).

(* the closure of sort_unstable_by_key panics if an entry is out of range *)
Definition in_range (n : nat) (row : list nat) : res unit :=
  if forallb (fun p => p <? n) row then Ok tt else Panic.

(* graph_und.rs:65-141 *)
Definition from_adjacency_set (adj : list (list nat)) (calc_degree check_connectivity : bool) : res graph :=
  let! _ := if check_connectivity then check_connected adj else Ok tt in
  if calc_degree then
    let deg := map (@List.length nat) adj in
    let pmin := fst (min_degree_loop 0 deg (0, None)) in
    let! rows := foldM (fun acc row => let! _ := in_range (List.length adj) row in
                                       Ok (acc ++ [isort (key_leb deg) row])) adj [] in
    Ok (mkGraph rows (list_sum (map (@List.length nat) rows) / 2) deg pmin)
  else
    let rows := map (isort Nat.leb) adj in
    Ok (mkGraph rows (list_sum (map (@List.length nat) rows) / 2) [] 0).

(* HashSet::insert *)
Definition hs_insert (x : nat) (s : list nat) : list nat :=
  if existsb (Nat.eqb x) s then s else x :: s.

(* adjacency_set[a].insert(b) *)
Definition adj_insert (adj : list (list nat)) (a b : nat) : res (list (list nat)) :=
  let! row := get adj a in set adj a (hs_insert b row).

(* graph_und.rs:150-177; edges as pairs (the array has at least two columns; the Err for fewer
   columns is not modelled) *)
Definition from_edges (edges : list (nat * nat)) (calc_degree check_connectivity : bool) : res graph :=
  let nodes := fold_left (fun s e => hs_insert (snd e) (hs_insert (fst e) s)) edges [] in
  let nnode := List.length nodes in
  let! adj := foldM (fun adj e => let! adj := adj_insert adj (fst e) (snd e) in
                                  adj_insert adj (snd e) (fst e))
                    edges (repeat [] nnode) in
  from_adjacency_set adj calc_degree check_connectivity.

(* graph_und.rs:187-200: adjacency sets of a list of cells given by their points *)
Definition mesh_adjacency (npoint : nat) (cell_points : list (list nat)) : res (list (list nat)) :=
  foldM (fun adj pts =>
    foldM (fun adj a =>
      foldM (fun adj b =>
        if b =? a then Ok adj else
        let! adj := adj_insert adj a b in adj_insert adj b a)
      pts adj) pts adj)
  cell_points (repeat [] npoint).

(* graph_und.rs:186-203 *)
Definition from_mesh {T} (m : mesh T) (calc_degree check_connectivity : bool) : res graph :=
  let! adj := mesh_adjacency (List.length (points m)) (map c_points (cells m)) in
  from_adjacency_set adj calc_degree check_connectivity.

(* graph_und.rs:336-347: state (explored, queue, distance) *)
Definition dist_body (adj : list (list nat)) (a : nat) (s : list bool * list nat * list nat)
    : res (list bool * list nat * list nat) :=
  let! row := get adj a in
  foldM (fun (s : list bool * list nat * list nat) b =>
           let '(explored, queue, distance) := s in
           let! e := get explored b in
           if e then Ok s else
           let! explored := set explored b true in
           let! da := get distance a in
           let! distance := set distance b (da + 1) in
           Ok (explored, queue ++ [b], distance))
        row s.

(* graph_und.rs:321-356; returns (max_distance, self.distance) *)
Definition calc_distance (g : graph) (root : nat) : res (nat * list nat) :=
  let nnode := List.length (adjacency g) in
  let! explored := set (repeat false nnode) root true in
  let! s := while_queue (fun s => snd (fst s)) (fun s q => (fst (fst s), q, snd s))
              (dist_body (adjacency g)) (S nnode) (explored, [root], repeat 0 nnode) in
  let distance := snd s in
  Ok (fold_left (fun m d => if m <? d then d else m) distance 0, distance).

(* graph_und.rs:392-402: first vertex of minimum degree among those at distance max_distance;
   state (min_deg, next_root), None = usize::MAX / None *)
Fixpoint next_root_loop (i : nat) (distance deg : list nat) (max_distance : nat)
    (best : option nat * option nat) : option nat * option nat :=
  match distance, deg with
  | di :: distance', d :: deg' =>
      let best' :=
        if di =? max_distance then
          let lt := match fst best with None => true | Some m => d <? m end in
          if lt then (Some d, Some i) else best
        else best in
      next_root_loop (S i) distance' deg' max_distance best'
  | _, _ => best
  end.

(* graph_und.rs:388-417 *)
Fixpoint pp_loop (g : graph) (iterations root max_distance : nat) (distance : list nat) : res nat :=
  match iterations with
  | 0 => Err "INTERNAL ERROR: iterations did not converge"
  | S it =>
      match snd (next_root_loop 0 distance (degree g) max_distance (None, None)) with
      | None => Ok root
      | Some r =>
          let! md := calc_distance g r in
          if fst md =? max_distance then Ok r
          else pp_loop g it r (fst md) (snd md)
      end
  end.

(* graph_und.rs:364-422 *)
Definition pseudo_peripheral (g : graph) (start : option nat) : res nat :=
  let nnode := List.length (adjacency g) in
  if negb (List.length (degree g) =? nnode) then
    Err "pseudo_peripheral requires the degree of vertices (calc_degree must be set to true)" else
  let root := match start with Some p => p | None => p_min_degree g end in
  let! md := calc_distance g root in
  pp_loop g 10 root (fst md) (snd md).

(* graph_und.rs:247-259: state (explored, queue, ordering, label) *)
Definition cm_body (adj : list (list nat)) (a : nat) (s : list bool * list nat * list nat * nat)
    : res (list bool * list nat * list nat * nat) :=
  let! row := get adj a in
  foldM (fun (s : list bool * list nat * list nat * nat) b =>
           let '(explored, queue, ordering, label) := s in
           let! e := get explored b in
           if e then Ok s else
           let! explored := set explored b true in
           let! ordering := set ordering label b in
           Ok (explored, queue ++ [b], ordering, label + 1))
        row s.

(* graph_und.rs:218-264 *)
Definition cuthill_mckee (g : graph) (start : option nat) : res (list nat) :=
  let nnode := List.length (adjacency g) in
  if negb (List.length (degree g) =? nnode) then
    Err "Cuthill-McKee algorithm requires the degree of vertices (calc_degree must be set to true)" else
  let! root := match start with Some p => Ok p | None => pseudo_peripheral g None end in
  let! explored := set (repeat false nnode) root true in
  let! ordering := set (repeat 0 nnode) 0 root in
  let! s := while_queue (fun s => snd (fst (fst s)))
              (fun s q => (fst (fst (fst s)), q, snd (fst s), snd s))
              (cm_body (adjacency g)) (S nnode) (explored, [root], ordering, 1) in
  Ok (rev (snd (fst s))).

(* graph_und.rs:286-298: state (explored, queue, distance, parent) *)
Definition sp_body (adj : list (list nat)) (a : nat) (s : list bool * list nat * list nat * list (option nat))
    : res (list bool * list nat * list nat * list (option nat)) :=
  let! row := get adj a in
  foldM (fun (s : list bool * list nat * list nat * list (option nat)) b =>
           let '(explored, queue, distance, parent) := s in
           let! e := get explored b in
           if e then Ok s else
           let! explored := set explored b true in
           let! da := get distance a in
           let! distance := set distance b (da + 1) in
           let! parent := set parent b (Some a) in
           Ok (explored, queue ++ [b], distance, parent))
        row s.

(* graph_und.rs:301-308: walk back along the parents; [path] already starts with current *)
Fixpoint walk_back (parent : list (option nat)) (fuel current : nat) (path : list nat) : res (list nat) :=
  let! p := get parent current in
  match p with
  | None => Ok path
  | Some q => match fuel with 0 => NoFuel | S f => walk_back parent f q (q :: path) end
  end.

(* graph_und.rs:269-310 *)
Definition shortest_path_bfs (g : graph) (source destination : nat) : res (list nat) :=
  let nnode := List.length (adjacency g) in
  let! explored := set (repeat false nnode) source true in
  let! s := while_queue (fun s => snd (fst (fst s)))
              (fun s q => (fst (fst (fst s)), q, snd (fst s), snd s))
              (sp_body (adjacency g)) (S nnode)
              (explored, [source], repeat 0 nnode, repeat None nnode) in
  walk_back (snd s) nnode destination [destination].

(* graph_und.rs:430-448 *)
Definition calc_bandwidth (g : graph) : nat :=
  snd (fold_left (fun st row =>
     let '(i, band) := st in
     let band_i := fold_left (fun bi j =>
        if i <? j then (let delta := (j - i) + 1 in if bi <? delta then delta else bi) else bi) row 1 in
     (S i, if band <? band_i then band_i else band)) (adjacency g) (0, 0)).

(* graph_und.rs:487-494 *)
Definition get_old_to_new_map (ordering : list nat) : res (list nat) :=
  let n := List.length ordering in
  foldM (fun m new => let! old := get ordering new in set m old new) (seq 0 n) (repeat 0 n).

(* graph_und.rs:501-507 *)
Definition renumber_mesh {T} (m : mesh T) (check_connectivity : bool) : res (mesh T) :=
  let! g := from_mesh m true check_connectivity in
  let! ordering := cuthill_mckee g None in
  let! old_to_new := get_old_to_new_map ordering in
  renumber_points m old_to_new.

(* graph_und.rs:510-577 *)
Definition get_nnode (g : graph) : nat := List.length (adjacency g).
Definition get_nedge (g : graph) : nat := nedge g.
Definition get_degree (g : graph) (node : nat) : res nat :=
  let nnode := List.length (adjacency g) in
  if negb (List.length (degree g) =? nnode) then
    Err "degree information is not available (calc_degree must be set to true)" else
  if nnode <=? node then Err "node index out of bounds" else get (degree g) node.
Definition has_edge (g : graph) (a b : nat) : bool :=
  let nnode := List.length (adjacency g) in
  if (nnode <=? a) || (nnode <=? b) then false
  else existsb (Nat.eqb b) (nth a (adjacency g) []).
Definition get_edges (g : graph) : list (nat * nat) :=
  concat (map (fun ar => map (fun b => (fst ar, b)) (filter (fun b => fst ar <? b) (snd ar)))
              (combine (seq 0 (List.length (adjacency g))) (adjacency g))).
