(* Model of GraphDir, /repo/src/graph/graph_dir.rs.
   Simplifications:
   - f64 weights are exact rationals; f64::MAX, used by the code for "no connection", is [Inf]
     (MAX + w is not smaller than MAX, so that [Inf + w = Inf] never replaces an entry);
   - matrices are functions with bounds-checked updates (russell_lab's Matrix is not part of the repository);
   - usize::MAX in the next-hop matrix is [None];
   - edges are pairs: the additional columns of the input array are ignored by the code. *)
From Coq Require Import String List Arith Bool QArith.
From Verif Require Import Base.
Import ListNotations.
Open Scope nat_scope.

Inductive ext := Fin (q : Q) | Inf.
Definition eadd (a b : ext) : ext :=
  match a, b with Fin x, Fin y => Fin (Qplus x y) | _, _ => Inf end.
(* a > b *)
Definition egtb (a b : ext) : bool :=
  match a, b with
  | Fin x, Fin y => negb (Qle_bool x y)
  | Inf, Fin _ => true
  | _, Inf => false
  end.

Definition mat (A : Type) := nat -> nat -> A.
Definition mset {A} (n : nat) (m : mat A) (i j : nat) (v : A) : res (mat A) :=
  if (i <? n) && (j <? n)
  then Ok (fun a b => if (a =? i) && (b =? j) then v else m a b)
  else Panic.
Definition mget {A} (n : nat) (m : mat A) (i j : nat) : res A :=
  if (i <? n) && (j <? n) then Ok (m i j) else Panic.

(* struct GraphDir, 39-74 *)
Record gdir := mkGdir {
  gd_edges : list (nat * nat);
  gd_weights : list Q;
  gd_nnode : nat;
  gd_dist : mat ext;
  gd_next : mat (option nat);
  gd_ready : bool }.

(* the nodes collected in a HashSet, 108-114; only its size is used *)
Definition node_set (edges : list (nat * nat)) : list nat :=
  nodup Nat.eq_dec (flat_map (fun ab => [fst ab; snd ab]) edges).

(* new, 100-125. Matrix::new fills with zeros *)
Definition gd_new (edges : list (nat * nat)) : gdir :=
  mkGdir edges (map (fun _ => 1%Q) edges) (List.length (node_set edges))
         (fun _ _ => Fin 0) (fun _ _ => Some 0) false.

(* set_weight, 147-152 *)
Definition gd_set_weight (g : gdir) (edge : nat) (w : Q) : res gdir :=
  if Qle_bool 0 w then
    let! ws := set (gd_weights g) edge w in
    Ok (mkGdir (gd_edges g) ws (gd_nnode g) (gd_dist g) (gd_next g) false)
  else Panic.

(* get_nedge, get_nnode 155-162 *)
Definition gd_get_nedge (g : gdir) := List.length (gd_edges g).
Definition gd_get_nnode (g : gdir) := gd_nnode g.

(* calc_dist_and_next, 268-289 *)
Definition gd_init_dist : mat ext := fun i j => if i =? j then Fin 0 else Inf.
Definition gd_init_next : mat (option nat) := fun _ _ => None.
Definition gd_enter_edge (n : nat) (s : mat ext * mat (option nat)) (e : (nat * nat) * Q)
  : res (mat ext * mat (option nat)) :=
  let '(dist, next) := s in
  let '((i, j), w) := e in
  let! dist := mset n dist i j (Fin w) in
  let! next := mset n next i j (Some j) in
  Ok (dist, next).
Definition gd_calc_dist_and_next (g : gdir) : res gdir :=
  let! s := foldM (gd_enter_edge (gd_nnode g)) (combine (gd_edges g) (gd_weights g))
              (gd_init_dist, gd_init_next) in
  let '(dist, next) := (s : mat ext * mat (option nat)) in
  Ok (mkGdir (gd_edges g) (gd_weights g) (gd_nnode g) dist next (gd_ready g)).

(* shortest_paths_fw, 228-243: body of the innermost loop, the two inner loops, the outer loop *)
Definition fw_body (k : nat) (s : mat ext * mat (option nat)) (ij : nat * nat)
  : mat ext * mat (option nat) :=
  let '(dist, next) := s in
  let '(i, j) := ij in
  let sum := eadd (dist i k) (dist k j) in
  if egtb (dist i j) sum
  then ((fun a b => if (a =? i) && (b =? j) then sum else dist a b),
        (fun a b => if (a =? i) && (b =? j) then next i k else next a b))
  else s.
Definition fw_stage (n : nat) (s : mat ext * mat (option nat)) (k : nat) :=
  fold_left (fw_body k) (list_prod (seq 0 n) (seq 0 n)) s.
Definition gd_shortest_paths_fw (g : gdir) : res gdir :=
  let! g := gd_calc_dist_and_next g in
  let '(dist, next) := fold_left (fw_stage (gd_nnode g)) (seq 0 (gd_nnode g)) (gd_dist g, gd_next g) in
  Ok (mkGdir (gd_edges g) (gd_weights g) (gd_nnode g) dist next true).

(* path, 248-262. [fuel] bounds the number of loop iterations *)
Fixpoint path_loop (fuel : nat) (g : gdir) (end_point : nat) (current : option nat) (path : list nat)
  : res (list nat) :=
  match fuel with
  | 0 => NoFuel
  | S f =>
      match current with
      | None => Err "no path found"
      | Some c =>
          if c =? end_point then Ok path
          else
            let! nxt := mget (gd_nnode g) (gd_next g) c end_point in
            (* when nxt is usize::MAX the value pushed is never seen: the next iteration returns Err *)
            path_loop f g end_point nxt (match nxt with Some m => path ++ [m] | None => path end)
      end
  end.
Definition gd_path (fuel : nat) (g : gdir) (start_point end_point : nat) : res (list nat) :=
  if gd_ready g then path_loop fuel g end_point (Some start_point) [start_point]
  else Err "a path finding algorithm (e.g., shortest_paths_fw) must be called first".
