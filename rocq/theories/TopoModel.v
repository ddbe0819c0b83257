(* Edges and faces of a mesh: /repo/src/mesh/edges.rs, faces.rs, features.rs and
   /repo/src/mesh/algorithms/extract_*.rs.
   A HashMap or HashSet is a list without repeated keys.  The iteration order of a HashMap is
   arbitrary; functions that iterate over one take its listing as an argument, in any order.
   A face key of the code is a sorted quadruple whose last entry is usize::MAX for three points; here
   it is the sorted list of its three or four points. *)
From Coq Require Import String List Arith Bool ZArith.
From Verif Require Import Base Kind MeshModel.
Import ListNotations.
Open Scope nat_scope.

(* iter().map(f).collect() with a function that may panic *)
Fixpoint mapM {A B} (f : A -> res B) (l : list A) : res (list B) :=
  match l with
  | [] => Ok []
  | x :: t => let! y := f x in let! r := mapM f t in Ok (y :: r)
  end.

Section Maps.
Context {K V : Type} (eqb : K -> K -> bool).
(* HashMap::get *)
Fixpoint mget (m : list (K * V)) (k : K) : option V :=
  match m with
  | [] => None
  | (k', v) :: t => if eqb k' k then Some v else mget t k
  end.
(* HashMap::insert *)
Fixpoint mput (m : list (K * V)) (k : K) (v : V) : list (K * V) :=
  match m with
  | [] => [(k, v)]
  | (k', v') :: t => if eqb k' k then (k, v) :: t else (k', v') :: mput t k v
  end.
(* HashSet::insert *)
Definition sadd (s : list K) (x : K) : list K := if existsb (eqb x) s then s else s ++ [x].
End Maps.
(* map.entry(k).or_insert(Vec::new()).push(x) *)
Definition mpush {K V} (eqb : K -> K -> bool) (m : list (K * list V)) (k : K) (x : V) : list (K * list V) :=
  mput eqb m k (match mget eqb m k with Some l => l ++ [x] | None => [x] end).
(* map.entry(k).or_insert(HashSet::new()).insert(x) *)
Definition maddset {K V} (eqb : K -> K -> bool) (veqb : V -> V -> bool) (m : list (K * list V)) (k : K) (x : V)
  : list (K * list V) :=
  mput eqb m k (sadd veqb (match mget eqb m k with Some l => l | None => [] end) x).

(* edges.rs:11 *)
Definition ekey : Type := (nat * nat)%type.
Definition ekey_eqb (a b : ekey) : bool := (fst a =? fst b) && (snd a =? snd b).
Definition ekey_leb (a b : ekey) : bool := (fst a <? fst b) || ((fst a =? fst b) && (snd a <=? snd b)).
(* russell_lab::sort2 *)
Definition sort2 (k : ekey) : ekey := if snd k <? fst k then (snd k, fst k) else k.
(* faces.rs:12; russell_lab::sort4 is an ascending sort *)
Definition fkey : Type := list nat.
Fixpoint fkey_eqb (a b : fkey) : bool :=
  match a, b with
  | [], [] => true
  | x :: s, y :: t => (x =? y) && fkey_eqb s t
  | _, _ => false
  end.
Fixpoint fkey_leb (a b : fkey) : bool :=
  match a, b with
  | _, [] => true
  | [], _ :: _ => false
  | x :: s, y :: t => (x <? y) || ((x =? y) && fkey_leb s t)
  end.
Definition sort4 (k : fkey) : fkey := isort Nat.leb k.

(* edges.rs:17-26 *)
Record edge := mkEdge { e_kind : geokind; e_points : list nat; e_marker : Z }.
(* edges.rs:30-34 *)
Definition edge_key (ed : edge) : res ekey :=
  let! a := get (e_points ed) 0 in let! b := get (e_points ed) 1 in Ok (sort2 (a, b)).
(* faces.rs:18-27 *)
Record face := mkFace { f_kind : geokind; f_points : list nat; f_marker : Z }.
(* faces.rs:31-39 *)
Definition face_key (fc : face) : res fkey :=
  let! ps := mapM (fun i => get (f_points fc) i) (seq 0 (if 3 <? List.length (f_points fc) then 4 else 3)) in
  Ok (sort4 ps).

Definition emap := list (ekey * list (nat * nat)).
Definition fmap := list (fkey * list (nat * nat)).

Section Extract.
Context {T : Type}.

(* extract_all_2d_edges.rs:17-35 *)
Definition local_edge_key (c : cell) (e : nat) : res ekey :=
  let! a := get (c_points c) (edge_node_id (c_kind c) e 0) in
  let! b := get (c_points c) (edge_node_id (c_kind c) e 1) in
  Ok (sort2 (a, b)).
Definition add_cell_edges (em : emap) (c : cell) : res emap :=
  if kind_ndim (c_kind c) =? 2 then
    foldM (fun (em : emap) e => let! k := local_edge_key c e in Ok (mpush ekey_eqb em k (c_id c, e)))
      (seq 0 (kind_nedge (c_kind c))) em
  else Ok em.
Definition extract_all_2d_edges (m : mesh T) : res emap :=
  if negb (ndim m =? 2) then Panic else foldM add_cell_edges (cells m) [].

(* extract_all_faces.rs:15-46 *)
Definition local_face_key (c : cell) (f : nat) : res fkey :=
  let! ps := mapM (fun i => get (c_points c) (face_node_id (c_kind c) f i))
               (seq 0 (if 3 <? kind_face_nnode (c_kind c) then 4 else 3)) in
  Ok (sort4 ps).
Definition add_cell_faces (fm : fmap) (c : cell) : res fmap :=
  if kind_ndim (c_kind c) =? 3 then
    foldM (fun (fm : fmap) f => let! k := local_face_key c f in Ok (mpush fkey_eqb fm k (c_id c, f)))
      (seq 0 (kind_nface (c_kind c))) fm
  else Ok fm.
Definition extract_all_faces (m : mesh T) : res fmap :=
  if negb (ndim m =? 3) then Panic else foldM add_cell_faces (cells m) [].

(* extract_features_2d.rs:18-24, extract_features_3d.rs:25-36: the maps of markers *)
Definition marked_edges_map (m : mesh T) : list (ekey * Z) :=
  fold_left (fun mm (q : Z * nat * nat) => let '(mk, p1, p2) := q in mput ekey_eqb mm (sort2 (p1, p2)) mk)
    (marked_edges m) [].
Definition marked_faces_map (m : mesh T) : list (fkey * Z) :=
  fold_left (fun mm (q : Z * nat * nat * nat * option nat) => let '(mk, p1, p2, p3, p4) := q in
      mput fkey_eqb mm (sort4 ([p1; p2; p3] ++ match p4 with Some p => [p] | None => [] end)) mk)
    (marked_faces m) [].
Definition unwrap_or_0 (o : option Z) : Z := match o with Some z => z | None => 0%Z end.
Definition unwrap {A} (o : option A) : res A := match o with Some a => Ok a | None => Panic end.

Section Limits.
Variable leb : T -> T -> bool.       (* the order of the coordinates *)
Definition limits := (list (option T) * list (option T))%type.
(* f64::min / f64::max; f64::MAX and f64::MIN, the start values, are None *)
Definition gmin (a : option T) (x : T) : option T :=
  match a with None => Some x | Some y => Some (if leb y x then y else x) end.
Definition gmax (a : option T) (x : T) : option T :=
  match a with None => Some x | Some y => Some (if leb x y then y else x) end.
(* for j in 0..ndim { min[j] = ...; max[j] = ... } *)
Definition grow (nd : nat) (lim : limits) (coords : list T) : res limits :=
  foldM (fun (lim : limits) j =>
      let! x := get coords j in
      let! a := get (fst lim) j in
      let! b := get (snd lim) j in
      let! mn := set (fst lim) j (gmin a x) in
      let! mx := set (snd lim) j (gmax b x) in
      Ok (mn, mx)) (seq 0 nd) lim.
Definition no_limits (nd : nat) : limits := (repeat None nd, repeat None nd).
(* points.insert(p); update of min and max *)
Definition add_point (m : mesh T) (st : list nat * limits) (p : nat) : res (list nat * limits) :=
  let! pt := get (points m) p in
  let! lim := grow (ndim m) (snd st) (pt_coords pt) in
  Ok (sadd Nat.eqb (fst st) p, lim).

(* extract_features_2d.rs:11-69; [all] is a listing of the map returned by extract_all_2d_edges *)
Definition add_edge_2d (m : mesh T) (extract_all : bool)
    (st : list nat * limits * list (ekey * edge)) (kv : ekey * list (nat * nat))
    : res (list nat * limits * list (ekey * edge)) :=
  let '(pl, edges) := st in
  let '(key, shared_by) := kv in
  if negb (extract_all || (List.length shared_by =? 1)) then Ok st else
  let! ce := get shared_by 0 in
  let! c := get (cells m) (fst ce) in
  let! kd := unwrap (kind_edge_kind (c_kind c)) in
  let! ps := mapM (fun i => get (c_points c) (edge_node_id (c_kind c) (snd ce) i))
               (seq 0 (kind_edge_nnode (c_kind c))) in
  let! pl' := foldM (add_point m) ps pl in
  Ok (pl', mput ekey_eqb edges key (mkEdge kd ps (unwrap_or_0 (mget ekey_eqb (marked_edges_map m) key)))).
Definition extract_features_2d (m : mesh T) (all : emap) (extract_all : bool)
    : res (list nat * limits * list (ekey * edge)) :=
  if negb (ndim m =? 2) then Panic else
  foldM (add_edge_2d m extract_all) all ([], no_limits (ndim m), []).

(* extract_features_3d.rs:77-103: the edges of a face *)
Definition add_face_edges (m : mesh T) (fc : face) (edges : list (ekey * edge)) : res (list (ekey * edge)) :=
  foldM (fun (edges : list (ekey * edge)) e =>
      let! a := get (f_points fc) (edge_node_id (f_kind fc) e 0) in
      let! b := get (f_points fc) (edge_node_id (f_kind fc) e 1) in
      let key := sort2 (a, b) in
      match mget ekey_eqb edges key with
      | Some _ => Ok edges
      | None =>
          let! kd := unwrap (kind_edge_kind (f_kind fc)) in
          let! ps := mapM (fun i => get (f_points fc) (edge_node_id (f_kind fc) e i))
                       (seq 0 (kind_edge_nnode (f_kind fc))) in
          Ok (mput ekey_eqb edges key (mkEdge kd ps (unwrap_or_0 (mget ekey_eqb (marked_edges_map m) key))))
      end) (seq 0 (kind_nedge (f_kind fc))) edges.
(* extract_features_3d.rs:51-107 *)
Definition add_face_3d (m : mesh T) (all : fmap) (extract_all : bool)
    (st : list nat * limits * list (ekey * edge) * list (fkey * face)) (key : fkey)
    : res (list nat * limits * list (ekey * edge) * list (fkey * face)) :=
  let '(pl, edges, faces) := st in
  let! shared_by := unwrap (mget fkey_eqb all key) in
  if negb (extract_all || (List.length shared_by =? 1)) then Ok st else
  let! cf := get shared_by 0 in
  let! c := get (cells m) (fst cf) in
  let! kd := unwrap (kind_face_kind (c_kind c)) in
  let! ps := mapM (fun i => get (c_points c) (face_node_id (c_kind c) (snd cf) i))
               (seq 0 (kind_face_nnode (c_kind c))) in
  let fc := mkFace kd ps (unwrap_or_0 (mget fkey_eqb (marked_faces_map m) key)) in
  let! pl' := foldM (add_point m) ps pl in
  let! edges' := add_face_edges m fc edges in
  Ok (pl', edges', mput fkey_eqb faces key fc).
(* extract_features_3d.rs:11-114 *)
Definition extract_features_3d (m : mesh T) (all : fmap) (extract_all : bool)
    : res (list nat * limits * list (ekey * edge) * list (fkey * face)) :=
  if negb (ndim m =? 3) then Panic else
  foldM (add_face_3d m all extract_all) (isort fkey_leb (map fst all)) ([], no_limits (ndim m), [], []).

(* features.rs:134-207: the fields of Features, without the mesh and the search grid *)
Record features := mkFeatures {
  ft_all_2d_edges : emap;
  ft_all_faces : fmap;
  ft_points : list nat;
  ft_edges : list (ekey * edge);
  ft_faces : list (fkey * face);
  ft_cables : list nat;
  ft_shells : list nat;
  ft_limits : limits;
  ft_point_to_edges : list (nat * list ekey);
  ft_point_to_faces : list (nat * list fkey) }.

(* features.rs:270-292: maps from points to edges and faces *)
Definition point_to_edges (edges : list (ekey * edge)) : list (nat * list ekey) :=
  fold_left (fun pm (ke : ekey * edge) =>
      fold_left (fun pm p => maddset Nat.eqb ekey_eqb pm p (fst ke)) (e_points (snd ke)) pm) edges [].
Definition point_to_faces (faces : list (fkey * face)) : list (nat * list fkey) :=
  fold_left (fun pm (kf : fkey * face) =>
      fold_left (fun pm p => maddset Nat.eqb fkey_eqb pm p (fst kf)) (f_points (snd kf)) pm) faces [].

(* features.rs:250-262: points and limits of cables and shells *)
Definition is_cable (c : cell) : bool := kind_ndim (c_kind c) =? 1.
Definition is_shell (m : mesh T) (c : cell) : bool := (kind_ndim (c_kind c) =? 2) && (ndim m =? 3).
Definition add_cables_shells (m : mesh T) (st : list nat * limits) : res (list nat * limits) :=
  foldM (fun (st : list nat * limits) c =>
      if is_cable c || is_shell m c then foldM (add_point m) (c_points c) st else Ok st) (cells m) st.

(* features.rs:224-323 Features::new, without the grid (see GridModel.v, FeatGridModel.v).
   [shuffle] gives the iteration order of the HashMap of edges *)
Definition features_new (shuffle : emap -> emap) (m : mesh T) (extract_all : bool) : res features :=
  if negb ((2 <=? ndim m) && (ndim m <=? 3)) then Panic else
  let! r := (if ndim m =? 2 then
               let! em := extract_all_2d_edges m in
               let! st := extract_features_2d m (shuffle em) extract_all in
               Ok (em, [], fst st, snd st, [])
             else
               let! fm := extract_all_faces m in
               let! st := extract_features_3d m fm extract_all in
               Ok ([], fm, fst (fst st), snd (fst st), snd st)) in
  let '(em, fm, pl, edges, faces) := (r : emap * fmap * (list nat * limits) * list (ekey * edge) * list (fkey * face)) in
  let! pl' := add_cables_shells m pl in
  Ok (mkFeatures em fm (fst pl') edges faces
        (map c_id (filter is_cable (cells m)))
        (if ndim m =? 3 then map c_id (filter (fun c => kind_ndim (c_kind c) =? 2) (cells m)) else [])
        (snd pl') (point_to_edges edges) (point_to_faces faces)).
End Limits.

(* features.rs:326-339 *)
Definition get_edge (ft : features) (a b : nat) : res edge := unwrap (mget ekey_eqb (ft_edges ft) (a, b)).
Definition get_face (ft : features) (k : fkey) : res face := unwrap (mget fkey_eqb (ft_faces ft) k).

(* features.rs:344-348, 374-379 *)
Definition get_cells_via_2d_edge (ft : features) (ed : edge) : res (list nat) :=
  let! k := edge_key ed in
  let! cs := unwrap (mget ekey_eqb (ft_all_2d_edges ft) k) in
  Ok (isort Nat.leb (map fst cs)).
Definition by_id (p q : nat * list nat) : bool := fst p <=? fst q.
Definition get_cells_pairs_via_2d_edge (ft : features) (ed : edge) : res (list (nat * list nat)) :=
  let! k := edge_key ed in
  let! cs := unwrap (mget ekey_eqb (ft_all_2d_edges ft) k) in
  Ok (isort by_id (map (fun c => (fst c, e_points ed)) cs)).
(* features.rs:384-413 *)
Definition get_cells_via_face (ft : features) (fc : face) : res (list nat) :=
  let! k := face_key fc in
  let! cs := unwrap (mget fkey_eqb (ft_all_faces ft) k) in
  Ok (isort Nat.leb (map fst cs)).
Definition get_cells_pairs_via_face (ft : features) (fc : face) : res (list (nat * list nat)) :=
  let! k := face_key fc in
  let! cs := unwrap (mget fkey_eqb (ft_all_faces ft) k) in
  Ok (isort by_id (map (fun c => (fst c, f_points fc)) cs)).
(* features.rs:420-424, 467-471 *)
Definition get_cells_via_2d_edges (ft : features) (eds : list edge) : res (list nat) :=
  let! ids := mapM (get_cells_via_2d_edge ft) eds in Ok (isort Nat.leb (List.concat ids)).
Definition get_cells_via_faces (ft : features) (fcs : list face) : res (list nat) :=
  let! ids := mapM (get_cells_via_face ft) fcs in Ok (isort Nat.leb (List.concat ids)).
(* Vec::dedup: removes repeated consecutive elements *)
Fixpoint dedup (l : list nat) : list nat :=
  match l with
  | x :: ((y :: _) as t) => if x =? y then dedup t else x :: dedup t
  | _ => l
  end.
(* features.rs:504-517 *)
Definition get_points_via_2d_edges (eds : list edge) : list nat :=
  dedup (isort Nat.leb (flat_map e_points eds)).
Definition get_points_via_faces (fcs : list face) : list nat :=
  dedup (isort Nat.leb (flat_map f_points fcs)).

(* features.rs:580-603 *)
Definition get_neighbors_2d (m : mesh T) (ft : features) (cell_id : nat) : res (list (nat * nat * nat)) :=
  if negb (ndim m =? 2) then Panic else
  let! c := get (cells m) cell_id in
  foldM (fun (r : list (nat * nat * nat)) e =>
      let! a := get (c_points c) (edge_node_id (c_kind c) e 0) in
      let! b := get (c_points c) (edge_node_id (c_kind c) e 1) in
      let! shares := unwrap (mget ekey_eqb (ft_all_2d_edges ft) (if b <? a then (b, a) else (a, b))) in
      Ok (r ++ flat_map (fun s : nat * nat => if fst s =? cell_id then [] else [(e, fst s, snd s)]) shares))
    (seq 0 (kind_nedge (c_kind c))) [].

(* features.rs:606-632 *)
Definition get_boundary_edges (m : mesh T) (ft : features) : res (list ekey) :=
  if ndim m =? 2 then
    Ok (flat_map (fun kv : ekey * list (nat * nat) => if List.length (snd kv) =? 1 then [fst kv] else []) (ft_all_2d_edges ft))
  else
    foldM (fun (ks : list ekey) (kf : fkey * face) =>
        let! sh := unwrap (mget fkey_eqb (ft_all_faces ft) (fst kf)) in
        if List.length sh =? 1 then
          foldM (fun (ks : list ekey) e =>
              let! p0 := get (f_points (snd kf)) (edge_node_id (f_kind (snd kf)) e 0) in
              let! p1 := get (f_points (snd kf)) (edge_node_id (f_kind (snd kf)) e 1) in
              let! q0 := get (points m) p0 in
              let! q1 := get (points m) p1 in
              Ok (sadd ekey_eqb ks (sort2 (pt_id q0, pt_id q1))))
            (seq 0 (kind_nedge (f_kind (snd kf)))) ks
        else Ok ks) (ft_faces ft) [].

(* features.rs:671-684 *)
Definition search_marked_edges (ft : features) (marker : Z) : res (list edge) :=
  let! ks := mapM (fun ed => let! k := edge_key ed in Ok (k, ed))
               (filter (fun ed => Z.eqb (e_marker ed) marker) (map snd (ft_edges ft))) in
  Ok (map snd (isort (fun a b => ekey_leb (fst a) (fst b)) ks)).
Definition search_marked_faces (ft : features) (marker : Z) : res (list face) :=
  let! ks := mapM (fun fc => let! k := face_key fc in Ok (k, fc))
               (filter (fun fc => Z.eqb (f_marker fc) marker) (map snd (ft_faces ft))) in
  Ok (map snd (isort (fun a b => fkey_leb (fst a) (fst b)) ks)).
End Extract.

(* edges.rs:267-277, faces.rs:82-92: all points, sorted *)
Definition edges_all_points (eds : list edge) : list nat :=
  isort Nat.leb (fold_left (sadd Nat.eqb) (flat_map e_points eds) []).
Definition faces_all_points (fcs : list face) : list nat :=
  isort Nat.leb (fold_left (sadd Nat.eqb) (flat_map f_points fcs) []).

(* edges.rs:111-245 any_path *)
Section AnyPath.
Variable all : list edge.
(* edges.rs:118-130 *)
Definition path_map : res (list (nat * list nat)) :=
  foldM (fun (mp : list (nat * list nat)) e =>
      let! ed := get all e in
      let! k := edge_key ed in
      Ok (mpush Nat.eqb (mpush Nat.eqb mp (fst k) e) (snd k) e)) (seq 0 (List.length all)) [].
(* edges.rs:132-152; the keys of [mp] may come in any order, they are sorted *)
Definition path_start (mp : list (nat * list nat)) : res nat :=
  match isort Nat.leb (map fst (filter (fun pe => List.length (snd pe) =? 1) mp)) with
  | p :: _ => Ok p
  | [] => get (isort Nat.leb (map fst mp)) 0
  end.
(* edges.rs:155-162 *)
Definition next_point (p e : nat) : res nat :=
  let! ed := get all e in
  let! a := get (e_points ed) 0 in
  let! b := get (e_points ed) 1 in
  Ok (if a =? p then b else a).
(* edges.rs:165-169 *)
Definition next_edges (mp : list (nat * list nat)) (p e : nat) : res (list nat) :=
  let! es := unwrap (mget Nat.eqb mp p) in Ok (filter (fun e' => negb (e' =? e)) es).
(* edges.rs:183-225 push_other_points: local nodes in the order of travel *)
Definition travel (k : geokind) (forward : bool) : res (list nat) :=
  match k with
  | Lin2 => Ok (if forward then [1] else [0])
  | Lin3 => Ok (if forward then [2; 1] else [2; 0])
  | Lin4 => Ok (if forward then [2; 3; 1] else [3; 2; 0])
  | Lin5 => Ok (if forward then [3; 2; 4; 1] else [4; 2; 3; 0])
  | _ => Panic
  end.
Definition push_other_points (e a : nat) (pts : list nat) : res (list nat) :=
  let! ed := get all e in
  let! p0 := get (e_points ed) 0 in
  let! loc := travel (e_kind ed) (p0 =? a) in
  let! ps := mapM (get (e_points ed)) loc in
  Ok (pts ++ ps).
(* edges.rs:231-244: [n] is the number of remaining turns of the loop *)
Fixpoint follow (mp : list (nat * list nat)) (endpoint n e b : nat) (path pts : list nat)
  : res (list nat * list nat) :=
  match n with
  | 0 => Ok (path, pts)
  | S n' =>
      let! es := next_edges mp b e in
      match es with
      | [] => Ok (path, pts)
      | e' :: _ =>
          let! b' := next_point b e' in
          let! pts' := push_other_points e' b pts in
          if b' =? endpoint then Ok (path ++ [e'], pts')
          else follow mp endpoint n' e' b' (path ++ [e']) pts'
      end
  end.
(* edges.rs:111-244 *)
Definition any_path : res (list nat * list nat) :=
  match all with
  | [] => Ok ([], [])
  | _ =>
      let! mp := path_map in
      let! endpoint := path_start mp in
      let! es := unwrap (mget Nat.eqb mp endpoint) in
      let! e := get es 0 in
      let! b := next_point endpoint e in
      let! pts := push_other_points e endpoint [endpoint] in
      follow mp endpoint (List.length all) e b [e] pts
  end.
End AnyPath.
