(* Model of /repo/src/util: num_divisions, calc_container_key, GridSearch.
   Real numbers stand for f64; vectors are lists.  HashMap: association list with distinct keys
   (TopoModel.mget/mput); iteration order arbitrary ([sh]).  The halo buffer of the struct is
   scratch space overwritten by set_halo, so the model returns its contents instead.
   The filter closures (FnMut) are pure functions.  Drawing and Display are not modelled. *)
From Coq Require Import String List Arith Bool Reals ZArith.
From Verif Require Import Base TopoModel GeomModel.
Import ListNotations.
Open Scope R_scope.

(* `r as usize`: truncation, negative values give 0 (saturation at usize::MAX not modelled) *)
Definition as_usize (r : R) : nat := Z.to_nat (Int_part r).

(* util/num_divisions.rs:55-62: index and value of the first largest entry *)
Definition longest (delta : list R) (ndim : nat) : res (nat * R) :=
  let! d0 := get delta 0 in
  foldM (fun (st : nat * R) i =>
    let! di := get delta i in
    if Rltb (snd st) di then Ok (i, di) else Ok st) (seq 1 (ndim - 1)) (0%nat, d0).

(* util/num_divisions.rs:42-78 *)
Definition num_divisions (ndiv_min ndiv_long : nat) (xmin xmax : list R) : res (list nat) :=
  if (ndiv_min <? 1)%nat then Err "ndiv_min must be >= 1"%string
  else if (ndiv_long <=? ndiv_min)%nat then Err "ndiv_long must be > ndiv_min"%string
  else if negb (List.length xmin =? List.length xmax)%nat then Err "xmin.len() must be equal to xmax.len()"%string
  else
    let ndim := List.length xmin in
    if (ndim <? 2)%nat then Err "ndim must be >= 2"%string
    else
      let delta := map (fun ab => snd ab - fst ab) (combine xmin xmax) in
      let! st := longest delta ndim in
      let '(index_long, delta_long) := st in
      foldM (fun (ndiv : list nat) i =>
        let! di := get delta i in
        if Rleb di 0 then Err "xmax must be greater than xmin"%string
        else if (i =? index_long)%nat then set ndiv i ndiv_long
        else set ndiv i (Nat.max ndiv_min (as_usize (di / delta_long * INR ndiv_long))))
        (seq 0 ndim) (repeat 0%nat ndim).

(* util/calc_container_key.rs:9-27; subtraction below zero panics *)
Definition dec (n : nat) : res nat := match n with O => Panic | S k => Ok k end.
Definition calc_container_key (ndim : nat) (side_length : R) (ndiv : list nat) (xmin x : list R) : res nat :=
  let! x0 := get x 0 in let! m0 := get xmin 0 in let ix := as_usize ((x0 - m0) / side_length) in
  let! x1 := get x 1 in let! m1 := get xmin 1 in let iy := as_usize ((x1 - m1) / side_length) in
  let! n0 := get ndiv 0 in
  let! ix := (if (ix =? n0)%nat then dec ix else Ok ix) in
  let! n1 := get ndiv 1 in
  let! iy := (if (iy =? n1)%nat then dec iy else Ok iy) in
  if (ndim =? 2)%nat then Ok (ix + iy * n0)%nat
  else
    let! x2 := get x 2 in let! m2 := get xmin 2 in let iz := as_usize ((x2 - m2) / side_length) in
    let! n2 := get ndiv 2 in
    let! iz := (if (iz =? n2)%nat then dec iz else Ok iz) in
    Ok (ix + iy * n0 + iz * n0 * n1)%nat.

(* util/grid_search.rs:36-42 *)
Definition item : Type := nat * list R.
Definition container : Type := list item.
(* util/grid_search.rs:93-106 without the halo buffer *)
Record grid := mkGrid {
  g_ndim : nat;
  g_ndiv : list nat;
  g_xmin : list R;
  g_xmax : list R;
  g_coef : list nat;
  g_side : R;
  g_tol : R;
  g_tol_dist : R;
  g_radius : R;
  g_containers : list (nat * container) }.

(* util/grid_search.rs:22-28 *)
Definition GS_DEFAULT_NDIV : nat := 100.
Definition GS_DEFAULT_TOLERANCE : R := / 10000.
Definition GS_DEFAULT_BORDER_TOL : R := / 100.

(* util/grid_search.rs:205-211 *)
Definition side_of (xmin xmax : list R) (ndiv : list nat) (ndim : nat) : res R :=
  let! a := get xmin 0 in let! b := get xmax 0 in let! n := get ndiv 0 in
  foldM (fun (s : R) i =>
    let! a := get xmin i in let! b := get xmax i in let! n := get ndiv i in
    Ok (Rmax s ((b - a) / INR n))) (seq 1 (ndim - 1)) ((b - a) / INR n).

(* util/grid_search.rs:151-255 *)
Definition grid_new (xmin xmax : list R) (ndiv : option nat) (tolerance border_tol : option R) : res grid :=
  let ndim := List.length xmin in
  if ((ndim <? 2) || (3 <? ndim))%nat then Err "xmin.len() = ndim must be 2 or 3"%string
  else if negb (List.length xmax =? ndim)%nat then Err "xmax.len() must equal ndim = xmin.len()"%string
  else
    let ndiv_long := match ndiv with Some v => v | None => GS_DEFAULT_NDIV end in
    if (ndiv_long <? 1)%nat then Err "ndiv must be >= 1"%string
    else
      let! ndiv := num_divisions 1 ndiv_long xmin xmax in
      let! n0 := get ndiv 0 in let! n1 := get ndiv 1 in
      let coefficient := [1; n0; n0 * n1]%nat in
      let tolerance := match tolerance with Some v => v | None => GS_DEFAULT_TOLERANCE end in
      if Rleb tolerance 0 then Err "tolerance must be > 0.0"%string
      else
        let border_tol := match border_tol with Some v => v | None => GS_DEFAULT_BORDER_TOL end in
        if Rltb border_tol 0 then Err "border_tol must be >= 0.0"%string
        else
          let xmin := if Rltb 0 border_tol then map (fun x => x - border_tol) xmin else xmin in
          let xmax := if Rltb 0 border_tol then map (fun x => x + border_tol) xmax else xmax in
          let! side_length := side_of xmin xmax ndiv ndim in
          if Rleb side_length (2 * tolerance) then Err "(xmax-xmin)/ndiv must be > 2 tolerance; reduce the tolerance (or ndiv)"%string
          else
            let xmax := map (fun an => fst an + side_length * INR (snd an)) (combine xmin ndiv) in
            let tol_dist := if (ndim =? 2)%nat then sqrt 2 * tolerance else sqrt 3 * tolerance in
            let radius := if (ndim =? 2)%nat then sqrt 2 * side_length / 2 else sqrt 3 * side_length / 2 in
            Ok (mkGrid ndim ndiv xmin xmax coefficient side_length tolerance tol_dist radius []).

(* util/grid_search.rs:261-270 *)
Definition is_outside (g : grid) (x : list R) : res bool :=
  if (List.length x =? g_ndim g)%nat then
    foldM (fun (out : bool) i =>
      if out then Ok true else
      let! xi := get x i in let! lo := get (g_xmin g) i in
      if Rltb xi lo then Ok true else
      let! hi := get (g_xmax g) i in
      Ok (Rltb hi xi)) (seq 0 (g_ndim g)) false
  else Panic.

(* util/grid_search.rs:657-673; None of the code is None here *)
Definition grid_key (g : grid) (x : list R) : res (option nat) :=
  foldM (fun (st : option nat) i =>
    match st with
    | None => Ok None
    | Some key =>
        let! xi := get x i in let! lo := get (g_xmin g) i in let! hi := get (g_xmax g) i in
        if Rltb xi lo || Rltb hi xi then Ok None
        else
          let ratio := as_usize ((xi - lo) / g_side g) in
          let! n := get (g_ndiv g) i in
          let! ratio := (if (ratio =? n)%nat then dec ratio else Ok ratio) in
          let! c := get (g_coef g) i in
          Ok (Some (key + ratio * c)%nat)
    end) (seq 0 (g_ndim g)) (Some 0%nat).

(* util/grid_search.rs:771-774 *)
Definition update_or_insert (g : grid) (key id : nat) (x : list R) : grid :=
  let c := match mget Nat.eqb (g_containers g) key with Some c => c | None => [] end in
  mkGrid (g_ndim g) (g_ndiv g) (g_xmin g) (g_xmax g) (g_coef g) (g_side g) (g_tol g) (g_tol_dist g) (g_radius g)
    (mput Nat.eqb (g_containers g) key (mput Nat.eqb c id x)).

(* util/grid_search.rs:778-824 *)
Definition halo (g : grid) (x : list R) : res (list (list R)) :=
  let t := g_tol g in
  let! x0 := get x 0 in let! x1 := get x 1 in
  if (g_ndim g =? 2)%nat then
    Ok [[x0 - t; x1 - t]; [x0 + t; x1 - t]; [x0 + t; x1 + t]; [x0 - t; x1 + t]]
  else
    let! x2 := get x 2 in
    Ok [[x0 - t; x1 - t; x2 - t]; [x0 + t; x1 - t; x2 - t]; [x0 + t; x1 + t; x2 - t]; [x0 - t; x1 + t; x2 - t];
        [x0 - t; x1 - t; x2 + t]; [x0 + t; x1 - t; x2 + t]; [x0 + t; x1 + t; x2 + t]; [x0 - t; x1 + t; x2 + t]].

(* util/grid_search.rs:278-305 *)
Definition grid_insert (g : grid) (id : nat) (x : list R) : res grid :=
  if negb (List.length x =? g_ndim g)%nat then Err "x.len() must equal ndim"%string
  else
    let! k := grid_key g x in
    match k with
    | None => Err "cannot insert point because its coordinates are outside the grid"%string
    | Some key =>
        let g := update_or_insert g key id x in
        let! corners := halo g x in
        foldM (fun (g : grid) tmp =>
          let! k := grid_key g tmp in
          match k with
          | Some key_corner => if (key_corner =? key)%nat then Ok g else Ok (update_or_insert g key_corner id x)
          | None => Ok g
          end) corners g
    end.

Section Order.
(* iteration order of the containers map (as list of keys) and of one container *)
Variable shk : list nat -> list nat.
Variable sh : container -> container.

(* util/grid_search.rs:334-340 *)
Fixpoint first_near (tol_dist : R) (x : list R) (c : container) : res (option nat) :=
  match c with
  | [] => Ok None
  | (id, x_other) :: t =>
      let! distance := point_point_distance x_other x in
      if Rleb distance tol_dist then Ok (Some id) else first_near tol_dist x t
  end.

(* util/grid_search.rs:316-342 *)
Definition grid_search (g : grid) (x : list R) : res (option nat) :=
  if negb (List.length x =? g_ndim g)%nat then Err "x.len() must equal ndim"%string
  else
    let! k := grid_key g x in
    match k with
    | None => Err "cannot find point because the coordinates are outside the grid"%string
    | Some key =>
        match mget Nat.eqb (g_containers g) key with
        | None => Ok None
        | Some c => first_near (g_tol_dist g) x (sh c)
        end
    end.

(* util/grid_search.rs:677-682; remainder and division by zero panic *)
Definition pivot (g : grid) (key : nat) : res (nat * nat * nat) :=
  let! n0 := get (g_ndiv g) 0 in let! c2 := get (g_coef g) 2 in
  if ((n0 =? 0) || (c2 =? 0))%nat then Panic
  else Ok (key mod n0, (key mod c2) / n0, key / c2)%nat.

(* util/grid_search.rs:686-692 *)
Definition center (g : grid) (i j k : nat) : res (list R) :=
  let! m0 := get (g_xmin g) 0 in let! m1 := get (g_xmin g) 1 in
  let c0 := m0 + INR i * g_side g + g_side g / 2 in
  let c1 := m1 + INR j * g_side g + g_side g / 2 in
  if (g_ndim g =? 3)%nat then
    let! m2 := get (g_xmin g) 2 in Ok [c0; c1; m2 + INR k * g_side g + g_side g / 2]
  else Ok [c0; c1].

(* util/grid_search.rs:696-710, 714-728, 732-746, 750-764: keys of the containers whose centre is near
   the entity; [dist] is the distance function used by each of them *)
Definition containers_near (g : grid) (dist : list R -> res R) : res (list nat) :=
  foldM (fun (near : list nat) key =>
    let! ijk := pivot g key in
    let '(i, j, k) := ijk in
    let! cen := center g i j k in
    let! distance := dist cen in
    if Rleb distance (g_radius g + g_tol_dist g) then Ok (near ++ [key]) else Ok near)
    (shk (map fst (g_containers g))) [].

(* the loop shared by the searches: container.get(..).unwrap(), distance of each item, filter, ids.insert *)
Definition set_insert (ids : list nat) (id : nat) : list nat := if existsb (Nat.eqb id) ids then ids else ids ++ [id].
Definition collect (g : grid) (dist : list R -> res R) (filter : list R -> bool) (near : list nat) : res (list nat) :=
  foldM (fun (ids : list nat) index =>
    match mget Nat.eqb (g_containers g) index with
    | None => Panic
    | Some c =>
        foldM (fun (ids : list nat) (it : item) =>
          let! distance := dist (snd it) in
          if Rleb distance (g_tol_dist g) && filter (snd it) then Ok (set_insert ids (fst it)) else Ok ids) (sh c) ids
    end) near [].

Definition absr (r : res R) : res R := let! d := r in Ok (Rabs d).

(* util/grid_search.rs:356-387 *)
Definition search_on_line (g : grid) (a b : list R) (filter : list R -> bool) : res (list nat) :=
  if negb (List.length a =? g_ndim g)%nat then Err "a.len() must equal ndim"%string
  else if negb (List.length b =? g_ndim g)%nat then Err "b.len() must equal ndim"%string
  else
    let! near := containers_near g (point_line_distance a b) in
    collect g (point_line_distance a b) filter near.

(* util/grid_search.rs:404-435 *)
Definition search_on_circle (g : grid) (cen : list R) (radius : R) (filter : list R -> bool) : res (list nat) :=
  if negb (g_ndim g =? 2)%nat then Err "search_on_circle works in 2D only"%string
  else if negb (List.length cen =? g_ndim g)%nat then Err "center.len() must equal ndim"%string
  else
    let! near := containers_near g (point_circle_distance cen radius) in
    collect g (fun x => absr (point_circle_distance cen radius x)) filter near.

(* util/grid_search.rs:447-493 *)
Definition search_on_cylinder (g : grid) (a b : list R) (radius : R) (filter : list R -> bool) : res (list nat) :=
  if negb (g_ndim g =? 3)%nat then Err "search_on_cylinder works in 3D only"%string
  else if negb (List.length a =? g_ndim g)%nat then Err "a.len() must equal ndim"%string
  else if negb (List.length b =? g_ndim g)%nat then Err "b.len() must equal ndim"%string
  else
    let! near := containers_near g (point_cylinder_distance a b radius) in
    collect g (fun x => absr (point_cylinder_distance a b radius x)) filter near.

(* distance to a coordinate plane: f64::abs(x[dim] - coord) *)
Definition plane_distance (dim : nat) (coord : R) (x : list R) : res R :=
  let! xd := get x dim in Ok (Rabs (xd - coord)).

(* util/grid_search.rs:500-533, 541-573, 582-613: planes xy (dim 2), yz (dim 0), xz (dim 1); each takes
   abs of the distance again *)
Definition search_on_plane (g : grid) (dim : nat) (coord : R) (filter : list R -> bool) : res (list nat) :=
  let! near := containers_near g (plane_distance dim coord) in
  collect g (fun x => absr (plane_distance dim coord x)) filter near.
Definition search_on_plane_xy (g : grid) (z : R) (filter : list R -> bool) : res (list nat) :=
  if negb (g_ndim g =? 3)%nat then Err "search_on_plane_xy works in 3D only"%string else search_on_plane g 2 z filter.
Definition search_on_plane_yz (g : grid) (x : R) (filter : list R -> bool) : res (list nat) :=
  if negb (g_ndim g =? 3)%nat then Err "search_on_plane_yz works in 3D only"%string else search_on_plane g 0 x filter.
Definition search_on_plane_xz (g : grid) (y : R) (filter : list R -> bool) : res (list nat) :=
  if negb (g_ndim g =? 3)%nat then Err "search_on_plane_xz works in 3D only"%string else search_on_plane g 1 y filter.
End Order.
