(* Structured meshes from a block.  Models src/mesh/block.rs: Block::new (207-321), set_marker
   (380-383), set_ndiv (393-407), set_div_weights_2d (417-442), set_div_weights_3d (453-483),
   set_edge_constraint (502-518), set_face_constraint (536-552), set_edge_marker (560-572),
   set_face_marker (580-589), set_transform_into_ring (629-653), subdivide (661-1065),
   map_coords_cylindrical (1069-1083), handle_constraints (1090-1176), apply_constraint_2d
   (1181-1201), apply_constraint_3d (1206-1258).  Drawing is not modelled; new_square and new_cube are in StructModel.
   f64 is modelled by R (no rounding); hash maps by association lists.  The setters return their
   result together with the block after the call.  subdivide changes only the scratch fields of
   self.pad, so the model returns the mesh alone; its two auxiliary pads (pad_lin2, serendipity) are
   allocated where they are used, because set_pad overwrites all their coordinates. *)
From Coq Require Import String Reals List Arith Bool ZArith.
From Verif Require Import Base Kind MeshModel TopoModel GeomModel GridModel ShapesModel PadModel.
Import ListNotations.
Local Open Scope string_scope.
Local Open Scope list_scope.
Local Open Scope R_scope.

(* block.rs:32-39 *)
Record ring := mkRing { amin : R; amax : R; rmin : R; rmax : R; zmin : R; zmax : R }.
(* block.rs:43-59 *)
Inductive constraint2d := Circle (xc yc r : R).
Inductive constraint3d := CylinderX (yc zc r : R) | CylinderY (xc zc r : R) | CylinderZ (xc yc r : R).

(* block.rs:154-187 *)
Record block := mkBlock {
  b_marker : Z;
  b_ndim : nat;
  b_ndiv : list nat;
  b_delta : mat;
  b_ec : list (nat * constraint2d);
  b_fc : list (nat * constraint3d);
  b_em : list (nat * Z);
  b_fm : list (nat * Z);
  b_pad : pad;
  b_args : ring;
  b_ring : bool }.

Definition with_marker (b : block) (v : Z) : block :=
  mkBlock v (b_ndim b) (b_ndiv b) (b_delta b) (b_ec b) (b_fc b) (b_em b) (b_fm b) (b_pad b) (b_args b) (b_ring b).
Definition with_div (b : block) (n : list nat) (d : mat) : block :=
  mkBlock (b_marker b) (b_ndim b) n d (b_ec b) (b_fc b) (b_em b) (b_fm b) (b_pad b) (b_args b) (b_ring b).
Definition with_ec (b : block) (c : list (nat * constraint2d)) : block :=
  mkBlock (b_marker b) (b_ndim b) (b_ndiv b) (b_delta b) c (b_fc b) (b_em b) (b_fm b) (b_pad b) (b_args b) (b_ring b).
Definition with_fc (b : block) (c : list (nat * constraint3d)) : block :=
  mkBlock (b_marker b) (b_ndim b) (b_ndiv b) (b_delta b) (b_ec b) c (b_em b) (b_fm b) (b_pad b) (b_args b) (b_ring b).
Definition with_em (b : block) (c : list (nat * Z)) : block :=
  mkBlock (b_marker b) (b_ndim b) (b_ndiv b) (b_delta b) (b_ec b) (b_fc b) c (b_fm b) (b_pad b) (b_args b) (b_ring b).
Definition with_fm (b : block) (c : list (nat * Z)) : block :=
  mkBlock (b_marker b) (b_ndim b) (b_ndiv b) (b_delta b) (b_ec b) (b_fc b) (b_em b) c (b_pad b) (b_args b) (b_ring b).
Definition with_ring (b : block) (a : ring) (f : bool) : block :=
  mkBlock (b_marker b) (b_ndim b) (b_ndiv b) (b_delta b) (b_ec b) (b_fc b) (b_em b) (b_fm b) (b_pad b) a f.

(* block.rs:191-194 *)
Definition NAT_LENGTH : R := 2.
Definition MARKER : Z := 1%Z.

(* HashMap::remove *)
Definition mdel {V} (m : list (nat * V)) (k : nat) : list (nat * V) :=
  filter (fun e => negb (fst e =? k)%nat) m.

(* coords.at(m, j) *)
Definition at2 (x : mat) (m j : nat) : res R := let! row := get x m in get row j.

(* block.rs:234-240 and its three other copies *)
Definition copy_nodes (nd n : nat) (coords : mat) (p : pad) : res pad :=
  foldM (fun (p : pad) m => foldM (fun (p : pad) j => let! v := at2 coords m j in set_xx p m j v) (seq 0 nd) p)
    (seq 0 n) p.
(* block.rs:249-252, 271-284: (new node, end, end) *)
Definition mid_2d : list (nat * nat * nat) := [(4, 0, 1); (5, 1, 2); (6, 2, 3); (7, 3, 0)]%nat.
Definition mid_3d : list (nat * nat * nat) :=
  [(8, 0, 1); (9, 1, 2); (10, 2, 3); (11, 3, 0); (12, 4, 5); (13, 5, 6); (14, 6, 7); (15, 7, 4);
   (16, 0, 4); (17, 1, 5); (18, 2, 6); (19, 3, 7)]%nat.
Definition mid_nodes (nd : nat) (coords : mat) (mids : list (nat * nat * nat)) (p : pad) : res pad :=
  foldM (fun (p : pad) j =>
      foldM (fun (p : pad) (t : nat * nat * nat) =>
          let '(m, a, b) := t in
          let! xa := at2 coords a j in let! xb := at2 coords b j in
          set_xx p m j ((xa + xb) / 2)) mids p)
    (seq 0 nd) p.

Section Block.
Variable zdet : R.                               (* see PadModel *)
Variable sh : container -> container.            (* iteration order of the containers of the grid *)
Variable shc : list (nat * nat) -> list (nat * nat).  (* iteration order of constrained_point_to_side *)

(* block.rs:207-321; [nd] is the number of columns of coords *)
Definition block_new (nd : nat) (coords : mat) : res block :=
  let nrow := List.length coords in
  if (nd <? 2)%nat || (3 <? nd)%nat then Err "ncol = ndim must be 2 or 3" else
  if (nd =? 2)%nat && negb (nrow =? 4)%nat && negb (nrow =? 8)%nat then Err "in 2D, nrow must be 4 or 8" else
  if negb (nd =? 2)%nat && negb (nrow =? 8)%nat && negb (nrow =? 20)%nat then Err "in 3D, nrow must be 8 or 20" else
  let kind := if (nd =? 2)%nat then Qua8 else Hex20 in
  let nnode := kind_nnode kind in
  let! p := pad_new nd kind in
  let! p := (if (nd =? 2)%nat then
               if (nrow =? 8)%nat then copy_nodes nd nnode coords p
               else let! p := copy_nodes nd nrow coords p in mid_nodes nd coords mid_2d p
             else
               if (nrow =? 20)%nat then copy_nodes nd nnode coords p
               else let! p := copy_nodes nd nrow coords p in mid_nodes nd coords mid_3d p) in
  let! dj := calc_jacobian zdet p [0; 0; 0] in
  if Rleb (fst dj) 0 then Err "the determinant of the Jacobian is non-positive at the center of the block" else
  let ndiv := 2%nat in
  let del_ksi := NAT_LENGTH / INR ndiv in
  Ok (mkBlock MARKER nd (repeat ndiv nd) (repeat (repeat del_ksi ndiv) nd) [] [] [] [] (snd dj)
        (mkRing 0 (PI / 2) 1 2 0 1) false).

(* block.rs:380-383 *)
Definition set_marker (b : block) (v : Z) : block := with_marker b v.

(* block.rs:393-407; the block after the call is returned also when the call fails *)
Definition set_ndiv (b : block) (ndiv : list nat) : res unit * block :=
  if negb (List.length ndiv =? b_ndim b)%nat then (Err "ndiv.len() must be equal to ndim", b) else
  fold_left (fun (st : res unit * block) i =>
      match fst st with
      | Ok tt =>
          let b := snd st in
          match get ndiv i with
          | Ok n =>
              if (n <? 1)%nat then (Err "ndiv must be >= 1", b) else
              match set (b_ndiv b) i n, set (b_delta b) i (repeat (1 * NAT_LENGTH / INR n) n) with
              | Ok l, Ok d => (Ok tt, with_div b l d)
              | _, _ => (Panic, b)
              end
          | _ => (Panic, b)
          end
      | _ => st
      end) (seq 0 (b_ndim b)) (Ok tt, b).

Definition sum_w (w : list R) : R := fold_left Rplus w 0.
Definition scaled (w : list R) : list R := map (fun v => v * NAT_LENGTH / sum_w w) w.

(* block.rs:417-442 *)
Definition set_div_weights_2d (b : block) (wx wy : list R) : res unit * block :=
  if negb (b_ndim b =? 2)%nat then (Err "this method works only for 2D blocks", b) else
  if (List.length wx <? 1)%nat then (Err "the length of the wx array must be >= 1", b) else
  if (List.length wy <? 1)%nat then (Err "the length of the wy array must be >= 1", b) else
  if Rltb (sum_w wx) 1 then (Err "the sum of wx must be >= 1.0", b) else
  if Rltb (sum_w wy) 1 then (Err "the sum of wy must be >= 1.0", b) else
  match set (b_ndiv b) 0 (List.length wx), set (b_delta b) 0 (scaled wx) with
  | Ok n0, Ok d0 =>
      match set n0 1 (List.length wy), set d0 1 (scaled wy) with
      | Ok n, Ok d => (Ok tt, with_div b n d)
      | _, _ => (Panic, b)
      end
  | _, _ => (Panic, b)
  end.

(* block.rs:453-483 *)
Definition set_div_weights_3d (b : block) (wx wy wz : list R) : res unit * block :=
  if negb (b_ndim b =? 3)%nat then (Err "this method works only for 3D blocks", b) else
  if (List.length wx <? 1)%nat then (Err "the length of the wx array must be >= 1", b) else
  if (List.length wy <? 1)%nat then (Err "the length of the wy array must be >= 1", b) else
  if (List.length wz <? 1)%nat then (Err "the length of the wz array must be >= 1", b) else
  if Rltb (sum_w wx) 1 then (Err "the sum of wx must be >= 1.0", b) else
  if Rltb (sum_w wy) 1 then (Err "the sum of wy must be >= 1.0", b) else
  if Rltb (sum_w wz) 1 then (Err "the sum of wz must be >= 1.0", b) else
  match set (b_ndiv b) 0 (List.length wx), set (b_delta b) 0 (scaled wx) with
  | Ok n0, Ok d0 =>
      match set n0 1 (List.length wy), set d0 1 (scaled wy) with
      | Ok n1, Ok d1 =>
          match set n1 2 (List.length wz), set d1 2 (scaled wz) with
          | Ok n, Ok d => (Ok tt, with_div b n d)
          | _, _ => (Panic, b)
          end
      | _, _ => (Panic, b)
      end
  | _, _ => (Panic, b)
  end.

(* block.rs:502-518 *)
Definition set_edge_constraint (b : block) (e : nat) (v : option constraint2d) : res unit * block :=
  if negb (b_ndim b =? 2)%nat then (Err "set_edge_constraint requires ndim = 2", b) else
  if (3 <? e)%nat then (Err "edge index must be < 4 (nedge)", b) else
  (Ok tt, with_ec b (match v with Some c => mput Nat.eqb (b_ec b) e c | None => mdel (b_ec b) e end)).

(* block.rs:536-552 *)
Definition set_face_constraint (b : block) (f : nat) (v : option constraint3d) : res unit * block :=
  if negb (b_ndim b =? 3)%nat then (Err "set_face_constraint requires ndim = 3", b) else
  if (5 <? f)%nat then (Err "face index must be < 6 (nface)", b) else
  (Ok tt, with_fc b (match v with Some c => mput Nat.eqb (b_fc b) f c | None => mdel (b_fc b) f end)).

(* block.rs:560-572 *)
Definition set_edge_marker (b : block) (e : nat) (v : Z) : res unit * block :=
  if (b_ndim b =? 2)%nat && (3 <? e)%nat then (Err "edge index must be < 4 (nedge) in 2D", b) else
  if negb (b_ndim b =? 2)%nat && (11 <? e)%nat then (Err "edge index must be < 12 (nedge) in 3D", b) else
  (Ok tt, with_em b (mput Nat.eqb (b_em b) e v)).

(* block.rs:580-589 *)
Definition set_face_marker (b : block) (f : nat) (v : Z) : res unit * block :=
  if negb (b_ndim b =? 3)%nat then (Err "set_face_marker requires ndim = 3", b) else
  if (5 <? f)%nat then (Err "face index must be < 6 (nface)", b) else
  (Ok tt, with_fm b (mput Nat.eqb (b_fm b) f v)).

(* block.rs:629-653 *)
Definition set_transform_into_ring (b : block) (args : option ring) : res unit * block :=
  match args with
  | Some a =>
      if Rleb (amax a) (amin a) then (Err "amax must be greater than amin", b) else
      if Rleb (rmax a) (rmin a) then (Err "rmax must be greater than rmin", b) else
      if Rleb (zmax a) (zmin a) then (Err "zmax must be greater than zmin", b) else
      if Rltb (amin a) 0 || Rltb (PI / 2) (amin a) then
        (Err "amin must be given in radians and must be >= 0 and <= PI/2", b) else
      if Rltb (amax a) 0 || Rltb (PI / 2) (amax a) then
        (Err "amax must be given in radians and must be >= 0 and <= PI/2", b) else
      (Ok tt, with_ring b a true)
  | None => (Ok tt, with_ring b (b_args b) false)
  end.

(* block.rs:1069-1083; x.dim() = ndim *)
Definition map_coords_cylindrical (b : block) (ksi : list R) : res (list R) :=
  if negb (b_ndim b =? List.length ksi)%nat then Panic else
  let a := b_args b in
  let! k0 := get ksi 0 in
  let! k1 := get ksi 1 in
  let r := rmin a + (k0 - -1) * (rmax a - rmin a) / 2 in
  let t := amin a + (k1 - -1) * (amax a - amin a) / 2 in
  if (b_ndim b =? 3)%nat then
    let! k2 := get ksi 2 in
    Ok [r * cos t; r * sin t; zmin a + (k2 - -1) * (zmax a - zmin a) / 2]
  else Ok [r * cos t; r * sin t].

(* block.rs:61, 1091 *)
Definition TOL_DISTANCE : R := / 100000000.
Definition TOL_SIDE : R := / 10000000000000.

(* the pattern of the four branches: coordinates p and q of x are moved towards the circle of radius
   r around (pc, qc) in their plane *)
Definition to_circle (x : list R) (p q : nat) (pc qc r : R) (msg : string) : res (bool * list R) :=
  let! xp := get x p in
  let! xq := get x q in
  let dp := xp - pc in
  let dq := xq - qc in
  let d := sqrt (dp * dp + dq * dq) in
  if Rleb (Rabs d) TOL_DISTANCE then Err msg else
  let gap := r - d in
  if Rltb 0 (Rabs gap) then
    let! x := set x p (xp + gap * dp / d) in
    let! x := set x q (xq + gap * dq / d) in
    Ok (true, x)
  else Ok (false, x).
(* block.rs:1181-1201 *)
Definition apply_constraint_2d (x : list R) (ct : constraint2d) : res (bool * list R) :=
  match ct with
  | Circle xc yc r => to_circle x 0 1 xc yc r "cannot apply constraint because a point is at the center of the circle"
  end.
(* block.rs:1206-1258 *)
Definition apply_constraint_3d (x : list R) (ct : constraint3d) : res (bool * list R) :=
  match ct with
  | CylinderX yc zc r => to_circle x 1 2 yc zc r "cannot apply constraint because a point is at the center of the cylinder-x"
  | CylinderY xc zc r => to_circle x 0 2 xc zc r "cannot apply constraint because a point is at the center of the cylinder-y"
  | CylinderZ xc yc r => to_circle x 0 1 xc yc r "cannot apply constraint because a point is at the center of the cylinder-z"
  end.

(* block.rs:1092-1175: (direction, value of the reference coordinate, side), in the order of the ifs *)
Definition side_tests (nd : nat) : list (nat * R * nat) :=
  if (nd =? 2)%nat then [(1%nat, -1, 0%nat); (0%nat, 1, 1%nat); (1%nat, 1, 2%nat); (0%nat, -1, 3%nat)]
  else [(0%nat, -1, 0%nat); (0%nat, 1, 1%nat); (1%nat, -1, 2%nat); (1%nat, 1, 3%nat); (2%nat, -1, 4%nat); (2%nat, 1, 5%nat)].
Definition apply_side (b : block) (x : list R) (side : nat) : res (bool * list R) :=
  if (b_ndim b =? 2)%nat then
    match mget Nat.eqb (b_ec b) side with Some ct => apply_constraint_2d x ct | None => Ok (false, x) end
  else
    match mget Nat.eqb (b_fc b) side with Some ct => apply_constraint_3d x ct | None => Ok (false, x) end.
(* block.rs:1090-1176; the side where a constraint moved the point, and the point *)
Definition handle_constraints (b : block) (x ksi : list R) : res (option nat * list R) :=
  foldM (fun (st : option nat * list R) (t : nat * R * nat) =>
      match fst st with
      | Some _ => Ok st
      | None =>
          let '(axis, v, side) := t in
          let! k := get ksi axis in
          if Rltb (Rabs (v - k)) TOL_SIDE then
            let! r := apply_side b (snd st) side in
            if fst r then Ok (Some side, snd r) else Ok (None, snd r)
          else Ok st
      end) (side_tests (b_ndim b)) (None, x).

Definition has_constraints (b : block) : bool :=
  negb (List.length (b_ec b) =? 0)%nat || negb (List.length (b_fc b) =? 0)%nat.

(* the state of the loops of subdivide *)
Record sub := mkSub {
  s_grid : grid;
  s_points : list (point R);
  s_cells : list cell;
  s_me : list (Z * nat * nat);
  s_mf : list (Z * nat * nat * nat * option nat);
  s_con : list (nat * nat) }.
Definition s_mesh (b : block) (st : sub) : mesh R :=
  mkMesh (b_ndim b) (s_points st) (s_cells st) (s_me st) (s_mf st).
Definition with_points (st : sub) (p : list (point R)) : sub :=
  mkSub (s_grid st) p (s_cells st) (s_me st) (s_mf st) (s_con st).

(* block.rs:773-784: the real coordinates of a new point and the side that moved it *)
Definition place (b : block) (ksi : list R) : res (option nat * list R) :=
  if b_ring b then let! x := map_coords_cylindrical b ksi in Ok (None, x)
  else
    let! xp := pad_coords (b_pad b) (b_ndim b) ksi in
    if has_constraints b then handle_constraints b (fst xp) ksi else Ok (None, fst xp).

(* block.rs:749-797: node m of the new cell *)
Definition add_node (b : block) (target : geokind) (center scale : list R) (st : sub * list nat) (m : nat)
    : res (sub * list nat) :=
  let ref := ref_coords target m in
  let! ksi := foldM (fun (ksi : list R) a =>
      let! c := get center a in let! s := get scale a in let! r := get ref a in
      set ksi a (c + s * r)) (seq 0 (b_ndim b)) (repeat 0 (b_ndim b)) in
  let s := fst st in
  let! found := grid_search sh (s_grid s) ksi in
  match found with
  | Some id => let! pts := set (snd st) m id in Ok (s, pts)
  | None =>
      let id := List.length (s_points s) in
      let! g := grid_insert (s_grid s) id ksi in
      let! sx := place b ksi in
      let con := match fst sx with Some side => mput Nat.eqb (s_con s) id side | None => s_con s end in
      let! pts := set (snd st) m id in
      Ok (mkSub g (s_points s ++ [mkPoint id 0%Z (snd sx)]) (s_cells s) (s_me s) (s_mf s) con, pts)
  end.

(* mesh.points[p].coords[dim] = x[dim] for dim in 0..ndim *)
Definition move_point (nd : nat) (pts : list (point R)) (p : nat) (x : list R) : res (list (point R)) :=
  let! pt := get pts p in
  let! c := copy_coords nd x (pt_coords pt) in
  set pts p (mkPoint (pt_id pt) (pt_marker pt) c).

(* points[target.edge_node_id(e, idx)] *)
Definition edge_point (target : geokind) (pts : list nat) (e i : nat) : res nat := get pts (edge_node_id target e i).

(* block.rs:820-828: the edge lies on the side *)
Definition on_side (nd e side : nat) : res bool :=
  if (nd =? 2)%nat then Ok (e =? side)%nat
  else
    let! ff := get hex_edge_to_face e in
    let! f0 := get ff 0 in let! f1 := get ff 1 in
    Ok ((f0 =? side)%nat || (f1 =? side)%nat).

(* block.rs:818-858: one edge of the new cell and one constrained point *)
Definition fix_edge (b : block) (target edge_kind : geokind) (pts : list nat) (pid side : nat) (st : sub) (e : nat) : res sub :=
  let! skip := on_side (b_ndim b) e side in
  if skip then Ok st else
  let! ids := mapM (edge_point target pts e) (seq 0 (kind_edge_nnode target)) in
  if negb (existsb (Nat.eqb pid) ids) then Ok st else
  let! lin := pad_new (b_ndim b) Lin2 in
  let! p0 := edge_point target pts e 0 in
  let! p1 := edge_point target pts e 1 in
  let! lin := mesh_set_pad (s_mesh b st) lin [p0; p1] in
  foldM (fun (st : sub) idx =>
      let! p := edge_point target pts e idx in
      let! xp := pad_coords lin (b_ndim b) (ref_coords edge_kind idx) in
      let! l := move_point (b_ndim b) (s_points st) p (fst xp) in
      Ok (with_points st l)) (seq 2 (kind_edge_nnode target - 2)) st.

(* block.rs:687-697: Some only if there are constraints, which is the case where it is used *)
Definition serendipity (target : geokind) : option geokind :=
  match target with Qua9 => Some Qua8 | Qua16 => Some Qua12 | Qua17 => Some Qua8 | _ => None end.
(* block.rs:864-879 *)
Definition fix_interior (b : block) (target : geokind) (pts : list nat) (st : sub) : res sub :=
  if (kind_n_interior_nodes target =? 0)%nat then Ok st else
  match serendipity target with
  | None => Ok st
  | Some ser =>
      let nn := kind_nnode ser in
      if (List.length pts <? nn)%nat then Panic else
      let! p := pad_new (b_ndim b) ser in
      let! p := mesh_set_pad (s_mesh b st) p (firstn nn pts) in
      foldM (fun (st : sub) idx =>
          let m := interior_node target idx in
          let! xp := pad_coords p (b_ndim b) (ref_coords target m) in
          let! q := get pts m in
          let! l := move_point (b_ndim b) (s_points st) q (fst xp) in
          Ok (with_points st l)) (seq 0 (kind_n_interior_nodes target)) st
  end.
(* block.rs:813-880 *)
Definition fix_nodes (b : block) (target edge_kind : geokind) (pts : list nat) (st : sub) : res sub :=
  if has_constraints b && (2 <? kind_edge_nnode target)%nat then
    let! st := foldM (fun (st : sub) (ps : nat * nat) =>
        foldM (fix_edge b target edge_kind pts (fst ps) (snd ps)) (seq 0 (kind_nedge target)) st)
      (shc (s_con st)) st in
    fix_interior b target pts st
  else Ok st.

(* block.rs:884-887, 919-924, 983-988: does the cell touch the sides x-, x+, y-, y+, z-, z+ *)
Record touch := mkTouch { xm : bool; xp : bool; ym : bool; yp : bool; zm : bool; zp : bool }.
Definition touches (nx ny nz i j k : nat) : touch :=
  mkTouch (i =? 0)%nat (i =? nx - 1)%nat (j =? 0)%nat (j =? ny - 1)%nat (k =? 0)%nat (k =? nz - 1)%nat.
(* block.rs:898-904 *)
Definition edge_on_2d (t : touch) (e : nat) : bool :=
  match e with 0 => ym t | 1 => xp t | 2 => yp t | 3 => xm t | _ => false end%nat.
(* block.rs:951-969 *)
Definition edge_on_3d (t : touch) (e : nat) : bool :=
  match e with
  | 0 => ym t && zm t | 1 => xp t && zm t | 2 => yp t && zm t | 3 => xm t && zm t
  | 4 => ym t && zp t | 5 => xp t && zp t | 6 => yp t && zp t | 7 => xm t && zp t
  | 8 => xm t && ym t | 9 => xp t && ym t | 10 => xp t && yp t | 11 => xm t && yp t
  | _ => false
  end%nat.
(* block.rs:1014-1022 *)
Definition face_on (t : touch) (f : nat) : bool :=
  match f with 0 => xm t | 1 => xp t | 2 => ym t | 3 => yp t | 4 => zm t | 5 => zp t | _ => false end%nat.

(* block.rs:883-979; the guard "this is a boundary cell" is implied by the conditions of each edge *)
Definition mark_edges (b : block) (target : geokind) (t : touch) (pts : list nat) (me : list (Z * nat * nat))
    : res (list (Z * nat * nat)) :=
  if (List.length (b_em b) =? 0)%nat then Ok me else
  foldM (fun (me : list (Z * nat * nat)) e =>
      if (if (b_ndim b =? 2)%nat then edge_on_2d t e else edge_on_3d t e) then
        match mget Nat.eqb (b_em b) e with
        | None => Ok me
        | Some marker =>
            let! p1 := edge_point target pts e 0 in
            let! p2 := edge_point target pts e 1 in
            let key := sort2 (p1, p2) in
            Ok (me ++ [(marker, fst key, snd key)])
        end
      else Ok me) (seq 0 (if (b_ndim b =? 2)%nat then 4 else 12)) me.

(* block.rs:982-1038 *)
Definition face_point (target : geokind) (pts : list nat) (f i : nat) : res nat := get pts (face_node_id target f i).
Definition mark_faces (b : block) (target : geokind) (t : touch) (pts : list nat)
    (mf : list (Z * nat * nat * nat * option nat)) : res (list (Z * nat * nat * nat * option nat)) :=
  if (List.length (b_fm b) =? 0)%nat then Ok mf else
  foldM (fun (mf : list (Z * nat * nat * nat * option nat)) f =>
      if face_on t f then
        match mget Nat.eqb (b_fm b) f with
        | None => Ok mf
        | Some marker =>
            let! p1 := face_point target pts f 0 in
            let! p2 := face_point target pts f 1 in
            let! p3 := face_point target pts f 2 in
            let! p4 := face_point target pts f 3 in
            match sort4 [p1; p2; p3; p4] with
            | [a; b; c; d] => Ok (mf ++ [(marker, a, b, c, Some d)])
            | _ => Panic
            end
        end
      else Ok mf) (seq 0 6) mf.

(* block.rs:745-1047: the cell (i, j, k) *)
Definition add_cell (b : block) (target edge_kind : geokind) (t : touch) (center scale : list R) (st : sub) : res sub :=
  let cell_id := List.length (s_cells st) in
  let! sp := foldM (add_node b target center scale) (seq 0 (kind_nnode target)) (st, repeat 0%nat (kind_nnode target)) in
  let pts := snd sp in
  let! st := fix_nodes b target edge_kind pts (fst sp) in
  let! me := mark_edges b target t pts (s_me st) in
  let! mf := mark_faces b target t pts (s_mf st) in
  Ok (mkSub (s_grid st) (s_points st) (s_cells st ++ [mkCell cell_id (b_marker b) target pts]) me mf (s_con st)).

(* self.delta_ksi[a][i] *)
Definition delta_at (b : block) (a i : nat) : res R := at2 (b_delta b) a i.
(* block.rs:728, 736, 741: centre of the first cell *)
Definition first_center (b : block) (a : nat) : res R := let! d := delta_at b a 0 in Ok (-1 + d / 2).
(* block.rs:1050-1053, 1057-1060, 1066-1069: centre of the next cell *)
Definition next_center (b : block) (a n i : nat) (c : R) : res R :=
  if (i + 1 <? n)%nat then
    let! d := delta_at b a i in let! d' := delta_at b a (i + 1) in Ok (c + (d + d') / 2)
  else Ok c.

(* block.rs:661-1065 *)
Definition subdivide (b : block) (target : geokind) : res (mesh R) :=
  let nd := b_ndim b in
  let is_class c := match kind_class target, c with CQua, CQua => true | CHex, CHex => true | _, _ => false end in
  if (nd =? 2)%nat && negb (is_class CQua) then Err "in 2D, the GeoClass of target must be Qua" else
  if negb (nd =? 2)%nat && negb (is_class CHex) then Err "in 3D, the GeoClass of target must be Hex" else
  let! g := grid_new (repeat (-1) nd) (repeat 1 nd) None None None in
  let! _ := pad_new nd Lin2 in
  match kind_edge_kind target with
  | None => Panic
  | Some edge_kind =>
      let! nx := get (b_ndiv b) 0 in
      let! ny := get (b_ndiv b) 1 in
      let! nz := (if (nd =? 2)%nat then Ok 1%nat else get (b_ndiv b) 2) in
      let! cz := (if (nd =? 3)%nat then first_center b 2 else Ok 0) in
      let! r := foldM (fun (st : sub * R) k =>
          let cz := snd st in
          let! sz := (if (nd =? 3)%nat then let! d := delta_at b 2 k in Ok (d / NAT_LENGTH) else Ok 0) in
          let! cy := first_center b 1 in
          let! r := foldM (fun (st : sub * R) j =>
              let cy := snd st in
              let! dy := delta_at b 1 j in
              let sy := dy / NAT_LENGTH in
              let! cx := first_center b 0 in
              let! r := foldM (fun (st : sub * R) i =>
                  let cx := snd st in
                  let! dx := delta_at b 0 i in
                  let sx := dx / NAT_LENGTH in
                  let! s := add_cell b target edge_kind (touches nx ny nz i j k)
                              (firstn nd [cx; cy; cz]) (firstn nd [sx; sy; sz]) (fst st) in
                  let! cx := next_center b 0 nx i cx in
                  Ok (s, cx)) (seq 0 nx) (fst st, cx) in
              let! cy := next_center b 1 ny j cy in
              Ok (fst r, cy)) (seq 0 ny) (fst st, cy) in
          let! cz := (if (nd =? 3)%nat then next_center b 2 nz k cz else Ok cz) in
          Ok (fst r, cz)) (seq 0 nz) (mkSub g [] [] [] [] [], cz) in
      Ok (s_mesh b (fst r))
  end.
End Block.
