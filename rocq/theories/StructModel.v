(* Model of the structured generators of /repo/src/mesh/generators_qua_hex.rs, with /repo/src/mesh/blocks2d.rs and blocks3d.rs. *)
From Coq Require Import String List Arith Bool ZArith Reals.
From Verif Require Import Base Kind MeshModel TopoModel GeomModel GridModel SearchModel JoinModel PadModel BlockModel GraphModel.
Import ListNotations.
Local Open Scope list_scope.
Local Open Scope R_scope.

(* blocks2d.rs:11-56 *)
Record blocks2d := mkBlocks2d {
  k2_points : list (R * R);
  k2_regions : list (Z * nat * nat * nat * nat);
  k2_weights : list (list R * list R);
  k2_constraints : list (option (nat * constraint2d));
  k2_medges : list (Z * nat * nat) }.
(* blocks3d.rs:11-63 *)
Record blocks3d := mkBlocks3d {
  k3_points : list (R * R * R);
  k3_regions : list (Z * (nat * nat * nat * nat) * (nat * nat * nat * nat));
  k3_weights : list (list R * list R * list R);
  k3_constraints : list (option (nat * constraint3d));
  k3_medges : list (Z * nat * nat);
  k3_mfaces : list (Z * nat * nat * nat * nat) }.

(* a setter followed by the question mark *)
Definition call (rb : res unit * block) : res block := let! _ := fst rb in Ok (snd rb).

(* generators_qua_hex.rs:20-25, 94-98: later entries replace earlier ones *)
Definition edges_to_mark (l : list (Z * nat * nat)) : list (ekey * Z) :=
  fold_left (fun mm q => mput ekey_eqb mm (sort2 (snd (fst q), snd q)) (fst (fst q))) l [].
(* generators_qua_hex.rs:99-103 *)
Definition faces_to_mark (l : list (Z * nat * nat * nat * nat)) : list (fkey * Z) :=
  fold_left (fun mm (q : Z * nat * nat * nat * nat) =>
    let '(mk, p1, p2, p3, p4) := q in mput fkey_eqb mm (sort4 [p1; p2; p3; p4]) mk) l [].

(* generators_qua_hex.rs:58-69 (kind = Qua4, n = 4) and 152-163 (kind = Hex8, n = 12) *)
Definition mark_block_edges (kind : geokind) (n : nat) (pp : list nat) (mm : list (ekey * Z)) (b : block) : res block :=
  match mm with
  | [] => Ok b
  | _ => foldM (fun (b : block) e =>
      let! p := get pp (edge_node_id kind e 0) in
      let! q := get pp (edge_node_id kind e 1) in
      match mget ekey_eqb mm (sort2 (p, q)) with
      | Some mk => call (set_edge_marker b e mk)
      | None => Ok b
      end) (seq 0 n) b
  end.
(* generators_qua_hex.rs:166-179 *)
Definition mark_block_faces (pp : list nat) (mm : list (fkey * Z)) (b : block) : res block :=
  match mm with
  | [] => Ok b
  | _ => foldM (fun (b : block) f =>
      let! ps := mapM (fun i => get pp (face_node_id Hex8 f i)) (seq 0 4) in
      match mget fkey_eqb mm (sort4 ps) with
      | Some mk => call (set_face_marker b f mk)
      | None => Ok b
      end) (seq 0 6) b
  end.

Section Struct.
Variable zdet : R.                                    (* see PadModel *)
Variable shp : list nat -> list nat.                  (* iteration orders: see JoinModel and BlockModel *)
Variable shuffle : emap -> emap.
Variable sh : container -> container.
Variable shc : list (nat * nat) -> list (nat * nat).

(* generators_qua_hex.rs:30-69: the block of region i *)
Definition block_2d (bl : blocks2d) (i : nat) : res block :=
  let! r := get (k2_regions bl) i in
  let '(att, p0, p1, p2, p3) := r in
  let pp := [p0; p1; p2; p3] in
  let! cs := mapM (fun p => let! c := get (k2_points bl) p in Ok [fst c; snd c]) pp in
  let! b := block_new zdet 2 cs in
  let b := set_marker b att in
  let! w := get (k2_weights bl) i in
  let! b := (if (0 <? List.length (fst w))%nat && (0 <? List.length (snd w))%nat
             then call (set_div_weights_2d b (fst w) (snd w)) else Ok b) in
  let! c := get (k2_constraints bl) i in
  let! b := (match c with Some c => call (set_edge_constraint b (fst c) (Some (snd c))) | None => Ok b end) in
  mark_block_edges Qua4 4 pp (edges_to_mark (k2_medges bl)) b.

(* generators_qua_hex.rs:107-179 *)
Definition block_3d (bl : blocks3d) (i : nat) : res block :=
  let! r := get (k3_regions bl) i in
  let '(att, (p0, p1, p2, p3), (p4, p5, p6, p7)) := r in
  let pp := [p0; p1; p2; p3; p4; p5; p6; p7] in
  let! cs := mapM (fun p => let! c := get (k3_points bl) p in Ok [fst (fst c); snd (fst c); snd c]) pp in
  let! b := block_new zdet 3 cs in
  let b := set_marker b att in
  let! w := get (k3_weights bl) i in
  let '(wx, wy, wz) := w in
  let! b := (if (0 <? List.length wx)%nat && (0 <? List.length wy)%nat && (0 <? List.length wz)%nat
             then call (set_div_weights_3d b wx wy wz) else Ok b) in
  let! c := get (k3_constraints bl) i in
  let! b := (match c with Some c => call (set_face_constraint b (fst c) (Some (snd c))) | None => Ok b end) in
  let! b := mark_block_edges Hex8 12 pp (edges_to_mark (k3_medges bl)) b in
  mark_block_faces pp (faces_to_mark (k3_mfaces bl)) b.

(* if renumber { GraphUnd::renumber_mesh(&mut mesh, false)?; } *)
Definition maybe_renumber (renumber : bool) (m : mesh R) : res (mesh R) :=
  if renumber then renumber_mesh m false else Ok m.

(* generators_qua_hex.rs:14-83 *)
Definition from_blocks_2d (bl : blocks2d) (target : geokind) (renumber : bool) : res (mesh R) :=
  let! ms := mapM (fun i => let! b := block_2d bl i in subdivide sh shc b target) (seq 0 (List.length (k2_regions bl))) in
  let! m := join_meshes shp shuffle sh ms in
  maybe_renumber renumber m.
(* generators_qua_hex.rs:86-193 *)
Definition from_blocks_3d (bl : blocks3d) (target : geokind) (renumber : bool) : res (mesh R) :=
  let! ms := mapM (fun i => let! b := block_3d bl i in subdivide sh shc b target) (seq 0 (List.length (k3_regions bl))) in
  let! m := join_meshes shp shuffle sh ms in
  maybe_renumber renumber m.

(* block.rs:329-336, 344-355 *)
Definition new_square (l : R) : res block := or_panic (block_new zdet 2 [[0; 0]; [l; 0]; [l; l]; [0; l]]).
Definition new_cube (l : R) : res block :=
  or_panic (block_new zdet 3 [[0; 0; 0]; [l; 0; 0]; [l; l; 0]; [0; l; 0]; [0; 0; l]; [l; 0; l]; [l; l; l]; [0; l; l]]).

(* generators_qua_hex.rs:223-257 *)
Definition quarter_ring_2d (rmin rmax : R) (wr : list R) (na : nat) (target : geokind) (renumber : bool) : res (mesh R) :=
  if (List.length wr <? 1)%nat then Err "the length of wr must be >= 1" else
  if Rltb (fold_left Rplus wr 0) 1 then Err "the sum of wr must be >= 1.0" else
  if (na <? 1)%nat then Err "na must be >= 1" else
  let! b := new_square 1 in
  let! b := or_panic (call (set_div_weights_2d b wr (repeat 1 na))) in
  let! b := call (set_transform_into_ring b (Some (mkRing 0 (PI / 2) rmin rmax 0 1))) in
  let! m := subdivide sh shc b target in
  maybe_renumber renumber m.
(* generators_qua_hex.rs:289-329 *)
Definition quarter_ring_3d (rmin rmax z : R) (wr : list R) (na nz : nat) (target : geokind) (renumber : bool) : res (mesh R) :=
  if (List.length wr <? 1)%nat then Err "the length of wr must be >= 1" else
  if Rltb (fold_left Rplus wr 0) 1 then Err "the sum of wr must be >= 1.0" else
  if (na <? 1)%nat then Err "na must be >= 1" else
  if (nz <? 1)%nat then Err "nz must be >= 1" else
  let! b := new_cube 1 in
  let! b := or_panic (call (set_div_weights_3d b wr (repeat 1 na) (repeat 1 nz))) in
  let! b := call (set_transform_into_ring b (Some (mkRing 0 (PI / 2) rmin rmax 0 z))) in
  let! m := subdivide sh shc b target in
  maybe_renumber renumber m.

(* generators_qua_hex.rs:1105-1110, 1121-1123: a block with divisions and marker; the two blocks of a layer are made
   and set up alternately in the code, all these calls being unwrapped *)
Definition rect_block (x0 x1 y0 y1 : R) (n m : nat) (mk : Z) : res block :=
  let! b := or_panic (block_new zdet 2 [[x0; y0]; [x1; y0]; [x1; y1]; [x0; y1]]) in
  let! b := or_panic (call (set_ndiv b [n; m])) in
  Ok (set_marker b mk).

(* generators_qua_hex.rs:1101-1113 and 1117-1129: one layer; the state is (meshes, ya) *)
Definition rect_layer (xa : R) (xb : option R) (xc : R) (na nb : nat) (y : list R) (ny : list nat) (markers : list Z) (target : geokind)
    (st : list (mesh R) * R) (l : nat) : res (list (mesh R) * R) :=
  let ya := snd st in
  let! yb := get y (l + 1) in
  if Rleb yb ya then Err "y values must be sorted ascending" else
  let! n := get ny l in
  let! mk := get markers l in
  match xb with
  | Some xb =>
      let! ba := rect_block xa xb ya yb na n mk in
      let! bb := rect_block xb xc ya yb nb n mk in
      let! ma := subdivide sh shc ba target in
      let! mb := or_panic (subdivide sh shc bb target) in
      Ok (fst st ++ [ma; mb], yb)
  | None =>
      let! b := rect_block xa xc ya yb na n mk in
      let! m := subdivide sh shc b target in
      Ok (fst st ++ [m], yb)
  end.

(* generators_qua_hex.rs:1064-1137; with one layer and no xb the loop returns its mesh in the first and only round *)
Definition rectangle (xa : R) (xb : option R) (xc : R) (na nb : nat) (y : list R) (ny : list nat) (markers : list Z)
    (target : geokind) (renumber : bool) : res (mesh R) :=
  if Rleb xc xa then Err "xc must be > xa" else
  if match xb with Some xb => Rleb xb xa || Rleb xc xb | None => false end then Err "xb must satisfy: xa < xb < xc" else
  if (na <? 1)%nat || (nb <? 1)%nat then Err "na and nb must be > 0" else
  if (List.length y <? 2)%nat then Err "y.len() must be >= 2" else
  let n_layer := (List.length y - 1)%nat in
  if negb (List.length ny =? n_layer)%nat then Err "ny.len() must be equal to n_layer = y.len() - 1" else
  if negb (List.length markers =? n_layer)%nat then Err "markers.len() must be equal to n_layer = y.len() - 1" else
  let! y0 := get y 0 in
  let! st := foldM (rect_layer xa xb xc na nb y ny markers target) (seq 0 n_layer) ([], y0) in
  match xb, fst st with
  | None, [m] => Ok m
  | _, ms =>
      let! m := join_meshes shp shuffle sh ms in
      maybe_renumber renumber m
  end.
End Struct.
