(* Model of the quarter disks and plates with a hole of /repo/src/mesh/generators_qua_hex.rs. *)
From Coq Require Import String List Arith Bool ZArith Reals.
From Verif Require Import Base Kind MeshModel TopoModel GeomModel GridModel SearchModel JoinModel PadModel BlockModel GraphModel StructModel.
Import ListNotations.
Local Open Scope list_scope.
Local Open Scope R_scope.

(* constants of russell_lab::math (see DESIGN.md) *)
Definition SQRT_2 : R := sqrt 2.
Definition ONE_BY_SQRT_2 : R := / sqrt 2.
Definition SIN_PI_BY_8 : R := sin (PI / 8).
Definition COS_PI_BY_8 : R := cos (PI / 8).
Definition COS_PI_BY_4 : R := ONE_BY_SQRT_2.

Section Disk.
Variable zdet : R.                                    (* see PadModel *)
Variable shp : list nat -> list nat.                  (* iteration orders: see JoinModel and BlockModel *)
Variable shuffle : emap -> emap.
Variable sh : container -> container.
Variable shc : list (nat * nat) -> list (nat * nat).

(* the common end of all these functions: generators_qua_hex.rs:373-380, 474-481, 566-573, 708-715, 833-841, 1012-1020 *)
Definition mesh_blocks (bs : list block) (target : geokind) (renumber : bool) : res (mesh R) :=
  let! ms := mapM (fun b => subdivide sh shc b target) bs in
  let! m := join_meshes shp shuffle sh ms in
  maybe_renumber renumber m.

(* generators_qua_hex.rs:360-381 *)
Definition quarter_disk_2d_a (r : R) (na nb : nat) (target : geokind) (renumber : bool) : res (mesh R) :=
  let m := r / 2 in
  let n := r / SQRT_2 in
  let p := 115 / 100 * m / SQRT_2 in
  let! b1 := block_new zdet 2 [[0; 0]; [m; 0]; [p; p]; [0; m]] in
  let! b2 := block_new zdet 2 [[m; 0]; [r; 0]; [n; n]; [p; p]] in
  let! b3 := block_new zdet 2 [[0; m]; [p; p]; [n; n]; [0; r]] in
  let! b1 := call (set_ndiv b1 [na; na]) in
  let! b2 := call (set_ndiv b2 [nb; na]) in
  let! b3 := call (set_ndiv b3 [na; nb]) in
  let! b2 := call (set_edge_constraint b2 1 (Some (Circle 0 0 r))) in
  let! b3 := call (set_edge_constraint b3 2 (Some (Circle 0 0 r))) in
  mesh_blocks [b1; b2; b3] target renumber.

(* generators_qua_hex.rs:413-482 *)
Definition quarter_disk_2d_b (a r : R) (na nb : nat) (target : geokind) (renumber : bool) : res (mesh R) :=
  if Rleb r a then Err "'a' must be smaller than 'r'" else
  let b := r - a in
  let c1 := a * SIN_PI_BY_8 in
  let c2 := a * COS_PI_BY_4 in
  let c3 := a * COS_PI_BY_8 in
  let d1 := r * SIN_PI_BY_8 in
  let d2 := r * COS_PI_BY_4 in
  let d3 := r * COS_PI_BY_8 in
  let m := a / 2 in
  let n := a + b / 2 in
  let e := n * COS_PI_BY_4 in
  let! b1 := block_new zdet 2 [[0; 0]; [a; 0]; [c2; c2]; [0; a]; [m; 0]; [c3; c1]; [c1; c3]; [0; m]] in
  let! b2 := block_new zdet 2 [[a; 0]; [r; 0]; [d2; d2]; [c2; c2]; [n; 0]; [d3; d1]; [e; e]; [c3; c1]] in
  let! b3 := block_new zdet 2 [[0; a]; [c2; c2]; [d2; d2]; [0; r]; [c1; c3]; [e; e]; [d1; d3]; [0; n]] in
  let! b1 := call (set_ndiv b1 [na; na]) in
  let! b2 := call (set_ndiv b2 [nb; na]) in
  let! b3 := call (set_ndiv b3 [na; nb]) in
  let! b2 := call (set_edge_constraint b2 1 (Some (Circle 0 0 r))) in
  let! b3 := call (set_edge_constraint b3 2 (Some (Circle 0 0 r))) in
  mesh_blocks [b1; b2; b3] target renumber.

(* generators_qua_hex.rs:515-574 *)
Definition quarter_disk_3d_a (r z : R) (na nb nz : nat) (target : geokind) (renumber : bool) : res (mesh R) :=
  let m := r / 2 in
  let n := r / SQRT_2 in
  let p := 115 / 100 * m / SQRT_2 in
  let! b1 := block_new zdet 3 [[0; 0; 0]; [m; 0; 0]; [p; p; 0]; [0; m; 0]; [0; 0; z]; [m; 0; z]; [p; p; z]; [0; m; z]] in
  let! b2 := block_new zdet 3 [[m; 0; 0]; [r; 0; 0]; [n; n; 0]; [p; p; 0]; [m; 0; z]; [r; 0; z]; [n; n; z]; [p; p; z]] in
  let! b3 := block_new zdet 3 [[0; m; 0]; [p; p; 0]; [n; n; 0]; [0; r; 0]; [0; m; z]; [p; p; z]; [n; n; z]; [0; r; z]] in
  let! b1 := call (set_ndiv b1 [na; na; nz]) in
  let! b2 := call (set_ndiv b2 [nb; na; nz]) in
  let! b3 := call (set_ndiv b3 [na; nb; nz]) in
  let! b2 := call (set_face_constraint b2 1 (Some (CylinderZ 0 0 r))) in
  let! b3 := call (set_face_constraint b3 3 (Some (CylinderZ 0 0 r))) in
  mesh_blocks [b1; b2; b3] target renumber.

(* generators_qua_hex.rs:608-716 *)
Definition quarter_disk_3d_b (a r z : R) (na nb nz : nat) (target : geokind) (renumber : bool) : res (mesh R) :=
  if Rleb r a then Err "'a' must be smaller than 'r'" else
  let b := r - a in
  let c1 := a * SIN_PI_BY_8 in
  let c2 := a * COS_PI_BY_4 in
  let c3 := a * COS_PI_BY_8 in
  let d1 := r * SIN_PI_BY_8 in
  let d2 := r * COS_PI_BY_4 in
  let d3 := r * COS_PI_BY_8 in
  let m := a / 2 in
  let n := a + b / 2 in
  let e := n * COS_PI_BY_4 in
  let f := z / 2 in
  let! b1 := block_new zdet 3 [[0; 0; 0]; [a; 0; 0]; [c2; c2; 0]; [0; a; 0]; [0; 0; z]; [a; 0; z]; [c2; c2; z]; [0; a; z]; [m; 0; 0]; [c3; c1; 0]; [c1; c3; 0]; [0; m; 0]; [m; 0; z]; [c3; c1; z]; [c1; c3; z]; [0; m; z]; [0; 0; f]; [a; 0; f]; [c2; c2; f]; [0; a; f]] in
  let! b2 := block_new zdet 3 [[a; 0; 0]; [r; 0; 0]; [d2; d2; 0]; [c2; c2; 0]; [a; 0; z]; [r; 0; z]; [d2; d2; z]; [c2; c2; z]; [n; 0; 0]; [d3; d1; 0]; [e; e; 0]; [c3; c1; 0]; [n; 0; z]; [d3; d1; z]; [e; e; z]; [c3; c1; z]; [a; 0; f]; [r; 0; f]; [d2; d2; f]; [c2; c2; f]] in
  let! b3 := block_new zdet 3 [[0; a; 0]; [c2; c2; 0]; [d2; d2; 0]; [0; r; 0]; [0; a; z]; [c2; c2; z]; [d2; d2; z]; [0; r; z]; [c1; c3; 0]; [e; e; 0]; [d1; d3; 0]; [0; n; 0]; [c1; c3; z]; [e; e; z]; [d1; d3; z]; [0; n; z]; [0; a; f]; [c2; c2; f]; [d2; d2; f]; [0; r; f]] in
  let! b1 := call (set_ndiv b1 [na; na; nz]) in
  let! b2 := call (set_ndiv b2 [nb; na; nz]) in
  let! b3 := call (set_ndiv b3 [na; nb; nz]) in
  let! b2 := call (set_face_constraint b2 1 (Some (CylinderZ 0 0 r))) in
  let! b3 := call (set_face_constraint b3 3 (Some (CylinderZ 0 0 r))) in
  mesh_blocks [b1; b2; b3] target renumber.

(* generators_qua_hex.rs:753-842 *)
Definition quarter_plate_hole_2d (r a b : R) (na nb n45 : nat) (target : geokind) (renumber : bool) : res (mesh R) :=
  let ra := r + a in
  let c1 := r * SIN_PI_BY_8 in
  let c2 := r * COS_PI_BY_4 in
  let c3 := r * COS_PI_BY_8 in
  let d1 := ra * SIN_PI_BY_8 in
  let d2 := ra * COS_PI_BY_4 in
  let d3 := ra * COS_PI_BY_8 in
  let m := r + a / 2 in
  let n := ra + b / 2 in
  let l := ra + b in
  let hl := l / 2 in
  let e := (c2 + d2) / 2 in
  let f := (d2 + l) / 2 in
  let! b1 := block_new zdet 2 [[r; 0]; [ra; 0]; [d2; d2]; [c2; c2]; [m; 0]; [d3; d1]; [e; e]; [c3; c1]] in
  let! b2 := block_new zdet 2 [[c2; c2]; [d2; d2]; [0; ra]; [0; r]; [e; e]; [d1; d3]; [0; m]; [c1; c3]] in
  let! b3 := block_new zdet 2 [[ra; 0]; [l; 0]; [l; l]; [d2; d2]; [n; 0]; [l; hl]; [f; f]; [d3; d1]] in
  let! b4 := block_new zdet 2 [[d2; d2]; [l; l]; [0; l]; [0; ra]; [f; f]; [hl; l]; [0; n]; [d1; d3]] in
  let! b1 := call (set_edge_constraint b1 3 (Some (Circle 0 0 r))) in
  let! b1 := call (set_edge_constraint b1 1 (Some (Circle 0 0 ra))) in
  let! b1 := call (set_ndiv b1 [na; n45]) in
  let! b2 := call (set_edge_constraint b2 3 (Some (Circle 0 0 r))) in
  let! b2 := call (set_edge_constraint b2 1 (Some (Circle 0 0 ra))) in
  let! b2 := call (set_ndiv b2 [na; n45]) in
  let! b3 := call (set_edge_constraint b3 3 (Some (Circle 0 0 ra))) in
  let! b3 := call (set_ndiv b3 [nb; n45]) in
  let! b4 := call (set_edge_constraint b4 3 (Some (Circle 0 0 ra))) in
  let! b4 := call (set_ndiv b4 [nb; n45]) in
  mesh_blocks [b1; b2; b3; b4] target renumber.

(* generators_qua_hex.rs:881-1021 *)
Definition quarter_plate_hole_3d (r a b z : R) (na nb n45 nz : nat) (target : geokind) (renumber : bool) : res (mesh R) :=
  let ra := r + a in
  let c1 := r * SIN_PI_BY_8 in
  let c2 := r * COS_PI_BY_4 in
  let c3 := r * COS_PI_BY_8 in
  let d1 := ra * SIN_PI_BY_8 in
  let d2 := ra * COS_PI_BY_4 in
  let d3 := ra * COS_PI_BY_8 in
  let m := r + a / 2 in
  let n := ra + b / 2 in
  let l := ra + b in
  let hl := l / 2 in
  let e := (c2 + d2) / 2 in
  let f := (d2 + l) / 2 in
  let hz := z / 2 in
  let! b1 := block_new zdet 3 [[r; 0; 0]; [ra; 0; 0]; [d2; d2; 0]; [c2; c2; 0]; [r; 0; z]; [ra; 0; z]; [d2; d2; z]; [c2; c2; z]; [m; 0; 0]; [d3; d1; 0]; [e; e; 0]; [c3; c1; 0]; [m; 0; z]; [d3; d1; z]; [e; e; z]; [c3; c1; z]; [r; 0; hz]; [ra; 0; hz]; [d2; d2; hz]; [c2; c2; hz]] in
  let! b2 := block_new zdet 3 [[c2; c2; 0]; [d2; d2; 0]; [0; ra; 0]; [0; r; 0]; [c2; c2; z]; [d2; d2; z]; [0; ra; z]; [0; r; z]; [e; e; 0]; [d1; d3; 0]; [0; m; 0]; [c1; c3; 0]; [e; e; z]; [d1; d3; z]; [0; m; z]; [c1; c3; z]; [c2; c2; hz]; [d2; d2; hz]; [0; ra; hz]; [0; r; hz]] in
  let! b3 := block_new zdet 3 [[ra; 0; 0]; [l; 0; 0]; [l; l; 0]; [d2; d2; 0]; [ra; 0; z]; [l; 0; z]; [l; l; z]; [d2; d2; z]; [n; 0; 0]; [l; hl; 0]; [f; f; 0]; [d3; d1; 0]; [n; 0; z]; [l; hl; z]; [f; f; z]; [d3; d1; z]; [ra; 0; hz]; [l; 0; hz]; [l; l; hz]; [d2; d2; hz]] in
  let! b4 := block_new zdet 3 [[d2; d2; 0]; [l; l; 0]; [0; l; 0]; [0; ra; 0]; [d2; d2; z]; [l; l; z]; [0; l; z]; [0; ra; z]; [f; f; 0]; [hl; l; 0]; [0; n; 0]; [d1; d3; 0]; [f; f; z]; [hl; l; z]; [0; n; z]; [d1; d3; z]; [d2; d2; hz]; [l; l; hz]; [0; l; hz]; [0; ra; hz]] in
  let! b1 := call (set_face_constraint b1 0 (Some (CylinderZ 0 0 r))) in
  let! b1 := call (set_face_constraint b1 1 (Some (CylinderZ 0 0 ra))) in
  let! b1 := call (set_ndiv b1 [na; n45; nz]) in
  let! b2 := call (set_face_constraint b2 0 (Some (CylinderZ 0 0 r))) in
  let! b2 := call (set_face_constraint b2 1 (Some (CylinderZ 0 0 ra))) in
  let! b2 := call (set_ndiv b2 [na; n45; nz]) in
  let! b3 := call (set_face_constraint b3 0 (Some (CylinderZ 0 0 ra))) in
  let! b3 := call (set_ndiv b3 [nb; n45; nz]) in
  let! b4 := call (set_face_constraint b4 0 (Some (CylinderZ 0 0 ra))) in
  let! b4 := call (set_ndiv b4 [nb; n45; nz]) in
  mesh_blocks [b1; b2; b3; b4] target renumber.

End Disk.
