(* C49: the VTU file. *)
From Coq Require Import String List Arith NArith ZArith QArith Bool Lia.
From Verif Require Import Base Kind MeshModel MeshQuerySpec ShapesModel TextModel TextSpec TextProof2 VtuModel VtuSpec VtuProof.
Import ListNotations.
Local Open Scope string_scope.
Local Open Scope list_scope.
Local Open Scope nat_scope.

(** the contents of the file *)
Theorem C49_contents : forall T fmt_f parse_f (zero : T) (m : mesh T) t,
  ndim m = 2 \/ ndim m = 3 -> coords_complete m -> floats fmt_f parse_f zero m -> markers m -> write_vtu fmt_f m = Ok t ->
  exists f, vtu_text parse_f t f /\
    f_npoint f = List.length (points m) /\ f_ncell f = List.length (cells m) /\
    f_points f = flat_map (fun p => pt_coords p ++ repeat zero (3 - ndim m)) (points m) /\
    List.length (f_points f) = 3 * f_npoint f /\
    f_connectivity f = flat_map c_points (cells m) /\
    List.length (f_offsets f) = f_ncell f /\
    (forall i, i < f_ncell f -> nth_error (f_offsets f) i = Some (list_sum (map (fun c => List.length (c_points c)) (firstn (S i) (cells m))))) /\
    List.length (f_types f) = f_ncell f /\
    (forall i c, nth_error (cells m) i = Some c -> vtu_cell f i = c_points c /\ nth_error (f_types f) i = vtk_type (c_kind c)) /\
    f_point_marker f = map pt_marker (points m) /\ f_cell_marker f = map c_marker (cells m).
Proof.
  intros T fmt parse zero m t D K F M W.
  assert (G : cells m <> [] /\ forall c, In c (cells m) -> vtk_type (c_kind c) <> None).
  { destruct (cells m) as [|c0 cs0] eqn:E.
    - unfold write_vtu in W. rewrite E in W. discriminate.
    - rewrite <- E. split; [congruence|]. intros c Hc V. destruct (write_err fmt m K) as (e & We); [|congruence]. intros (_ & G). exact (G c Hc V). }
  destruct G as (Ne & Ty). destruct (write_ok fmt parse zero m K Ne Ty F M) as (t' & W' & V). rewrite W in W'. injection W' as <-.
  exists (file_of zero m). split; [exact V|]. split; [reflexivity|]. split; [reflexivity|].
  assert (P : flat_map (three zero m) (points m) = flat_map (fun p => pt_coords p ++ repeat zero (3 - ndim m)) (points m)).
  { apply flat_map_ext. intros p. apply three_embedded. auto. }
  split; [exact P|]. split.
  { cbn. rewrite P. clear P. assert (X : forall ps, (forall p, In p ps -> In p (points m)) -> List.length (flat_map (fun p => pt_coords p ++ repeat zero (3 - ndim m)) ps) = 3 * List.length ps).
    { induction ps as [|p ps IH]; intros H; [reflexivity|]. cbn [flat_map List.length]. rewrite app_length, IH by (intros; apply H; right; auto).
      rewrite app_length, (K p (H p (or_introl eq_refl))), repeat_length. lia. }
    rewrite (X (points m) ltac:(auto)). lia. }
  split; [reflexivity|]. split; [cbn; rewrite totals_length, map_length; reflexivity|]. split.
  { cbn. intros i Hi. rewrite totals_nth by (rewrite map_length; lia). rewrite firstn_map. reflexivity. }
  split; [cbn; apply types_length; auto|]. split; [|split; reflexivity].
  intros i c Hi. split; [apply file_cell; auto|apply types_ok; auto].
Qed.
Print Assumptions C49_contents.
(** the writer succeeds iff there are cells and all of them have a VTK type; it returns an error otherwise *)
Theorem C49_succeeds : forall T fmt_f (m : mesh T), coords_complete m ->
  (cells m <> [] /\ (forall c, In c (cells m) -> vtk_type (c_kind c) <> None) <-> exists t, write_vtu fmt_f m = Ok t) /\
  ((exists t, write_vtu fmt_f m = Ok t) \/ exists msg, write_vtu fmt_f m = Err msg).
Proof.
  intros T fmt m K.
  assert (X : (cells m <> [] /\ (forall c, In c (cells m) -> vtk_type (c_kind c) <> None)) -> exists t, write_vtu fmt m = Ok t).
  { intros (Ne & Ty). unfold write_vtu. destruct (Nat.ltb_spec (List.length (cells m)) 1) as [H|_]; [destruct (cells m); simpl in *; [congruence|lia]|].
    rewrite (coords_ok fmt m K). cbn [bind]. rewrite (conn_ok _ Ty). cbn [bind]. eexists. reflexivity. }
  assert (D : (cells m <> [] /\ (forall c, In c (cells m) -> vtk_type (c_kind c) <> None)) \/ ~ (cells m <> [] /\ (forall c, In c (cells m) -> vtk_type (c_kind c) <> None))).
  { destruct (cells m) as [|c0 l]; [right; intros (H & _); congruence|]. destruct (forallb (fun c => match vtk_type (c_kind c) with None => false | _ => true end) (c0 :: l)) eqn:E.
    - left. split; [discriminate|]. rewrite forallb_forall in E. intros c Hc V. specialize (E c Hc). rewrite V in E. discriminate.
    - right. intros (_ & H). assert (Y : forallb (fun c => match vtk_type (c_kind c) with None => false | _ => true end) (c0 :: l) = true); [|congruence].
      apply forallb_forall. intros c Hc. specialize (H c Hc). destruct (vtk_type (c_kind c)); congruence. }
  split.
  - split; [exact X|]. intros (t & W). destruct D as [D|D]; [exact D|]. destruct (write_err fmt m K D) as (e & We). congruence.
  - destruct D as [D|D]; [left; auto|right; apply write_err; auto].
Qed.
Print Assumptions C49_succeeds.
(* the kinds without a VTK type *)
Theorem C49_kinds : forall k, vtk_type k = None <-> In k [Lin5; Tri10; Tri15; Qua12; Qua16; Qua17; Tet20; Hex32].
Proof. intros k. split; [destruct k; intros H; try discriminate H; simpl; tauto|]. intros H. simpl in H. repeat destruct H as [<-|H]; try reflexivity. destruct H. Qed.
Print Assumptions C49_kinds.
(** two meshes with the same file have the same points (plane meshes lie at z = 0), point markers and cells *)
Theorem C49_determines : forall T fmt_f parse_f (zero : T) (m m' : mesh T) t,
  ndim m = 2 \/ ndim m = 3 -> ndim m' = 2 \/ ndim m' = 3 -> coords_complete m -> coords_complete m' ->
  floats fmt_f parse_f zero m -> floats fmt_f parse_f zero m' -> markers m -> markers m' ->
  write_vtu fmt_f m = Ok t -> write_vtu fmt_f m' = Ok t ->
  map (fun p => pt_coords p ++ repeat zero (3 - ndim m)) (points m) = map (fun p => pt_coords p ++ repeat zero (3 - ndim m')) (points m') /\
  map pt_marker (points m) = map pt_marker (points m') /\
  map (fun c => (c_kind c, c_marker c, c_points c)) (cells m) = map (fun c => (c_kind c, c_marker c, c_points c)) (cells m').
Proof.
  intros T fmt parse zero m m' t D D' K K' F F' M M' W W'.
  destruct (proj2 (proj1 (C49_succeeds T fmt m K)) (ex_intro _ t W)) as (Ne & Ty). destruct (proj2 (proj1 (C49_succeeds T fmt m' K')) (ex_intro _ t W')) as (Ne' & Ty').
  destruct (write_ok fmt parse zero m K Ne Ty F M) as (u & U & V). destruct (write_ok fmt parse zero m' K' Ne' Ty' F' M') as (u' & U' & V').
  apply (file_determines zero m m'); auto. apply (vtu_text_fun parse t); congruence.
Qed.
Print Assumptions C49_determines.
(** the nodes of the cells are in the order of VTK *)
Theorem C49_node_order : forall k ty, vtk_type k = Some ty -> exists nodes, vtk_nodes ty = Some nodes /\ List.length nodes = kind_nnode k /\
  forall a i, a < kind_nnode k -> i < kind_ndim k -> (nth i (nth a nodes []) 0 == vtk_coordinate k ty (nth i (reference_coords k a) 0))%Q.
Proof. exact vtk_order. Qed.
Print Assumptions C49_node_order.

(* the examples use integers in the place of floats *)
Definition v_fmt (z : Z) : text := fmt_i32 z ++ txt ".0".
Definition v_parse (t : text) : option Z := parse_i32 (firstn (List.length t - 2) t).
Definition v_mesh : mesh Z :=
  mkMesh 2 [mkPoint 0 (-1)%Z [0%Z; 0%Z]; mkPoint 1 0%Z [2%Z; 0%Z]; mkPoint 2 7%Z [2%Z; 1%Z]; mkPoint 3 0%Z [0%Z; 1%Z]; mkPoint 4 0%Z [3%Z; 0%Z]]
    [mkCell 0 1%Z Qua4 [0; 1; 2; 3]; mkCell 1 2%Z Tri3 [1; 4; 2]; mkCell 2 (-3)%Z Lin2 [3; 4]] [] [].
Example C49_ex_floats : coords_complete v_mesh /\ floats v_fmt v_parse 0%Z v_mesh /\ markers v_mesh.
Proof.
  split; [|split; [split; [reflexivity|]|split]].
  - intros p H. simpl in H. repeat destruct H as [<-|H]; try reflexivity; destruct H.
  - intros p x H I. simpl in H. repeat destruct H as [<-|H]; try (destruct H; fail); simpl in I; repeat destruct I as [<-|I]; try (destruct I; fail);
      (split; [reflexivity|apply ascii_word; [discriminate|repeat constructor; vm_compute; discriminate]]).
  - intros p H. simpl in H. repeat destruct H as [<-|H]; simpl; try lia; destruct H.
  - intros p H. simpl in H. repeat destruct H as [<-|H]; simpl; try lia; destruct H.
Qed.
Example C49_ex : write_vtu v_fmt v_mesh = Ok (flat_map (fun l => txt l ++ [10%N]) [
  "<?xml version=""1.0""?>"; "<VTKFile type=""UnstructuredGrid"" version=""0.1"" byte_order=""LittleEndian"">"; "<UnstructuredGrid>";
  "<Piece NumberOfPoints=""5"" NumberOfCells=""3"">"; "<Points>"; "<DataArray type=""Float64"" NumberOfComponents=""3"" format=""ascii"">";
  "0.0 0.0 0.0 2.0 0.0 0.0 2.0 1.0 0.0 0.0 1.0 0.0 3.0 0.0 0.0 "; "</DataArray>"; "</Points>"; "<Cells>";
  "<DataArray type=""Int32"" Name=""connectivity"" format=""ascii"">"; "0 1 2 3 1 4 2 3 4 "; "</DataArray>";
  "<DataArray type=""Int32"" Name=""offsets"" format=""ascii"">"; "4 7 9 "; "</DataArray>";
  "<DataArray type=""UInt8"" Name=""types"" format=""ascii"">"; "9 5 3 "; "</DataArray>"; "</Cells>";
  "<PointData Scalars=""TheScalars"">"; "<DataArray type=""Int32"" Name=""marker"" NumberOfComponents=""1"" format=""ascii"">"; "-1 0 7 0 0 "; "</DataArray>"; "</PointData>";
  "<CellData Scalars=""TheScalars"">"; "<DataArray type=""Int32"" Name=""marker"" NumberOfComponents=""1"" format=""ascii"">"; "1 2 -3 "; "</DataArray>"; "</CellData>";
  "</Piece>"; "</UnstructuredGrid>"; "</VTKFile>"]).
Proof. vm_compute. reflexivity. Qed.
