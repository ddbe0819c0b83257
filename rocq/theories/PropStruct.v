(* Properties of the structured generators (mesh/generators_qua_hex.rs). *)
From Coq Require Import String Reals List Lia Lra Bool Arith ZArith Permutation.
From Verif Require Import Base BaseFacts Kind MeshModel MeshQuerySpec TopoModel TopoSpec GeomModel GeomSpec GridModel GridSpec SearchModel SearchProof
  JoinModel JoinSpec ShapesModel BlockModel BlockSpec PropJoin GraphModel StructModel StructSpec StructProof StructProof4 StructProof5 StructProof6.
Import ListNotations.
Local Open Scope list_scope.
Local Open Scope R_scope.

(* ---- Structured::rectangle: the mesh shows the rectangles asked for ---- *)
Theorem C76_rectangle : forall zdet shp shuffle sh shc xa xb xc na nb y ny markers target renumber m,
  0 <= zdet -> any_order shp shuffle sh -> (forall l, Permutation (shc l) l) ->
  good_rectangle zdet (tolR 2) target xa xb xc na nb y ny markers ->
  rectangle zdet shp shuffle sh shc xa xb xc na nb y ny markers target renumber = Ok m ->
  depicts target m (rectangle_boxes (columns xa xb xc na nb) (layers y ny markers)).
Proof.
  intros zdet shp shuffle sh shc xa xb xc na nb y ny markers target renumber m Z0 O PC G H.
  destruct (rectangle_done zdet shp shuffle sh shc Z0 O PC target xa xb xc na nb y ny markers G) as (m0 & D & E). rewrite E in H.
  destruct (renumber && _)%bool; [exact (renumber_depicts target m0 _ m D H)|]. injection H as <-. exact D.
Qed.
Print Assumptions C76_rectangle.

(* ---- it succeeds, and renumbering is applied afterwards unless there is one layer and no xb ---- *)
Theorem C76_total : forall zdet shp shuffle sh shc xa xb xc na nb y ny markers target,
  0 <= zdet -> any_order shp shuffle sh -> (forall l, Permutation (shc l) l) ->
  good_rectangle zdet (tolR 2) target xa xb xc na nb y ny markers ->
  exists m, rectangle zdet shp shuffle sh shc xa xb xc na nb y ny markers target false = Ok m /\
    (xb = None /\ List.length y = 2%nat -> rectangle zdet shp shuffle sh shc xa xb xc na nb y ny markers target true = Ok m) /\
    (xb <> None \/ (2 < List.length y)%nat -> rectangle zdet shp shuffle sh shc xa xb xc na nb y ny markers target true = renumber_mesh m false).
Proof.
  intros zdet shp shuffle sh shc xa xb xc na nb y ny markers target Z0 O PC G.
  destruct (rectangle_done zdet shp shuffle sh shc Z0 O PC target xa xb xc na nb y ny markers G) as (m0 & D & E). exists m0. rewrite !E. split; [reflexivity|]. split.
  - intros (-> & ->). reflexivity.
  - intros [H|H]; destruct xb as [x|]; try congruence; try reflexivity. replace (List.length y =? 2)%nat with false by (symmetry; apply Nat.eqb_neq; lia). reflexivity.
Qed.
Print Assumptions C76_total.

(* ---- the rectangles tile the region, and each carries the marker of its layer ---- *)
Theorem C76_tiling : forall zdet target xa xb xc na nb y ny markers,
  good_rectangle zdet (tolR 2) target xa xb xc na nb y ny markers ->
  let bs := rectangle_boxes (columns xa xb xc na nb) (layers y ny markers) in
  disjoint_boxes bs /\
  (forall b, In b bs -> (xa <= bx0 b /\ bx1 b <= xc) /\ (nth 0 y 0 <= by0 b /\ by1 b <= last y 0) /\
     exists l, (l < List.length y - 1)%nat /\ nth l y 0 <= by0 b /\ by1 b <= nth (S l) y 0 /\ bx_marker b = nth l markers 0%Z) /\
  (forall u v, xa <= u <= xc -> nth 0 y 0 <= v <= last y 0 -> exists b, In b bs /\ in_box b u v) /\
  List.length bs = ((na + match xb with Some _ => nb | None => 0 end) * fold_right plus 0 ny)%nat.
Proof. exact tiling. Qed.
Print Assumptions C76_tiling.

(* a rectangle with two columns and two layers *)
Lemma tol2_small : tolR 2 < / 1000.
Proof.
  unfold tolR. assert (B : sqrt (INR 2) <= 2). { rewrite <- (sqrt_Rsqr 2) by lra. apply sqrt_le_1_alt. unfold Rsqr. cbn. lra. } lra.
Qed.
Lemma two_by_two : good_rectangle (/ 1000000) (tolR 2) Qua8 0 (Some 1) 3 2 1 [0; 1; 2] [1; 2]%nat [5; 7]%Z.
Proof.
  pose proof tol2_small as T. pose proof tol2_pos as P.
  split; [reflexivity|]. split; [lia|]. split; [lia|]. split; [cbn; lia|]. split; [reflexivity|]. split; [reflexivity|].
  split. { intros x0 x1 k [E|[E|[]]]; injection E as <- <- <-; (split; [lia|]); cbn; lra. }
  split. { intros y0 y1 n mk [E|[E|[]]]; injection E as <- <- <- <-; (split; [lia|]); cbn; lra. }
  intros x0 x1 k y0 y1 n mk [E|[E|[]]] [F|[F|[]]]; injection E as <- <- <-; injection F as <- <- <- <-; lra.
Qed.
Example C76_ex : forall shp shuffle sh, any_order shp shuffle sh -> exists m,
  rectangle (/ 1000000) shp shuffle sh (fun l => l) 0 (Some 1) 3 2 1 [0; 1; 2] [1; 2]%nat [5; 7]%Z Qua8 false = Ok m /\
  List.length (cells m) = 9%nat /\ exists c, nth_error (cells m) 8 = Some c /\ c_marker c = 7%Z /\ exists p, nth_error (c_points c) 2 = Some p /\ coords_of m p [3; 2].
Proof.
  intros shp shuffle sh O. assert (PC : forall l : list (nat * nat), Permutation ((fun l => l) l) l) by (intros; apply Permutation_refl).
  destruct (C76_total (/ 1000000) shp shuffle sh (fun l => l) 0 (Some 1) 3 2 1 [0; 1; 2] [1; 2]%nat [5; 7]%Z Qua8 ltac:(lra) O PC two_by_two) as (m & E & _).
  exists m. split; [exact E|].
  assert (D := C76_rectangle (/ 1000000) shp shuffle sh (fun l => l) 0 (Some 1) 3 2 1 [0; 1; 2] [1; 2]%nat [5; 7]%Z Qua8 false m ltac:(lra) O PC two_by_two E).
  destruct D as (_ & _ & _ & _ & _ & _ & _ & SH). apply Forall2_nth in SH. destruct SH as (L & SH). change (List.length (cells m) = 9%nat) in L. split; [exact L|].
  destruct (nth_error (cells m) 8) as [c|] eqn:Ec; [|apply nth_error_None in Ec; lia]. exists c. split; [reflexivity|].
  destruct (SH 8%nat c _ Ec eq_refl) as (_ & Mk & Nd). split; [exact Mk|]. apply Forall2_nth in Nd. destruct Nd as (LN & Nd). change (List.length (c_points c) = 8%nat) in LN.
  destruct (nth_error (c_points c) 2) as [p|] eqn:Ep; [|apply nth_error_None in Ep; lia]. exists p. split; [reflexivity|].
  pose proof (Nd 2%nat p _ Ep eq_refl) as C.
  assert (X : [3; 2] = box_node Qua8 (mkBox 7%Z (tick 1 3 1 0) (tick 1 3 1 1) (tick 1 2 2 1) (tick 1 2 2 2)) 2); [|rewrite X; exact C].
  unfold box_node, stretch, tick. cbn. f_equal; [lra|f_equal; lra].
Qed.

(* ---- arguments that are refused ---- *)
Theorem C76_errors : forall zdet shp shuffle sh shc xa xb xc na nb y ny markers target renumber,
  xc <= xa \/ (exists x, xb = Some x /\ ~ xa < x < xc) \/ na = 0%nat \/ nb = 0%nat \/ (List.length y < 2)%nat \/
  List.length ny <> (List.length y - 1)%nat \/ List.length markers <> (List.length y - 1)%nat ->
  exists msg, rectangle zdet shp shuffle sh shc xa xb xc na nb y ny markers target renumber = Err msg.
Proof. exact arguments_rejected. Qed.
Print Assumptions C76_errors.
Example C76_errors_ex : exists msg, rectangle 0 (fun l => l) (fun l => l) (fun l => l) (fun l => l) 0 (Some 3) 2 1 1 [0; 1] [1%nat] [1%Z] Qua4 false = Err msg.
Proof. apply C76_errors. right. left. exists 3. split; [reflexivity|]. lra. Qed.

(* ---- what an accepted set of arguments satisfies ---- *)
Theorem C76_accepted : forall zdet shp shuffle sh shc xa xb xc na nb y ny markers target renumber m, 0 <= zdet ->
  rectangle zdet shp shuffle sh shc xa xb xc na nb y ny markers target renumber = Ok m ->
  kind_class target = CQua /\ (1 <= na)%nat /\ (1 <= nb)%nat /\ xa < xc /\ (forall x, xb = Some x -> xa < x < xc) /\
  (2 <= List.length y)%nat /\ List.length ny = (List.length y - 1)%nat /\ List.length markers = (List.length y - 1)%nat /\
  forall l, (l < List.length y - 1)%nat -> nth l y 0 < nth (S l) y 0 /\ (1 <= nth l ny 0)%nat /\
    forall x0 x1 k, In (x0, x1, k) (columns xa xb xc na nb) -> zdet < (x1 - x0) * (nth (S l) y 0 - nth l y 0) / 4.
Proof. intros zdet shp shuffle sh shc xa xb xc na nb y ny markers target renumber m Z0. exact (accepted zdet shp shuffle sh shc Z0 xa xb xc na nb y ny markers target renumber m). Qed.
Print Assumptions C76_accepted.

(* ---- refuted: acceptable arguments never panic. No division of a layer, or a thin layer, does ---- *)
Theorem C76_no_panic_refuted : exists y ny,
  nth 0 y 0 < nth 1 y 0 /\ forall zdet shp shuffle sh shc renumber, 0 <= zdet ->
  rectangle zdet shp shuffle sh shc 0 None 1 1 1 y ny [1%Z] Qua4 renumber = Panic.
Proof.
  exists [0; 1], [0%nat]. split; [cbn; lra|]. exact division_panics.
Qed.
Print Assumptions C76_no_panic_refuted.
Theorem C76_thin_layer_refuted : forall zdet, 0 < zdet -> exists y,
  nth 0 y 0 < nth 1 y 0 /\ forall shp shuffle sh shc renumber,
  rectangle zdet shp shuffle sh shc 0 None 1 1 1 y [1%nat] [1%Z] Qua4 renumber = Panic.
Proof. intros zdet H. exists [0; zdet]. split; [exact H|]. intros. exact (thin_panics zdet shp shuffle sh shc renumber H). Qed.
Print Assumptions C76_thin_layer_refuted.
Example C76_thin_layer_ex : exists y, nth 0 y 0 < nth 1 y 0 /\ rectangle (/ 10) (fun l => l) (fun l => l) (fun l => l) (fun l => l) 0 None 1 1 1 y [1%nat] [1%Z] Qua4 false = Panic.
Proof. destruct (C76_thin_layer_refuted (/ 10) ltac:(lra)) as (y & A & B). exists y. split; [exact A|apply B]. Qed.
