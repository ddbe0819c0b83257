(* The curve drawn for a line (add_curve). *)
From Coq Require Import String Reals QArith Qreals List Arith Bool ZArith Lia Lra.
From Verif Require Import Base BaseFacts Expr ShapesData Kind MeshModel MeshQuerySpec ShapesModel ShapesSpec ShapesProof ShapesShared PadModel PadSpec PadProof PadProof2 PadProof4 NormalSpec NormalProof2 NormalProof4 DrawModel DrawSpec.
Import ListNotations.
Local Open Scope list_scope.
Local Open Scope R_scope.

(* a line with the nodal coordinates X i j at the parameter z *)
Definition line_at (lk : geokind) (X : nat -> nat -> R) (j : nat) (z : R) : R :=
  dot (calc_interp lk [z]) (map (fun i => X i j) (seq 0 (kind_nnode lk))).
Definition gap (lk : geokind) (X : nat -> nat -> R) (j : nat) (z : R) : R :=
  match lk with Lin5 => quartic (fun i => X i j) * cubic_gap z | _ => 0 end.
Definition is_lin (k : geokind) : bool := match k with Lin2 | Lin3 | Lin4 | Lin5 => true | _ => false end.

Ltac lin_eval := unfold line_at, gap, quartic, cubic_gap, calc_interp; cbn -[Rplus Rmult Rminus Ropp Rdiv Rinv IZR]; unfold Q2R; cbn -[Rplus Rmult Rminus Ropp Rdiv Rinv IZR].

Lemma point_2d_ok m ps i x y : pcoord m ps i 0 = Ok x -> pcoord m ps i 1 = Ok y -> point_2d m ps i = Ok (x, y).
Proof. intros A B. unfold point_2d. rewrite A. cbn [bind]. rewrite B. reflexivity. Qed.
Lemma point_3d_ok m ps i x y z : pcoord m ps i 0 = Ok x -> pcoord m ps i 1 = Ok y -> pcoord m ps i 2 = Ok z -> point_3d m ps i = Ok (x, y, z).
Proof. intros A B C. unfold point_3d. rewrite A. cbn [bind]. rewrite B. cbn [bind]. rewrite C. reflexivity. Qed.

Lemma foldM_ext {A S} (f g : S -> A -> res S) l : (forall x s, In x l -> f s x = g s x) -> forall s, foldM f l s = foldM g l s.
Proof.
  induction l as [|x l IH]; intros E s; [reflexivity|]. cbn [foldM]. rewrite E by now left.
  destruct (g s x); cbn [bind]; auto. apply IH. intros; apply E; now right.
Qed.

Lemma lin5_pad_ok m ps : ndim m = 2%nat -> coords_complete m -> List.length ps = 5%nat ->
  (forall q, In q ps -> (q < List.length (points m))%nat) ->
  exists q, lin5_pad m ps = Ok q /\ element_of m (mkCell 0 0%Z Lin5 ps) q /\ p_ok q = true.
Proof.
  intros D K L Rg. unfold lin5_pad.
  destruct (pad_new_ok (ndim m) Lin5 ltac:(lia) ltac:(rewrite D; vm_compute; lia)) as (p0 & E0 & W0 & K0 & S0 & _). rewrite E0. cbn [bind].
  destruct (mesh_set_pad_points m (mkCell 0 0%Z Lin5 ps) p0 K L Rg W0 K0 S0) as (q & Eq & Hq & Ok'). exists q. split; auto.
  rewrite <- Eq. unfold mesh_set_pad. rewrite K0. cbn [c_points]. rewrite L. change (kind_nnode Lin5) with 5%nat. cbn [Nat.eqb negb].
  apply foldM_ext. intros i p _. apply foldM_ext. intros j p' _. unfold pcoord.
  destruct (get ps i); cbn [bind]; auto. destruct (get (points m) a); cbn [bind]; auto.
Qed.

Lemma lin5_point_ok q z : pad_wf q -> p_kind q = Lin5 -> p_space q = 2%nat -> p_ok q = true ->
  lin5_point 2 q z = Ok (pos q [z] 0, pos q [z] 1).
Proof.
  intros W Kq Sq Oq. unfold lin5_point, pad_coords. rewrite Oq, Sq, Kq. cbn [negb Nat.eqb].
  change (calc_interp Lin5 [z; 0]) with (calc_interp Lin5 [z]). cbn [fst].
  assert (G : forall j, (j < 2)%nat -> get (mat_vec (p_xxt q) (calc_interp Lin5 [z])) j = Ok (pos q [z] j)).
  { intros j Hj. pose proof W as (_ & _ & Lx & _). rewrite Sq in Lx. rewrite (get_ok _ _ 0) by (unfold mat_vec; rewrite map_length; lia). f_equal.
    unfold mat_vec. rewrite (nth_indep _ 0 (dot [] (calc_interp Lin5 [z]))) by (rewrite map_length; lia).
    rewrite (map_nth (fun row => dot row (calc_interp Lin5 [z]))). rewrite pos_dot, Kq by (auto; lia). reflexivity. }
  rewrite !G by lia. reflexivity.
Qed.

Definition fits (lk : geokind) (X : nat -> nat -> R) (pc : piece) : Prop :=
  forall t j, (j < 2)%nat -> piece_at pc t j = line_at lk X j (2 * t - 1) - gap lk X j (2 * t - 1).

Ltac two j Hj := destruct j as [|[|j]]; [| |exfalso; lia].

Lemma acurve_2d m lk ps (X : nat -> nat -> R) : ndim m = 2%nat -> coords_complete m -> is_lin lk = true ->
  List.length ps = kind_nnode lk -> (forall q, In q ps -> (q < List.length (points m))%nat) ->
  (forall i j, (i < kind_nnode lk)%nat -> (j < 2)%nat -> pcoord m ps i j = Ok (X i j)) ->
  exists cs pc,
    (forall cv b f, add_curve m cv lk ps b f = Ok (cv ++ pc_first b (X 0%nat 0%nat, X 0%nat 1%nat) ++ cs ++ pc_last f)) /\
    (forall rest l, pieces_2d [X 1%nat 0%nat; X 1%nat 1%nat] rest l -> pieces_2d [X 0%nat 0%nat; X 0%nat 1%nat] (cs ++ rest) (pc :: l)) /\
    fits lk X pc.
Proof.
  intros D K Il L Rg HX.
  assert (P2 : forall i, (i < kind_nnode lk)%nat -> point_2d m ps i = Ok (X i 0%nat, X i 1%nat)).
  { intros i Hi. apply point_2d_ok; apply HX; auto. }
  destruct lk; try discriminate Il.
  - change (kind_nnode Lin2) with 2%nat in *. exists [pc_add (X 1%nat 0%nat, X 1%nat 1%nat) LineTo], [[X 0%nat 0%nat; X 0%nat 1%nat]; [X 1%nat 0%nat; X 1%nat 1%nat]].
    split; [|split].
    + intros cv b f. unfold add_curve. rewrite D. cbn [Nat.eqb]. rewrite !P2 by lia. destruct b; reflexivity.
    + intros rest l H. now constructor.
    + intros t j Hj. two j Hj; unfold piece_at; lin_eval; field.
  - change (kind_nnode Lin3) with 3%nat in *. eexists _, [[X 0%nat 0%nat; X 0%nat 1%nat]; [quad_control (X 0 0) (X 1 0) (X 2 0); quad_control (X 0 1) (X 1 1) (X 2 1)]%nat; [X 1%nat 0%nat; X 1%nat 1%nat]].
    split; [|split].
    + intros cv b f. unfold add_curve. rewrite D. cbn [Nat.eqb]. rewrite !P2 by lia. cbn [bind fst snd]. reflexivity.
    + intros rest l H. cbn [app pc_add fst snd]. now constructor.
    + intros t j Hj. two j Hj; unfold piece_at, quad_control; lin_eval; field.
  - change (kind_nnode Lin4) with 4%nat in *. eexists _, [[X 0%nat 0%nat; X 0%nat 1%nat];
        [cubic_control_c (X 0 0) (X 1 0) (X 2 0) (X 3 0); cubic_control_c (X 0 1) (X 1 1) (X 2 1) (X 3 1)]%nat;
        [cubic_control_d (X 0 0) (X 1 0) (X 2 0) (X 3 0); cubic_control_d (X 0 1) (X 1 1) (X 2 1) (X 3 1)]%nat; [X 1%nat 0%nat; X 1%nat 1%nat]].
    split; [|split].
    + intros cv b f. unfold add_curve. rewrite D. cbn [Nat.eqb]. rewrite !P2 by lia. cbn [bind fst snd]. reflexivity.
    + intros rest l H. cbn [app cubic pc_add fst snd]. now constructor.
    + intros t j Hj. two j Hj; unfold piece_at, cubic_control_c, cubic_control_d; lin_eval; field.
  - change (kind_nnode Lin5) with 5%nat in *.
    destruct (lin5_pad_ok m ps D K L Rg) as (q & Eq & (Wq & Kq & Sq & Xq) & Oq). cbn [c_kind c_points] in *.
    assert (N : forall i j, (i < 5)%nat -> (j < 2)%nat -> node_x q j i = X i j).
    { intros i j Hi Hj. specialize (HX i j Hi Hj). unfold pcoord in HX. apply bind_ok in HX as (id & E1 & HX). apply bind_ok in HX as (pt & E2 & HX).
      apply get_inv in E1 as (_ & E1). apply get_inv in E2 as (_ & E2). apply get_inv in HX as (_ & HX).
      rewrite (Xq i id pt j E1 E2) by lia. symmetry. now apply nth_error_nth with (d := 0) in HX. }
    assert (Px : forall z j, (j < 2)%nat -> pos q [z] j = line_at Lin5 X j z).
    { intros z j Hj. rewrite pos_dot by (auto; lia). unfold line_at. rewrite Kq, dot_comm. f_equal. change (kind_nnode Lin5) with 5%nat.
      apply (nth_ext _ _ 0 0); [rewrite map_length, seq_length, wf_row, Kq by (auto; lia); reflexivity|].
      intros i Hi. rewrite wf_row, Kq in Hi by (auto; lia). change (kind_nnode Lin5) with 5%nat in Hi.
      fold (node_x q j i). rewrite N by auto. do 5 (destruct i as [|i]; [reflexivity|]). lia. }
    pose (c j := line_at Lin5 X j (- (1 / 3))). pose (d j := line_at Lin5 X j (1 / 3)).
    exists (cubic (X 0 0, X 0 1) (X 1 0, X 1 1) (c 0, c 1) (d 0, d 1))%nat,
       [[X 0 0; X 0 1]; [cubic_control_c (X 0 0) (X 1 0) (c 0) (d 0); cubic_control_c (X 0 1) (X 1 1) (c 1) (d 1)];
        [cubic_control_d (X 0 0) (X 1 0) (c 0) (d 0); cubic_control_d (X 0 1) (X 1 1) (c 1) (d 1)]; [X 1 0; X 1 1]]%nat.
    split; [|split].
    + intros cv b f. unfold add_curve. rewrite D. cbn [Nat.eqb]. rewrite Eq. cbn [bind]. rewrite !P2 by lia. cbn [bind].
      rewrite !lin5_point_ok by (auto; lia). cbn [bind]. rewrite !Px by lia. reflexivity.
    + intros rest l H. unfold cubic. cbn [app pc_add fst snd]. now constructor.
    + intros t j Hj. two j Hj; unfold piece_at, cubic_control_c, cubic_control_d, c, d; lin_eval; field.
Qed.

(* 3D: the nodes along the line *)
Definition tail_nodes (lk : geokind) : list nat := match lk with Lin2 => [1] | Lin3 => [2; 1] | Lin4 => [2; 3; 1] | _ => [3; 2; 4; 1] end%nat.
Definition at3 (X : nat -> nat -> R) (i : nat) : list R := [X i 0; X i 1; X i 2]%nat.
Definition add3 (X : nat -> nat -> R) (i : nat) : dcmd := PlAdd (X i 0%nat) (X i 1%nat) (X i 2%nat).
Fixpoint chain3 (X : nat -> nat -> R) (a : nat) (l : list nat) : list piece :=
  match l with [] => [] | b :: t => [at3 X a; at3 X b] :: chain3 X b t end.

Lemma acurve_3d m lk ps X : ndim m = 3%nat -> is_lin lk = true ->
  (forall i j, (i < kind_nnode lk)%nat -> (j < 3)%nat -> pcoord m ps i j = Ok (X i j)) ->
  forall cv b f, add_curve m cv lk ps b f =
    Ok (cv ++ (if b then [PlBegin; add3 X 0] else []) ++ map (add3 X) (tail_nodes lk) ++ pl_last f).
Proof.
  intros D Il HX cv b f.
  assert (P3 : forall i, (i < kind_nnode lk)%nat -> point_3d m ps i = Ok (X i 0%nat, X i 1%nat, X i 2%nat)).
  { intros i Hi. apply point_3d_ok; apply HX; auto. }
  destruct lk; try discriminate Il; unfold add_curve; rewrite D; cbn [Nat.eqb foldM].
  - change (kind_nnode Lin2) with 2%nat in *. rewrite !P3 by lia. destruct b; reflexivity.
  - change (kind_nnode Lin3) with 3%nat in *. rewrite !P3 by lia. destruct b; reflexivity.
  - change (kind_nnode Lin4) with 4%nat in *. rewrite !P3 by lia. destruct b; reflexivity.
  - change (kind_nnode Lin5) with 5%nat in *. rewrite !P3 by lia. destruct b; reflexivity.
Qed.

Lemma chain3_pieces X l : forall a rest ps, pieces_3d (at3 X (last l a)) rest ps ->
  pieces_3d (at3 X a) (map (add3 X) l ++ rest) (chain3 X a l ++ ps).
Proof.
  induction l as [|b l IH]; intros a rest ps H; cbn [map app chain3]; auto.
  apply pl_line. apply (IH b). replace (last l b) with (last (b :: l) a); auto.
  destruct l as [|c l]; [reflexivity|]. cbn [last]. clear. revert b c. induction l as [|d l IH]; intros b c; [reflexivity|]. apply IH; exact c.
Qed.
