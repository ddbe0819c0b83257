(* The tools qua2msh and hex2msh. *)
From Coq Require Import String Reals List Lia Lra Bool Arith NArith ZArith Permutation Sorted.
From Verif Require Import Base BaseFacts Kind GraphModel MeshModel MeshQuerySpec TopoModel TopoSpec TopoMaps TopoProof GeomModel GeomSpec GridModel GridSpec SearchModel SearchProof
  JoinModel JoinSpec PropJoin ShapesModel ShapesSpec BlockModel BlockSpec BlockProof2 PropBlock StructModel StructSpec StructProof RingSpec BlocksSpec BlocksProof2 BlocksProof6 BlocksProof7 BlocksProof8 PropBlocks
  TextModel TextSpec TextProof2 TextProof4 VtuModel VtuSpec VtuProof PropText PropVtu ToolsModel ToolsSpec.
Import ListNotations.
Local Open Scope string_scope.
Local Open Scope list_scope.
Local Open Scope nat_scope.

(* ---- every cell belongs to a region ---- *)
Lemma rank_onto ns : forall j, j < fold_right Nat.mul 1 ns -> exists idx, Forall2 lt idx ns /\ rank ns idx = j.
Proof.
  induction ns as [|n ns IH]; intros j H.
  - cbn in H. exists []. split; [constructor|cbn; lia].
  - cbn [fold_right] in H. assert (n <> 0) by (intros ->; cbn in H; lia).
    destruct (IH (j / n)) as (idx & F & E); [apply Nat.div_lt_upper_bound; assumption|].
    exists (j mod n :: idx). split; [constructor; [apply Nat.mod_upper_bound; assumption|exact F]|]. cbn [rank]. rewrite E. pose proof (Nat.div_mod j n). lia.
Qed.
Lemma number_onto gs : forall j, j < fold_right plus 0 (map ncells gs) -> exists i g idx, nth_error gs i = Some g /\ in_region g idx /\ cell_number gs i g idx = j.
Proof.
  induction gs as [|g gs IH]; intros j H; [cbn in H; lia|]. cbn [map fold_right] in H. destruct (le_lt_dec (ncells g) j) as [L|L].
  - destruct (IH (j - ncells g)) as (i & g' & idx & E & I & N); [lia|]. exists (S i), g', idx. split; [exact E|]. split; [exact I|].
    unfold cell_number in *. cbn [firstn map fold_right]. lia.
  - destruct (rank_onto (divs g) j L) as (idx & F & E). exists 0, g, idx. split; [reflexivity|]. split; [exact F|]. unfold cell_number. cbn. exact E.
Qed.
Lemma built_kinds nd e target gs m : built nd e target gs m -> forall c, In c (cells m) -> c_kind c = target /\ List.length (c_points c) = kind_nnode target.
Proof.
  intros (_ & L & B) c Ic. apply In_nth_error in Ic as (j & Ej). assert (Hj : j < List.length (cells m)) by (apply nth_error_Some; congruence).
  rewrite L in Hj. destruct (number_onto gs j Hj) as (i & g & idx & Eg & I & N). destruct (B i g idx Eg I) as (c' & E & K & _ & P & _). rewrite N in E. assert (c' = c) by congruence. subst c'. auto.
Qed.
Lemma product_pos ns : (forall n, In n ns -> 0 < n) -> 0 < fold_right Nat.mul 1 ns.
Proof. induction ns as [|n ns IH]; intros H; cbn [fold_right]; [lia|]. apply Nat.mul_pos_pos; [apply H; left; reflexivity|apply IH; intros; apply H; right; assumption]. Qed.
Lemma built_cells nd e target gs m : built nd e target gs m -> gs <> [] -> (forall g w, In g gs -> In w (g_weights g) -> w <> []) -> cells m <> [].
Proof.
  intros (_ & L & _) N W E. rewrite E in L. destruct gs as [|g gs]; [congruence|]. cbn [map fold_right List.length] in L.
  assert (0 < ncells g); [|lia]. apply product_pos. intros n I. apply in_map_iff in I as (w & <- & Iw). specialize (W g w (or_introl eq_refl) Iw). destruct w; [congruence|cbn; lia].
Qed.
Lemma sum_nonempty (w : list R) : (1 <= sum w)%R -> w <> [].
Proof. intros H ->. cbn in H. lra. Qed.

(* ---- writing ---- *)
Section Write.
Variables (fmt_f : R -> text) (parse_f : text -> option R).
Variable m : mesh R.
Hypothesis D : ndim m = 2 \/ ndim m = 3.
Hypothesis C : consistent m.
Hypothesis K : coords_complete m.
Hypothesis N : cells m <> [].

Lemma file_written : exists t, write_file fmt_f m = Ok t.
Proof.
  unfold write_file. destruct (Nat.ltb_spec (List.length (cells m)) 1) as [L|_]; [destruct (cells m); [congruence|cbn in L; lia]|].
  unfold to_text. rewrite print_points; [|exact D|apply Forall_forall; intros p I; apply K; exact I]. cbn [bind]. eexists. reflexivity.
Qed.
Lemma files_written do_vtu : (do_vtu = true -> forall c, In c (cells m) -> vtk_type (c_kind c) <> None) ->
  exists msh, write_file fmt_f m = Ok msh /\
    if do_vtu then exists vtu, write_vtu fmt_f m = Ok vtu /\ write_files fmt_f do_vtu m = (Ok tt, [(".msh", msh); (".vtu", vtu)])
    else write_files fmt_f do_vtu m = (Ok tt, [(".msh", msh)]).
Proof.
  intros V. destruct file_written as (t & E). exists t. split; [exact E|]. unfold write_files. rewrite E. destruct do_vtu; [|reflexivity].
  destruct (proj1 (proj1 (C49_succeeds R fmt_f m K))) as (v & Ev); [split; [exact N|apply V; reflexivity]|]. exists v. rewrite Ev. split; reflexivity.
Qed.
Lemma mesh_printable : points m <> [] -> fits_types m -> (forall p x, In p (points m) -> In x (pt_coords p) -> parse_f (fmt_f x) = Some x /\ is_word (fmt_f x)) -> printable fmt_f parse_f m.
Proof.
  intros P (S & (M1 & M2) & E & F) X. constructor.
  - exact D.
  - exact P.
  - exact N.
  - eapply Forall_impl; [|exact S]. cbv beta. intros a H. lia.
  - intros i p Ei. pose proof (nth_error_In _ _ Ei) as Ip. split; [apply C; exact Ei|]. split; [apply M1; exact Ip|]. split; [apply K; exact Ip|]. apply Forall_forall. intros x Ix. exact (X p x Ip Ix).
  - intros i c Ei. destruct (proj2 C i c Ei) as (A & B & Q). split; [exact A|]. split; [apply M2; eapply nth_error_In; exact Ei|]. split; [exact B|].
    apply Forall_forall. intros q Iq. apply Q in Iq. inversion S as [|? ? S1 _]; subst. lia.
  - exact E.
  - exact F.
Qed.
End Write.

Lemma qua_target_ok nnode target v : qua_target nnode = Ok (target, v) ->
  In nnode qua_nnodes /\ kind_class target = CQua /\ kind_nnode target = nnode /\ (v = true <-> In nnode qua_vtu) /\ (v = true -> vtk_type target <> None).
Proof. intros H. unfold qua_target in H. do 18 (destruct nnode as [|nnode]; [first [discriminate H|injection H as <- <-; cbn; repeat split; intros; try discriminate; try tauto; lia]|]). discriminate H. Qed.
Lemma qua_target_some nnode : In nnode qua_nnodes -> exists r, qua_target nnode = Ok r.
Proof. intros H. cbn in H. repeat (destruct H as [<-|H]; [eexists; reflexivity|]). destruct H. Qed.
Lemma qua_target_none nnode : ~ In nnode qua_nnodes -> qua_target nnode = Err "invalid number of nodes for quadrilateral cell".
Proof. intros H. do 18 (destruct nnode as [|nnode]; [first [reflexivity|exfalso; apply H; cbn; tauto]|]). reflexivity. Qed.
Lemma hex_target_ok nnode target v : hex_target nnode = Ok (target, v) ->
  In nnode hex_nnodes /\ kind_class target = CHex /\ kind_nnode target = nnode /\ (v = true <-> In nnode hex_vtu) /\ (v = true -> vtk_type target <> None).
Proof. intros H. unfold hex_target in H. do 33 (destruct nnode as [|nnode]; [first [discriminate H|injection H as <- <-; cbn; repeat split; intros; try discriminate; try tauto; lia]|]). discriminate H. Qed.
Lemma hex_target_some nnode : In nnode hex_nnodes -> exists r, hex_target nnode = Ok r.
Proof. intros H. cbn in H. repeat (destruct H as [<-|H]; [eexists; reflexivity|]). destruct H. Qed.
Lemma hex_target_none nnode : ~ In nnode hex_nnodes -> hex_target nnode = Err "invalid number of nodes for hexahedral cell".
Proof. intros H. do 33 (destruct nnode as [|nnode]; [first [reflexivity|exfalso; apply H; cbn; tauto]|]). reflexivity. Qed.

(* what is common to both tools *)
Lemma made_files fmt_f nd e target gs m (v : bool) : (nd = 2 \/ nd = 3) -> consistent m -> coords_complete m -> built nd e target gs m -> gs <> [] ->
  (forall g w, In g gs -> In w (g_weights g) -> w <> []) -> (v = true -> vtk_type target <> None) ->
  cells m <> [] /\ (forall c, In c (cells m) -> c_kind c = target /\ List.length (c_points c) = kind_nnode target) /\
  exists msh, write_file fmt_f m = Ok msh /\
    if v then exists vtu, write_vtu fmt_f m = Ok vtu /\ write_files fmt_f v m = (Ok tt, [(".msh", msh); (".vtu", vtu)])
    else write_files fmt_f v m = (Ok tt, [(".msh", msh)]).
Proof.
  intros Hd Cm Km B N W V. pose proof (built_kinds _ _ _ _ _ B) as Kd. pose proof (built_cells _ _ _ _ _ B N W) as Nc. split; [exact Nc|]. split; [exact Kd|].
  apply files_written; [destruct B as (-> & _); exact Hd|exact Km|exact Nc|]. intros Ev c Ic. destruct (Kd c Ic) as (-> & _). exact (V Ev).
Qed.
Lemma nonempty_points (m : mesh R) k : consistent m -> cells m <> [] -> (forall c, In c (cells m) -> List.length (c_points c) = k) -> 0 < k -> points m <> [].
Proof.
  intros (_ & C) N L K E. destruct (cells m) as [|c cs] eqn:Ec; [congruence|]. specialize (L c (or_introl eq_refl)). destruct (c_points c) as [|q l] eqn:Eq; [cbn in L; lia|].
  destruct (C 0 c eq_refl) as (_ & _ & Q). specialize (Q q). rewrite Eq, E in Q. cbn in Q. specialize (Q (or_introl eq_refl)). lia.
Qed.

Lemma delivery fmt_f nd e target gs m (v : bool) (vtu : Prop) files : (nd = 2 \/ nd = 3) -> consistent m -> coords_complete m -> built nd e target gs m -> gs <> [] ->
  (forall g w, In g gs -> In w (g_weights g) -> w <> []) -> (v = true -> vtk_type target <> None) -> (v = true <-> vtu) -> 0 < kind_nnode target ->
  write_files fmt_f v m = (Ok tt, files) -> delivered fmt_f vtu m files.
Proof.
  intros Hd Cm Km B N W V E Np H. destruct (made_files fmt_f nd e target gs m v Hd Cm Km B N W V) as (Nc & Kd & msh & Em & F).
  assert (Dm : ndim m = 2 \/ ndim m = 3) by (destruct B as (-> & _); exact Hd).
  assert (Pm : points m <> []) by (apply (nonempty_points m (kind_nnode target)); [exact Cm|exact Nc|intros c Ic; apply Kd; exact Ic|exact Np]).
  exists msh. split; [|split].
  - intros parse (_ & Fl) Ft. destruct (C16_file R 0%R fmt_f parse m) as (t & Et & Rt); [apply mesh_printable; assumption|]. rewrite Em in Et. injection Et as <-. exact Rt.
  - intros X. apply E in X. subst v. destruct F as (t & Et & F). rewrite F in H. injection H as <-. exists t. split; [reflexivity|]. intros parse Fl Ft.
    destruct (C49_contents R fmt_f parse 0%R m t Dm Km Fl (proj1 (proj2 Ft)) Et) as (f & A1 & A2 & A3 & A4 & _ & _ & _ & _ & _ & A5 & A6 & A7). exists f. repeat (split; [assumption|]). assumption.
  - intros X. destruct v; [destruct X; apply E; reflexivity|]. rewrite F in H. injection H as <-. reflexivity.
Qed.
Lemma regions_2d_length bl : List.length (regions_2d bl) = List.length (k2_regions bl).
Proof. unfold regions_2d. rewrite map_length, seq_length. reflexivity. Qed.
Lemma regions_3d_length bl : List.length (regions_3d bl) = List.length (k3_regions bl).
Proof. unfold regions_3d. rewrite map_length, seq_length. reflexivity. Qed.
