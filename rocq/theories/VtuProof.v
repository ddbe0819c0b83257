(* Proofs about the VTU writer *)
From Coq Require Import String List Arith NArith ZArith QArith Bool Lia.
From Verif Require Import Base BaseFacts Kind MeshModel MeshQuerySpec TopoModel TopoMaps ShapesModel TextModel TextSpec TextProof TextProof2 TextProof4 VtuModel VtuSpec.
Import ListNotations.
Local Open Scope string_scope.
Local Open Scope list_scope.
Local Open Scope nat_scope.

(** lines and words *)
Lemma unlines_lines ls : Forall (fun l => ~ In 10%N l) ls -> text_lines (ls ++ [[]]) (unlines ls).
Proof.
  induction 1 as [|l ls H _ IH]; simpl; [constructor; simpl; tauto|].
  unfold unlines. simpl. rewrite <- app_assoc. simpl. apply tl_cons; auto.
Qed.
Lemma items_spells ws : Forall is_word ws -> spells ws (items ws).
Proof.
  induction 1 as [|w ws H _ IH]; [apply (spells_end []); constructor|]. simpl. rewrite <- app_assoc.
  apply (spells_word [] w ws ([sp] ++ items ws)); [constructor|auto|right; exists sp, (items ws); split; [reflexivity|vm_compute; tauto]|].
  apply spells_lead; [repeat constructor; vm_compute; tauto|exact IH].
Qed.
Lemma items_no_nl ws : Forall is_word ws -> ~ In 10%N (items ws).
Proof.
  intros H I. unfold items in I. apply in_flat_map in I as (w & Hw & I). rewrite Forall_forall in H. specialize (H w Hw).
  apply in_app_or in I as [I|[I|[]]]; [exact (word_no_nl w H I)|discriminate I].
Qed.
Lemma items_app a b : items (a ++ b) = items a ++ items b. Proof. apply flat_map_app. Qed.
Lemma items_concat l : items (concat l) = concat (map items l).
Proof. induction l as [|a l IH]; [reflexivity|]. simpl. now rewrite items_app, IH. Qed.

Lemma nat_words ns : Forall is_word (map fmt_nat ns).
Proof. apply Forall_map, Forall_forall. intros n _. apply fmt_nat_word. Qed.
Lemma nat_row ns : row natural ns (items (map fmt_nat ns)).
Proof.
  exists (map fmt_nat ns). split; [apply items_spells, nat_words|]. apply forall2_map, Forall_forall. intros n _. apply fmt_usize_decimal.
Qed.
Lemma i32_words zs : Forall is_word (map fmt_i32 zs).
Proof. apply Forall_map, Forall_forall. intros n _. apply fmt_i32_word. Qed.
Lemma i32_row zs : Forall (fun z => (-(2 ^ 31) <= z < 2 ^ 31)%Z) zs -> row i32_numeral zs (items (map fmt_i32 zs)).
Proof.
  intros H. exists (map fmt_i32 zs). split; [apply items_spells, i32_words|]. apply forall2_map.
  eapply Forall_impl; [|exact H]. intros z Hz. apply fmt_i32_numeral; auto.
Qed.

(** the arrays *)
Fixpoint totals (o : nat) (ns : list nat) : list nat := match ns with [] => [] | n :: r => (o + n) :: totals (o + n) r end.
Lemma offsets_items cs : vtu_offsets cs = items (map fmt_nat (totals 0 (map (fun c => List.length (c_points c)) cs))).
Proof.
  unfold vtu_offsets.
  assert (X : forall cs o acc, snd (fold_left (fun (s : nat * text) c => let offset := fst s + List.length (c_points c) in (offset, snd s ++ fmt_nat offset ++ [sp])) cs (o, acc))
    = acc ++ items (map fmt_nat (totals o (map (fun c => List.length (c_points c)) cs)))).
  { clear cs. induction cs as [|c cs IH]; intros o acc; [simpl; now rewrite app_nil_r|]. cbn [fold_left map totals fst snd]. rewrite IH.
    unfold items. cbn [map flat_map]. now rewrite <- !app_assoc. }
  apply (X cs 0 []).
Qed.
Definition types_of (cs : list cell) : list nat := flat_map (fun c => match vtk_type (c_kind c) with Some v => [v] | None => [] end) cs.
Lemma types_items cs : vtu_types cs = items (map fmt_nat (types_of cs)).
Proof.
  induction cs as [|c cs IH]; [reflexivity|]. unfold vtu_types, types_of in *. cbn [flat_map]. rewrite IH, map_app, items_app. f_equal.
  destruct (vtk_type (c_kind c)); [|reflexivity]. simpl. now rewrite app_nil_r.
Qed.
Lemma conn_ok cs : (forall c, In c cs -> vtk_type (c_kind c) <> None) -> vtu_connectivity cs = Ok (items (map fmt_nat (flat_map c_points cs))).
Proof.
  unfold vtu_connectivity. intros H.
  assert (X : forall cs acc, (forall c, In c cs -> vtk_type (c_kind c) <> None) -> foldM (fun (acc : text) c =>
      match vtk_type (c_kind c) with None => Err "cannot generate VTU file because VTK cell type is not available"
      | Some _ => Ok (acc ++ items (map fmt_nat (c_points c))) end) cs acc = Ok (acc ++ items (map fmt_nat (flat_map c_points cs)))).
  { clear cs H. induction cs as [|c cs IH]; intros acc H; [simpl; now rewrite app_nil_r|]. cbn [foldM flat_map].
    destruct (vtk_type (c_kind c)) eqn:E; [|destruct (H c (or_introl eq_refl) E)]. cbn [bind]. rewrite IH by (intros; apply H; right; auto).
    rewrite map_app, items_app, app_assoc. reflexivity. }
  apply (X cs [] H).
Qed.
Lemma conn_err cs : ~ (forall c, In c cs -> vtk_type (c_kind c) <> None) -> exists msg, vtu_connectivity cs = Err msg.
Proof.
  unfold vtu_connectivity. generalize (@nil N). induction cs as [|c cs IH]; intros acc H; [destruct H; intros c []|]. cbn [foldM].
  destruct (vtk_type (c_kind c)) eqn:E; [|eexists; reflexivity]. cbn [bind]. apply IH. intros G. apply H. intros d [<-|I]; [congruence|auto].
Qed.

Lemma totals_nth ns : forall o i, i < List.length ns -> nth_error (totals o ns) i = Some (o + list_sum (firstn (S i) ns)).
Proof.
  induction ns as [|n ns IH]; intros o i Hi; [simpl in Hi; lia|]. destruct i as [|i].
  - simpl. f_equal. lia.
  - cbn [totals nth_error]. rewrite IH by (simpl in Hi; lia). f_equal. cbn [firstn list_sum fold_right]. simpl. lia.
Qed.
Lemma totals_length ns : forall o, List.length (totals o ns) = List.length ns.
Proof. induction ns; intros; simpl; auto. Qed.
Lemma slice_cells (cs : list cell) i c : nth_error cs i = Some c ->
  firstn (List.length (c_points c)) (skipn (list_sum (firstn i (map (fun c => List.length (c_points c)) cs))) (flat_map c_points cs)) = c_points c.
Proof.
  revert i. induction cs as [|d cs IH]; intros [|i] H; try discriminate.
  - injection H as ->. cbn [firstn list_sum fold_right skipn flat_map]. rewrite firstn_app, Nat.sub_diag. simpl. now rewrite app_nil_r, firstn_all.
  - simpl in H. cbn [map firstn list_sum fold_right flat_map]. rewrite skipn_app, skipn_all2 by lia. cbn [app].
    replace (List.length (c_points d) + _ - List.length (c_points d)) with (list_sum (firstn i (map (fun c => List.length (c_points c)) cs))) by (unfold list_sum; lia).
    apply IH; auto.
Qed.

Section Write.
Context {T : Type}.
Variables (fmt_f : T -> text) (parse_f : text -> option T) (zero : T).
Local Notation floats := (VtuSpec.floats fmt_f parse_f zero).
Local Notation markers := VtuSpec.markers.
Definition three (m : mesh T) (p : point T) : list T := pt_coords p ++ (if ndim m =? 2 then [zero] else []).
Definition wordy (m : mesh T) (p : point T) : list text := map fmt_f (pt_coords p) ++ (if ndim m =? 2 then [txt "0.0"] else []).

Lemma get_all {A} (l : list A) : mapM (fun i => get l i) (seq 0 (List.length l)) = Ok l.
Proof.
  apply mapM_ok. assert (X : forall (pre l : list A), Forall2 (fun a b => get (pre ++ l) a = Ok b) (seq (List.length pre) (List.length l)) l).
  { intros pre l0. revert pre. induction l0 as [|x l0 IH]; intros pre; simpl; constructor.
    - unfold get. rewrite nth_error_app2, Nat.sub_diag by lia. reflexivity.
    - specialize (IH (pre ++ [x])). rewrite app_length, Nat.add_1_r, <- app_assoc in IH. exact IH. }
  apply (X [] l).
Qed.
Lemma coords_ok m : coords_complete m -> mapM (vtu_point fmt_f (ndim m)) (points m) = Ok (map (fun p => items (wordy m p)) (points m)).
Proof.
  intros K. apply mapM_total. intros p Hp. unfold vtu_point. rewrite <- (K p Hp), get_all. cbn [bind]. unfold wordy. rewrite (K p Hp), items_app.
  f_equal. f_equal. destruct (ndim m =? 2); reflexivity.
Qed.

Definition file_of (m : mesh T) : vtu T :=
  mkVtu _ (List.length (points m)) (List.length (cells m)) (flat_map (three m) (points m)) (flat_map c_points (cells m))
    (totals 0 (map (fun c => List.length (c_points c)) (cells m))) (types_of (cells m)) (map pt_marker (points m)) (map c_marker (cells m)).

Lemma dig_no_nl n : ~ In 10%N (fmt_nat n). Proof. apply word_no_nl, fmt_nat_word. Qed.
Lemma wordy_words m : floats m -> Forall is_word (concat (map (wordy m) (points m))).
Proof.
  intros (_ & H). apply Forall_concat, Forall_map, Forall_forall. intros p Hp. unfold wordy. apply Forall_app. split.
  - apply Forall_map, Forall_forall. intros x Hx. apply (H p x Hp Hx).
  - destruct (ndim m =? 2); [|constructor]. constructor; [|constructor]. apply ascii_word; [discriminate|]. repeat constructor; vm_compute; discriminate.
Qed.
Lemma wordy_row m : floats m -> row (float parse_f) (flat_map (three m) (points m)) (concat (map (fun p => items (wordy m p)) (points m))).
Proof.
  intros F. exists (concat (map (wordy m) (points m))). split.
  - rewrite <- (map_map (wordy m) items), <- items_concat. apply items_spells, wordy_words; auto.
  - destruct F as (Z & F). assert (X : forall ps, (forall p, In p ps -> In p (points m)) -> Forall2 (float parse_f) (concat (map (wordy m) ps)) (flat_map (three m) ps)).
    { induction ps as [|p ps IH]; intros H; [constructor|]. cbn [map concat flat_map]. apply Forall2_app; [|apply IH; intros; apply H; right; auto].
      unfold wordy, three. apply Forall2_app; [|destruct (ndim m =? 2); constructor; auto].
      apply forall2_map, Forall_forall. intros x Hx. apply (F p x); auto. apply H. left. auto. }
    apply X. auto.
Qed.

Lemma write_ok m : coords_complete m -> cells m <> [] -> (forall c, In c (cells m) -> vtk_type (c_kind c) <> None) ->
  floats m -> markers m -> exists t, write_vtu fmt_f m = Ok t /\ vtu_text parse_f t (file_of m).
Proof.
  intros K Ne Ty F (M1 & M2). unfold write_vtu. destruct (Nat.ltb_spec (List.length (cells m)) 1) as [H|_]; [destruct (cells m); simpl in *; [congruence|lia]|].
  rewrite (coords_ok m K). cbn [bind]. rewrite (conn_ok _ Ty). cbn [bind]. eexists. split; [reflexivity|].
  exists (fmt_nat (List.length (points m))), (fmt_nat (List.length (cells m))), (concat (map (fun p => items (wordy m p)) (points m))),
    (items (map fmt_nat (flat_map c_points (cells m)))), (vtu_offsets (cells m)), (vtu_types (cells m)),
    (items (map (fun p => fmt_i32 (pt_marker p)) (points m))), (items (map (fun c => fmt_i32 (c_marker c)) (cells m))).
  rewrite offsets_items, types_items, <- (map_map pt_marker fmt_i32), <- (map_map c_marker fmt_i32).
  split; [apply fmt_usize_decimal|]. split; [apply fmt_usize_decimal|]. split; [apply wordy_row; auto|].
  split; [apply nat_row|]. split; [apply nat_row|]. split; [apply nat_row|]. split; [|split].
  - apply i32_row, Forall_map, Forall_forall. auto.
  - apply i32_row, Forall_map, Forall_forall. auto.
  - rewrite <- (map_map (wordy m) items), <- items_concat.
    assert (Fx : forall s, forallb (fun c => negb (N.eqb c 10)) (txt s) = true -> ~ In 10%N (txt s)).
    { intros s H I. rewrite forallb_forall in H. specialize (H _ I). discriminate H. }
    match goal with |- text_lines ?l (unlines ?k) => change l with (k ++ [[]]) end.
    apply unlines_lines. repeat (apply Forall_cons; [first
      [ apply Fx; reflexivity
      | apply items_no_nl; first [apply nat_words|apply i32_words|apply wordy_words; auto]
      | idtac ]|]); [|constructor].
    intros I. repeat (apply in_app_or in I as [I|I]); first [exact (dig_no_nl _ I)|revert I; apply Fx; reflexivity].
Qed.
Lemma write_err m : coords_complete m -> ~ (cells m <> [] /\ forall c, In c (cells m) -> vtk_type (c_kind c) <> None) ->
  exists msg, write_vtu fmt_f m = Err msg.
Proof.
  intros K N. unfold write_vtu. destruct (Nat.ltb_spec (List.length (cells m)) 1) as [H|H]; [eexists; reflexivity|].
  rewrite (coords_ok m K). cbn [bind]. destruct (conn_err (cells m)) as (msg & ->); [|eexists; reflexivity].
  intros G. apply N. split; [|auto]. intros E. rewrite E in H. simpl in H. lia.
Qed.

(** a text is the text of at most one file *)
Lemma row_fun {A} (means : text -> A -> Prop) : (forall w x y, means w x -> means w y -> x = y) ->
  forall xs ys l, row means xs l -> row means ys l -> xs = ys.
Proof.
  intros F xs ys l (ws & S & H) (ws' & S' & H'). apply words_spells in S. apply words_spells in S'. rewrite S in S'. subst ws'.
  clear S. revert ys H'. induction H as [|w x ws xs Hw _ IH]; intros ys H'; inversion H'; subst; [auto|]. f_equal; eauto.
Qed.
Lemma natural_fun w x y : natural w x -> natural w y -> x = y.
Proof.
  intros A B. apply decimal_parse in A as (_ & A). apply decimal_parse in B as (_ & B). rewrite A in B. injection B. lia.
Qed.
Lemma i32_fun w x y : i32_numeral w x -> i32_numeral w y -> x = y.
Proof. intros A B. apply parse_i32_iff in A. apply parse_i32_iff in B. congruence. Qed.
Lemma quoted a a' b b' : Forall (fun c => (48 <= c <= 57)%N) a -> Forall (fun c => (48 <= c <= 57)%N) a' -> a ++ 34%N :: b = a' ++ 34%N :: b' -> a = a' /\ b = b'.
Proof.
  intros H. revert a'. induction H as [|c a Hc _ IH]; intros a' H' E.
  - destruct a' as [|c' a']; simpl in E; [injection E; auto|]. injection E as <- _. inversion H'; subst. lia.
  - destruct a' as [|c' a']; simpl in E; [injection E as -> _; lia|]. injection E as <- E. inversion H'; subst.
    destruct (IH a' ltac:(auto) E) as [<- <-]. auto.
Qed.
Lemma vtu_text_fun t f f' : vtu_text parse_f t f -> vtu_text parse_f t f' -> f = f'.
Proof.
  intros (np & nc & pts & conn & offs & ty & pm & cm & A1 & A2 & A3 & A4 & A5 & A6 & A7 & A8 & L)
         (np' & nc' & pts' & conn' & offs' & ty' & pm' & cm' & B1 & B2 & B3 & B4 & B5 & B6 & B7 & B8 & L').
  apply text_lines_pieces in L. apply text_lines_pieces in L'. rewrite L in L'. clear L.
  remember (txt "<Piece NumberOfPoints=""" ++ np ++ txt """ NumberOfCells=""" ++ nc ++ txt """>") as x1 eqn:X1.
  remember (txt "<Piece NumberOfPoints=""" ++ np' ++ txt """ NumberOfCells=""" ++ nc' ++ txt """>") as x2 eqn:X2.
  injection L' as E1 E2 E3 E4 E5 E6 E7. subst pts' conn' offs' ty' pm' cm'. subst x1 x2.
  apply app_inv_head in E1.
  assert (Q1 : txt """ NumberOfCells=""" = 34%N :: txt " NumberOfCells=""") by reflexivity.
  assert (Q2 : txt """>" = 34%N :: txt ">") by reflexivity. rewrite Q1, Q2 in E1. cbn [app] in E1.
  apply quoted in E1 as [-> E1]; [|eapply decimal_digits; eauto|eapply decimal_digits; eauto].
  apply app_inv_head in E1. apply quoted in E1 as [-> _]; [|eapply decimal_digits; eauto|eapply decimal_digits; eauto].
  assert (Ff : forall w x y, float parse_f w x -> float parse_f w y -> x = y) by (unfold float; congruence).
  destruct f as [a1 a2 a3 a4 a5 a6 a7 a8], f' as [b1 b2 b3 b4 b5 b6 b7 b8]. unfold VtuSpec.f_npoint, VtuSpec.f_ncell, VtuSpec.f_points, VtuSpec.f_connectivity, VtuSpec.f_offsets, VtuSpec.f_types, VtuSpec.f_point_marker, VtuSpec.f_cell_marker in *.
  f_equal; eauto using natural_fun, row_fun, i32_fun.
Qed.
End Write.

Lemma vtk_inj k k' v : vtk_type k = Some v -> vtk_type k' = Some v -> k = k'.
Proof. destruct k; try discriminate; intros H; injection H as <-; destruct k'; try discriminate; reflexivity. Qed.
Lemma vtk_order_check : forall k, match vtk_type k with None => True | Some ty => match vtk_nodes ty with None => False | Some nodes =>
  (List.length nodes =? kind_nnode k) && forallb (fun a => forallb (fun i =>
    Qeq_bool (nth i (nth a nodes []) 0%Q) (vtk_coordinate k ty (nth i (reference_coords k a) 0%Q))) (seq 0 (kind_ndim k))) (seq 0 (kind_nnode k)) = true end end.
Proof. destruct k; vm_compute; trivial. Qed.
Lemma vtk_order k ty : vtk_type k = Some ty -> exists nodes, vtk_nodes ty = Some nodes /\ List.length nodes = kind_nnode k /\
  forall a i, a < kind_nnode k -> i < kind_ndim k -> (nth i (nth a nodes []) 0 == vtk_coordinate k ty (nth i (reference_coords k a) 0))%Q.
Proof.
  intros H. pose proof (vtk_order_check k) as X. rewrite H in X. destruct (vtk_nodes ty) as [nodes|]; [|destruct X]. exists nodes. split; [auto|].
  apply andb_true_iff in X as [L X]. apply Nat.eqb_eq in L. split; [auto|]. intros a i Ha Hi.
  rewrite forallb_forall in X. specialize (X a ltac:(apply in_seq; lia)). rewrite forallb_forall in X. specialize (X i ltac:(apply in_seq; lia)).
  now apply Qeq_bool_iff.
Qed.

(** the cells of the file, and the mesh from the file *)
Lemma types_ok cs i c : (forall c, In c cs -> vtk_type (c_kind c) <> None) -> nth_error cs i = Some c -> nth_error (types_of cs) i = vtk_type (c_kind c).
Proof.
  intros H. revert i. unfold types_of. induction cs as [|d cs IH]; intros [|i] E; try discriminate; simpl in E.
  - injection E as ->. cbn [flat_map]. specialize (H c (or_introl eq_refl)). destruct (vtk_type (c_kind c)); [reflexivity|congruence].
  - cbn [flat_map]. pose proof (H d (or_introl eq_refl)) as Hd. destruct (vtk_type (c_kind d)); [|congruence]. simpl. apply IH; auto. intros; apply H; right; auto.
Qed.
Lemma types_length cs : (forall c, In c cs -> vtk_type (c_kind c) <> None) -> List.length (types_of cs) = List.length cs.
Proof.
  induction cs as [|d cs IH]; intros H; [reflexivity|]. unfold types_of in *. cbn [flat_map]. pose proof (H d (or_introl eq_refl)) as Hd.
  destruct (vtk_type (c_kind d)); [|congruence]. simpl. rewrite IH; auto. intros; apply H; right; auto.
Qed.
Section File.
Context {T : Type}.
Variables (fmt_f : T -> text) (parse_f : text -> option T) (zero : T).
Lemma file_cell (m : mesh T) i c : nth_error (cells m) i = Some c -> vtu_cell (file_of zero m) i = c_points c.
Proof.
  intros H. unfold vtu_cell, file_of. cbv delta [VtuSpec.f_offsets VtuSpec.f_connectivity] beta iota.
  set (ns := map (fun c => List.length (c_points c)) (cells m)). assert (Hi : i < List.length (cells m)) by (apply nth_error_Some; congruence).
  assert (L : List.length ns = List.length (cells m)) by apply map_length.
  assert (E : nth i (totals 0 ns) 0 = list_sum (firstn (S i) ns)) by (apply nth_error_nth; rewrite totals_nth by lia; reflexivity).
  assert (E0 : match i with 0 => 0 | S j => nth j (totals 0 ns) 0 end = list_sum (firstn i ns)).
  { destruct i as [|j]; [reflexivity|]. apply nth_error_nth. rewrite totals_nth by lia. reflexivity. }
  rewrite E, E0. assert (N : nth_error ns i = Some (List.length (c_points c))) by (unfold ns; rewrite nth_error_map, H; reflexivity).
  assert (S : list_sum (firstn (S i) ns) = list_sum (firstn i ns) + List.length (c_points c)).
  { clear -N. revert i N. induction ns as [|n ns IH]; intros [|i] N; try discriminate.
    - injection N as ->. simpl. lia.
    - simpl in N. apply IH in N. cbn [firstn] in N |- *. cbn [list_sum fold_right] in N |- *. unfold list_sum in *. simpl in *. lia. }
  rewrite S. replace (_ + _ - _) with (List.length (c_points c)) by lia. apply slice_cells. auto.
Qed.
Lemma chunks {A B} (f : A -> list B) (g : A -> list B) k (l l' : list A) : (forall x, In x l -> List.length (f x) = k) -> (forall x, In x l' -> List.length (g x) = k) ->
  List.length l = List.length l' -> flat_map f l = flat_map g l' -> map f l = map g l'.
Proof.
  intros H. revert l'. induction l as [|x l IH]; intros [|y l'] H' L E; try discriminate; [reflexivity|]. cbn [flat_map map] in *.
  assert (X : forall a b c d : list B, List.length a = List.length b -> a ++ c = b ++ d -> a = b /\ c = d).
  { clear. induction a as [|a0 a IH]; intros [|b0 b] c d L E; try discriminate; [auto|]. simpl in E. injection E as -> E. apply IH in E as [-> ->]; auto. }
  apply X in E as [-> E]; [|rewrite H, H'; simpl; auto]. f_equal. apply IH; auto; intros; [apply H|apply H']; right; auto.
Qed.
Lemma totals_inj ns : forall o ns', totals o ns = totals o ns' -> ns = ns'.
Proof.
  induction ns as [|n ns IH]; intros o [|n' ns'] E; try discriminate; [reflexivity|]. simpl in E. injection E as E1 E.
  assert (n = n') as <- by lia. f_equal. eauto.
Qed.
Lemma chunks_len {A} (l l' : list (list A)) : map (@List.length A) l = map (@List.length A) l' -> concat l = concat l' -> l = l'.
Proof.
  revert l'. induction l as [|x l IH]; intros [|y l'] H E; try discriminate; [reflexivity|]. simpl in *. injection H as H1 H.
  assert (X : forall a b c d : list A, List.length a = List.length b -> a ++ c = b ++ d -> a = b /\ c = d).
  { clear. induction a as [|a0 a IH]; intros [|b0 b] c d L E; try discriminate; [auto|]. simpl in E. injection E as -> E. apply IH in E as [-> ->]; auto. }
  apply X in E as [-> E]; auto. f_equal. auto.
Qed.
Definition embedded (m : mesh T) (p : point T) : list T := pt_coords p ++ repeat zero (3 - ndim m).
Lemma three_embedded m p : ndim m = 2 \/ ndim m = 3 -> three zero m p = embedded m p.
Proof. intros D. unfold three, embedded. f_equal. destruct D as [-> | ->]; reflexivity. Qed.
Lemma file_determines (m m' : mesh T) : (ndim m = 2 \/ ndim m = 3) -> (ndim m' = 2 \/ ndim m' = 3) -> coords_complete m -> coords_complete m' ->
  (forall c, In c (cells m) -> vtk_type (c_kind c) <> None) -> (forall c, In c (cells m') -> vtk_type (c_kind c) <> None) ->
  file_of zero m = file_of zero m' ->
  map (embedded m) (points m) = map (embedded m') (points m') /\ map pt_marker (points m) = map pt_marker (points m') /\
  map (fun c => (c_kind c, c_marker c, c_points c)) (cells m) = map (fun c => (c_kind c, c_marker c, c_points c)) (cells m').
Proof.
  intros D D' K K' Ty Ty' E. injection E as E1 E2 E3 E4 E5 E6 E7 E8. split; [|split; [auto|]].
  - erewrite map_ext_in; [|intros; symmetry; apply three_embedded; auto]. erewrite (map_ext_in (embedded m')); [|intros; symmetry; apply three_embedded; auto].
    apply (chunks _ _ 3); auto; intros p Hp; unfold three; rewrite app_length; [rewrite (K p Hp)|rewrite (K' p Hp)];
    [destruct D as [-> | ->]|destruct D' as [-> | ->]]; reflexivity.
  - apply totals_inj in E5.
    assert (EP : map c_points (cells m) = map c_points (cells m')).
    { apply chunks_len; [|now rewrite <- !flat_map_concat_map]. rewrite !map_map. exact E5. }
    clear E3 E4 E5. revert Ty Ty' E6 E8 EP. generalize (cells m) (cells m'). induction l as [|c l IH]; intros [|c' l'] Ty Ty' E6 E8 EP; try discriminate; [reflexivity|].
    cbn [map] in *. injection E8 as C8 E8. injection EP as CP EP. unfold types_of in E6. cbn [flat_map] in E6.
    destruct (vtk_type (c_kind c)) as [v|] eqn:V; [|destruct (Ty c (or_introl eq_refl) V)].
    destruct (vtk_type (c_kind c')) as [v'|] eqn:V'; [|destruct (Ty' c' (or_introl eq_refl) V')]. injection E6 as -> E6.
    rewrite C8, CP, (vtk_inj _ _ _ V V'). f_equal. apply IH; auto; intros; [apply Ty|apply Ty']; right; auto.
Qed.
End File.
