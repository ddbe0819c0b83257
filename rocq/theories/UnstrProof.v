(* Unstructured generators: loops that fill lists; contents of the meshes of Trigen and Tetgen. *)
From Coq Require Import String List Arith Bool ZArith Reals Lia Lra.
From Verif Require Import Base BaseFacts Kind MeshModel TopoModel GeomModel UnstrModel UnstrSpec MeshQuerySpec.
Import ListNotations.
Local Open Scope list_scope.

Lemma upd_mid {A} (l : list A) : forall x y r, upd (l ++ x :: r) (List.length l) y = l ++ y :: r.
Proof. induction l; intros; simpl; [auto|]. now rewrite IHl. Qed.
Lemma skipn_cons {A} (l : list A) : forall k a, nth_error l k = Some a -> skipn k l = a :: skipn (S k) l.
Proof. induction l; intros [|k] b H; simpl in *; try discriminate; [congruence|]. now apply IHl. Qed.

Lemma fill {A} (step : list A -> nat -> res (list A)) (f : nat -> A) l0 :
  (forall l i, i < List.length l0 -> List.length l = List.length l0 -> nth_error l i = nth_error l0 i -> step l i = Ok (upd l i (f i))) ->
  foldM step (seq 0 (List.length l0)) l0 = Ok (map f (seq 0 (List.length l0))).
Proof.
  intros H. assert (G : forall k, k <= List.length l0 -> foldM step (seq 0 k) l0 = Ok (map f (seq 0 k) ++ skipn k l0)).
  { induction k; intros Hk; [reflexivity|]. rewrite seq_S, foldM_app, IHk by lia. simpl bind.
    destruct (nth_error l0 k) as [a|] eqn:E; [|apply nth_error_None in E; lia].
    rewrite (skipn_cons l0 k a E). cbn [foldM Nat.add].
    rewrite H; [| lia | rewrite app_length, map_length, seq_length; cbn [List.length]; rewrite skipn_length; lia |].
    - cbn [bind]. f_equal. rewrite map_app. cbn [map]. rewrite <- app_assoc.
      pose proof (upd_mid (map f (seq 0 k)) a (f k) (skipn (S k) l0)) as U. rewrite map_length, seq_length in U. exact U.
    - rewrite nth_error_app2 by (rewrite map_length, seq_length; lia). rewrite map_length, seq_length, Nat.sub_diag. cbn [nth_error]. auto. }
  rewrite G by lia. rewrite skipn_all, app_nil_r. reflexivity.
Qed.

Lemma map_nth_seq {A} (l : list A) d : map (fun i => nth i l d) (seq 0 (List.length l)) = l.
Proof.
  apply (nth_ext _ _ d d); [rewrite map_length, seq_length; auto|]. intros i Hi. rewrite map_length, seq_length in Hi.
  rewrite (nth_indep _ d (nth 0 l d)) by (rewrite map_length, seq_length; auto). rewrite (map_nth (fun i => nth i l d)), seq_nth by auto. reflexivity.
Qed.
Lemma fill_row (src : list nat) dst : List.length dst = List.length src ->
  foldM (fun ps m => let! p := get src m in set ps m p) (seq 0 (List.length src)) dst = Ok src.
Proof.
  intros L. rewrite <- L at 1. rewrite (fill _ (fun i => nth i src 0)).
  - rewrite L. now rewrite map_nth_seq.
  - intros l i Hi Hl _. rewrite (get_ok src i 0) by lia. cbn [bind]. apply set_ok. lia.
Qed.

Lemma fill_cells_ok nnode out kind cs : List.length cs = List.length out -> (forall c, In c cs -> c_kind c = kind /\ List.length (c_points c) = nnode) ->
  (forall o, In o out -> List.length (snd o) = nnode) ->
  fill_cells nnode out cs = Ok (map (fun i => mkCell i (fst (nth i out (0%Z, []))) kind (snd (nth i out (0%Z, [])))) (seq 0 (List.length out))).
Proof.
  intros L HC HO. unfold fill_cells. rewrite <- L. apply fill. intros l i Hi Hl E.
  rewrite (get_ok out i (0%Z, [])) by lia. cbn [bind].
  destruct (nth_error cs i) as [c|] eqn:Ec; [|apply nth_error_None in Ec; lia]. replace (get l i) with (Ok c) by (unfold get; now rewrite E). cbn [bind].
  destruct (HC c (nth_error_In _ _ Ec)) as [Kc Lc].
  assert (Lo : List.length (snd (nth i out (0%Z, []))) = nnode) by (apply HO, nth_In; lia).
  rewrite <- Lo. rewrite fill_row by congruence. cbn [bind]. rewrite Kc. apply set_ok. lia.
Qed.

Lemma holds_intro out kind (m : mesh R) : cells m = map (fun i => mkCell i (fst (nth i out (0%Z, []))) kind (snd (nth i out (0%Z, [])))) (seq 0 (List.length out)) -> holds_cells out kind m.
Proof.
  intros E. split; [now rewrite E, map_length, seq_length|]. intros i mk ps H. rewrite E.
  assert (Hi : i < List.length out) by (apply nth_error_Some; congruence).
  erewrite map_nth_error; [|apply nth_error_nth' with (d := 0); rewrite seq_length; auto].
  rewrite seq_nth by auto. cbn [Nat.add]. rewrite (nth_error_nth out i (0%Z, []) H). reflexivity.
Qed.

(* sensible output of Trigen *)
Definition tri_fine (t : tri_out) : Prop :=
  2 <= List.length (to_points t) /\ 1 <= List.length (to_cells t) /\ (to_nnode t = 3 \/ to_nnode t = 6) /\
  (forall o, In o (to_cells t) -> List.length (snd o) = to_nnode t).
Definition tri_points (t : tri_out) : list (point R) :=
  map (fun i => let '(mk, x, y) := nth i (to_points t) (0%Z, 0%R, 0%R) in mkPoint i mk [x; y]) (seq 0 (List.length (to_points t))).
Lemma from_trigen_ok t : tri_fine t -> exists m, from_trigen t = Ok m /\ ndim m = 2 /\ points m = tri_points t /\
  holds_cells (to_cells t) (if (to_nnode t =? 6) then Tri6 else Tri3) m /\
  marked_edges m = filter (fun s => negb (fst (fst s) =? 0)%Z) (to_segments t) /\ marked_faces m = [].
Proof.
  intros (Hp & Hc & Hn & Ho). unfold from_trigen. set (kind := if (to_nnode t =? 6) then Tri6 else Tri3).
  assert (K : kind_nnode kind = to_nnode t) by (unfold kind; destruct Hn as [-> | ->]; reflexivity).
  unfold zero_mesh. change ((2 <? 2) || (3 <? 2)) with false. cbn iota.
  rewrite (proj2 (Nat.ltb_ge (List.length (to_points t)) 2)) by auto. rewrite (proj2 (Nat.ltb_ge (List.length (to_cells t)) 1)) by auto.
  replace (2 <? kind_ndim kind) with false by (unfold kind; destruct (to_nnode t =? 6); reflexivity). cbn [ok_or_panic bind points cells].
  match goal with |- context [foldM ?f (seq 0 (List.length (to_points t))) ?l0] => set (F := f); set (l := l0) end.
  assert (Ll : List.length l = List.length (to_points t)) by (unfold l; now rewrite map_length, seq_length).
  rewrite <- Ll. rewrite (fill F (fun i => let '(mk, x, y) := nth i (to_points t) (0%Z, 0%R, 0%R) in mkPoint i mk [x; y])).
  2:{ intros l' i Hi Hl' _. unfold F. rewrite (get_ok (to_points t) i (0%Z, 0%R, 0%R)) by lia. cbn [bind].
      destruct (nth i (to_points t) (0%Z, 0%R, 0%R)) as [[mk x] y]. apply set_ok. lia. }
  cbn [bind]. rewrite (fill_cells_ok _ _ kind).
  - cbn [bind]. eexists. split; [reflexivity|]. cbn [ndim points marked_edges marked_faces]. rewrite Ll.
    split; [auto|]. split; [reflexivity|]. split; [|split; reflexivity]. now apply holds_intro.
  - now rewrite map_length, seq_length.
  - intros c Hc'. apply in_map_iff in Hc'. destruct Hc' as (i & <- & _). cbn [c_kind c_points]. now rewrite repeat_length.
  - exact Ho.
Qed.

(* output that makes from_trigen panic *)
Lemma from_trigen_panic t : List.length (to_points t) < 2 \/ List.length (to_cells t) < 1 -> from_trigen t = Panic.
Proof.
  intros H. unfold from_trigen, zero_mesh. change ((2 <? 2) || (3 <? 2)) with false. cbn iota.
  destruct (List.length (to_points t) <? 2) eqn:E; [reflexivity|]. apply Nat.ltb_ge in E.
  destruct H as [H|H]; [lia|]. now rewrite (proj2 (Nat.ltb_lt _ _) H).
Qed.

Definition tet_fine (t : tet_out) : Prop :=
  2 <= List.length (eo_points t) /\ 1 <= List.length (eo_cells t) /\ (eo_nnode t = 4 \/ eo_nnode t = 10) /\
  (forall o, In o (eo_cells t) -> List.length (snd o) = eo_nnode t) /\ (forall f, In f (eo_faces t) -> 3 <= List.length (snd f)).
Definition tet_marker (mk : Z) : Z := if (mk =? 1)%Z then 0%Z else mk.
Definition tet_points (t : tet_out) : list (point R) :=
  map (fun i => let '(mk, x, y, z) := nth i (eo_points t) (0%Z, 0%R, 0%R, 0%R) in mkPoint i (tet_marker mk) [x; y; z]) (seq 0 (List.length (eo_points t))).
Definition tet_face (f : Z * list nat) : Z * nat * nat * nat * option nat := (fst f, nth 0 (snd f) 0, nth 1 (snd f) 0, nth 2 (snd f) 0, None).
Lemma faces_fold fs : (forall f, In f fs -> 3 <= List.length (snd f)) -> forall acc,
  foldM (fun (fs : list (Z * nat * nat * nat * option nat)) (f : Z * list nat) =>
      if (fst f =? 0)%Z then Ok fs else
      let! a := get (snd f) 0 in let! b := get (snd f) 1 in let! c := get (snd f) 2 in
      Ok (fs ++ [(fst f, a, b, c, None)])) fs acc = Ok (acc ++ map tet_face (filter (fun f => negb (fst f =? 0)%Z) fs)).
Proof.
  induction fs as [|f fs IH]; intros H acc; [cbn [foldM filter map]; now rewrite app_nil_r|].
  cbn [foldM filter]. destruct (fst f =? 0)%Z; cbn [bind negb].
  - apply IH. intros; apply H; now right.
  - assert (L := H f (or_introl eq_refl)). rewrite !(get_ok (snd f) _ 0) by lia. cbn [bind]. rewrite IH by (intros; apply H; now right).
    cbn [map]. rewrite <- app_assoc. reflexivity.
Qed.
Lemma from_tetgen_ok t : tet_fine t -> exists m, from_tetgen t = Ok m /\ ndim m = 3 /\ points m = tet_points t /\
  holds_cells (eo_cells t) (if (eo_nnode t =? 10) then Tet10 else Tet4) m /\
  marked_edges m = [] /\ marked_faces m = map tet_face (filter (fun f => negb (fst f =? 0)%Z) (eo_faces t)).
Proof.
  intros (Hp & Hc & Hn & Ho & Hf). unfold from_tetgen. set (kind := if (eo_nnode t =? 10) then Tet10 else Tet4).
  assert (K : kind_nnode kind = eo_nnode t) by (unfold kind; destruct Hn as [-> | ->]; reflexivity).
  unfold zero_mesh. change ((3 <? 2) || (3 <? 3)) with false. cbn iota.
  rewrite (proj2 (Nat.ltb_ge (List.length (eo_points t)) 2)) by auto. rewrite (proj2 (Nat.ltb_ge (List.length (eo_cells t)) 1)) by auto.
  replace (3 <? kind_ndim kind) with false by (unfold kind; destruct (eo_nnode t =? 10); reflexivity). cbn [ok_or_panic bind points cells].
  match goal with |- context [foldM ?f (seq 0 (List.length (eo_points t))) ?l0] => set (F := f); set (l := l0) end.
  assert (Ll : List.length l = List.length (eo_points t)) by (unfold l; now rewrite map_length, seq_length).
  rewrite <- Ll. rewrite (fill F (fun i => let '(mk, x, y, z) := nth i (eo_points t) (0%Z, 0%R, 0%R, 0%R) in mkPoint i (tet_marker mk) [x; y; z])).
  2:{ intros l' i Hi Hl' _. unfold F. rewrite (get_ok (eo_points t) i (0%Z, 0%R, 0%R, 0%R)) by lia. cbn [bind].
      destruct (nth i (eo_points t) (0%Z, 0%R, 0%R, 0%R)) as [[[mk x] y] z]. apply set_ok. lia. }
  cbn [bind]. rewrite (fill_cells_ok _ _ kind).
  - cbn [bind]. rewrite faces_fold by exact Hf. cbn [bind]. eexists. split; [reflexivity|]. cbn [ndim points marked_edges marked_faces]. rewrite Ll.
    split; [auto|]. split; [reflexivity|]. split; [|split; reflexivity]. now apply holds_intro.
  - now rewrite map_length, seq_length.
  - intros c Hc'. apply in_map_iff in Hc'. destruct Hc' as (i & <- & _). cbn [c_kind c_points]. now rewrite repeat_length.
  - exact Ho.
Qed.
