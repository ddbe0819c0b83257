(* The input of Trigen made from a mesh. *)
From Coq Require Import String List Arith Bool ZArith Reals Lia Lra Permutation Sorted.
From Verif Require Import Base BaseFacts Kind MeshModel GraphModel TopoModel TopoSpec TopoMaps TopoFeat3 TopoFeat6 TopoFinal SearchProof2 GeomModel MeshQuerySpec
  PropTopo UnstrModel UnstrSpec UnstrProof UnstrProof2 UnstrProof6 UnstrProof9.
Import ListNotations.
Local Open Scope list_scope.
Local Open Scope nat_scope.

Lemma map_nth_seq' {A B} (f : A -> B) (l : list A) d : map (fun i => f (nth i l d)) (seq 0 (List.length l)) = map f l.
Proof. rewrite <- (map_map (fun i => nth i l d) f). now rewrite map_nth_seq. Qed.
Lemma combine_seq {A} (l : list A) d : combine (seq 0 (List.length l)) l = map (fun i => (i, nth i l d)) (seq 0 (List.length l)).
Proof.
  apply (nth_ext _ _ (0, d) (0, d)); rewrite ?combine_length, ?map_length, !seq_length; [lia|]. intros i Hi.
  rewrite combine_nth by (now rewrite seq_length). rewrite seq_nth by lia.
  rewrite (nth_indep (map _ _) (0, d) (0, nth 0 l d)) by (rewrite map_length, seq_length; lia). rewrite (map_nth (fun i => (i, nth i l d))), seq_nth by lia. reflexivity.
Qed.
Lemma max_of_entry o mk : max_of o mk = entry o mk.
Proof.
  destruct o as [l|]; [|reflexivity]. unfold max_of, entry. induction l as [|[k v] l IH]; [reflexivity|]. cbn [mget find fst]. rewrite IH.
  destruct (k =? mk)%Z; reflexivity.
Qed.
Lemma sum_fold (f g : nat -> R) : forall l a b, fold_left (fun (s : R * R) p => (fst s + f p, snd s + g p)%R) l (a, b) = (a + fold_right Rplus 0 (map f l), b + fold_right Rplus 0 (map g l))%R.
Proof.
  induction l as [|p l IH]; intros a b; cbn [fold_left map fold_right fst snd]; [now rewrite !Rplus_0_r|]. rewrite IH. f_equal; ring.
Qed.

Lemma cell_by_id {T} (m : mesh T) c : consistent m -> In c (cells m) -> nth_error (cells m) (c_id c) = Some c.
Proof. intros C H. apply In_nth_error in H. destruct H as (i & Hi). destruct (proj2 C i c Hi) as (E & _). now rewrite E. Qed.
Section Tri.
Variables (leb : R -> R -> bool) (shuffle : emap -> emap).
Hypothesis Sh : forall l, Permutation (shuffle l) l.
Variable m : mesh R.
Hypothesis C : consistent m. Hypothesis K : coords_complete m. Hypothesis D : ndim m = 2.
(* the edges of the cells have two points *)
Definition simple_edges : Prop := forall c, In c (cells m) -> kind_ndim (c_kind c) = 2 -> kind_edge_nnode (c_kind c) = 2.

Definition dpt : point R := mkPoint 0 0%Z [].
Definition fpoint (p : point R) : Z * R * R := (pt_marker p, nth 0 (pt_coords p) 0%R, nth 1 (pt_coords p) 0%R).
Lemma coord_get p j : In p (points m) -> j < 2 -> get (pt_coords p) j = Ok (nth j (pt_coords p) 0%R).
Proof. intros Hp Hj. apply get_ok. rewrite (K p Hp), D. exact Hj. Qed.
Lemma points_loop sg rg hl :
  foldM (fun t i => let! p := get (points m) i in let! x := get (pt_coords p) 0 in let! y := get (pt_coords p) 1 in tri_point t i (pt_marker p) x y)
    (seq 0 (List.length (points m))) (mkTriIn (repeat None (List.length (points m))) sg rg hl) =
  Ok (mkTriIn (map (fun p => Some (fpoint p)) (points m)) sg rg hl).
Proof.
  set (n := List.length (points m)). set (F := fun i => fpoint (nth i (points m) dpt)).
  match goal with |- foldM ?s _ ?t0 = _ => destruct (iloop s (fun k t => t = mkTriIn (map (fun i => Some (F i)) (seq 0 k) ++ repeat None (n - k)) sg rg hl) n) with (t := t0) as (t' & E & ->) end.
  - intros k t Hk ->. rewrite (get_ok (points m) k dpt) by auto. cbn [bind].
    assert (Hp : In (nth k (points m) dpt) (points m)) by (apply nth_In; auto). rewrite !coord_get by (auto; lia). cbn [bind]. unfold tri_point. cbn [ti_points ti_segments ti_regions ti_holes].
    rewrite (put_next n F k) by auto. cbn [bind]. eauto.
  - cbn [seq map app]. now rewrite Nat.sub_0_r.
  - rewrite E. f_equal. f_equal. rewrite Nat.sub_diag. cbn [repeat]. rewrite app_nil_r. unfold F. exact (map_nth_seq' (fun p => Some (fpoint p)) (points m) dpt).
Qed.

Definition fregion (ma : option (list (Z * R))) (c : cell) : Z * R * R * option R := (c_marker c, mean (cell_coord m c 0), mean (cell_coord m c 1), entry ma (c_marker c)).
Definition dcell : cell := mkCell 0 0%Z Lin2 [].
Lemma center_loop c : In c (cells m) ->
  foldM (fun (s : R * R) p => let! pt := get (points m) p in let! x := get (pt_coords pt) 0 in let! y := get (pt_coords pt) 1 in Ok (fst s + x, snd s + y)%R) (c_points c) (0%R, 0%R) =
  Ok (fold_right Rplus 0%R (cell_coord m c 0), fold_right Rplus 0%R (cell_coord m c 1)).
Proof.
  intros Hc. apply In_nth_error in Hc. destruct Hc as (i & Hi). destruct (proj2 C i c Hi) as (_ & _ & Rg).
  set (X := fun j p => match nth_error (points m) p with Some pt => nth j (pt_coords pt) 0%R | None => 0%R end).
  assert (G : forall l s, (forall q, In q l -> q < List.length (points m)) ->
    foldM (fun (s : R * R) p => let! pt := get (points m) p in let! x := get (pt_coords pt) 0 in let! y := get (pt_coords pt) 1 in Ok (fst s + x, snd s + y)%R) l s =
    Ok (fold_left (fun (s : R * R) p => (fst s + X 0%nat p, snd s + X 1%nat p)%R) l s)).
  { induction l as [|p l IH]; intros s H; [reflexivity|]. cbn [foldM fold_left]. assert (Hp : p < List.length (points m)) by (apply H; now left).
    rewrite (get_ok (points m) p dpt) by auto. cbn [bind]. assert (HI : In (nth p (points m) dpt) (points m)) by (apply nth_In; auto).
    rewrite !coord_get by (auto; lia). cbn [bind]. rewrite IH by (intros; apply H; now right). unfold X at 5 6. now rewrite (nth_error_nth' _ dpt Hp). }
  rewrite G by auto. rewrite sum_fold. rewrite !Rplus_0_l. reflexivity.
Qed.
Lemma regions_loop ma ps sg hl :
  foldM (fun t c =>
      let! cen := foldM (fun (s : R * R) p => let! pt := get (points m) p in let! x := get (pt_coords pt) 0 in let! y := get (pt_coords pt) 1 in Ok (fst s + x, snd s + y)%R) (c_points c) (0%R, 0%R) in
      let n := INR (List.length (c_points c)) in
      tri_region t (c_id c) (c_marker c) (fst cen / n)%R (snd cen / n)%R (max_of ma (c_marker c))) (cells m) (mkTriIn ps sg (repeat None (List.length (cells m))) hl) =
  Ok (mkTriIn ps sg (map (fun c => Some (fregion ma c)) (cells m)) hl).
Proof.
  set (n := List.length (cells m)). set (F := fun i => fregion ma (nth i (cells m) dcell)).
  match goal with |- foldM ?s _ ?t0 = _ => assert (E0 : foldM s (cells m) t0 = foldM (fun t i => s t (nth i (cells m) dcell)) (seq 0 n) t0) end.
  { rewrite <- (map_nth_seq (cells m) dcell) at 1. now rewrite foldM_map. }
  rewrite E0. clear E0.
  match goal with |- foldM ?s _ ?t0 = _ => destruct (iloop s (fun k t => t = mkTriIn ps sg (map (fun i => Some (F i)) (seq 0 k) ++ repeat None (n - k)) hl) n) with (t := t0) as (t' & E & ->) end.
  - intros k t Hk ->. set (c := nth k (cells m) dcell). assert (Hc : In c (cells m)) by (apply nth_In; auto). rewrite (center_loop c Hc). cbn [bind fst snd].
    assert (Ei : c_id c = k) by (apply (proj2 C k c); apply nth_error_nth'; auto). rewrite Ei. unfold tri_region. cbn [ti_points ti_segments ti_regions ti_holes].
    rewrite (put_next n F k); [cbn [bind]; eauto|auto|]. unfold F, fregion, mean, cell_coord. rewrite !map_length. fold c. rewrite max_of_entry. reflexivity.
  - cbn [seq map app]. now rewrite Nat.sub_0_r.
  - rewrite E. f_equal. f_equal. rewrite Nat.sub_diag. cbn [repeat]. rewrite app_nil_r. unfold F. exact (map_nth_seq' (fun p => Some (fregion ma p)) (cells m) dcell).
Qed.
Lemma holes_loop (holes : list (R * R)) ps sg rg :
  foldM (fun t (ih : nat * (R * R)) => tri_hole t (fst ih) (fst (snd ih)) (snd (snd ih))) (combine (seq 0 (List.length holes)) holes) (mkTriIn ps sg rg (repeat None (List.length holes))) =
  Ok (mkTriIn ps sg rg (map Some holes)).
Proof.
  rewrite (combine_seq holes (0%R, 0%R)), foldM_map.
  set (n := List.length holes). set (F := fun i => nth i holes (0%R, 0%R)).
  match goal with |- foldM ?s _ ?t0 = _ => destruct (iloop s (fun k t => t = mkTriIn ps sg rg (map (fun i => Some (F i)) (seq 0 k) ++ repeat None (n - k))) n) with (t := t0) as (t' & E & ->) end.
  - intros k t Hk ->. cbn [fst snd]. unfold tri_hole. cbn [ti_points ti_segments ti_regions ti_holes].
    rewrite (put_next n F k); [cbn [bind]; eauto|auto|]. unfold F. now destruct (nth k holes (0%R, 0%R)).
  - cbn [seq map app]. now rewrite Nat.sub_0_r.
  - rewrite E. f_equal. f_equal. rewrite Nat.sub_diag. cbn [repeat]. rewrite app_nil_r. unfold F. exact (map_nth_seq' Some holes (0%R, 0%R)).
Qed.

Variable ft : @features R.
Hypothesis HF : features_new leb shuffle m true = Ok ft.
Definition seg_of (ed : edge) : Z * nat * nat := (e_marker ed, nth 0 (e_points ed) 0, nth 1 (e_points ed) 0).
Notation keys := (isort ekey_leb (map fst (ft_edges ft))).
Definition ded : edge := mkEdge Lin2 [] 0%Z.
Definition edge_at (k : nat * nat) : edge := match mget ekey_eqb (ft_edges ft) k with Some ed => ed | None => ded end.
Definition segs : list (Z * nat * nat) := map (fun k => seg_of (edge_at k)) keys.
Lemma key_edge k : In k keys -> get_edge ft (fst k) (snd k) = Ok (edge_at k).
Proof.
  intros Hk. apply (proj1 (perm_in ekey_leb _ _)) in Hk. destruct k as [a b]. cbn [fst snd]. unfold edge_at. destruct (mget ekey_eqb (ft_edges ft) (a, b)) as [ed|] eqn:E.
  - now apply get_edge_iff.
  - exfalso. apply (mget_none _ ekey_eqb_eq) in E. apply E. exact Hk.
Qed.
Lemma edge_facts k : In k keys -> fst k <= snd k /\ edge_marker m (fst k) (snd k) (e_marker (edge_at k)) /\
  exists ce, first_with (has_edge m (fst k) (snd k)) ce /\ edge_nodes m (fst ce) (snd ce) (e_kind (edge_at k)) (e_points (edge_at k)).
Proof.
  intros Hk. pose proof (key_edge k Hk) as G. destruct (edges_2d leb shuffle Sh m true ft C D HF) as (_ & _ & I1 & I2).
  split; [apply I1; eauto|]. now apply I2.
Qed.
Lemma edge_two : simple_edges -> forall k, In k keys -> exists ce a b, e_points (edge_at k) = [a; b] /\ first_with (has_edge m (fst k) (snd k)) ce /\
  edge_of m (fst ce) (snd ce) a b /\ same_pair (fst k) (snd k) a b /\ a < List.length (points m) /\ b < List.length (points m).
Proof.
  intros SE k Hk. destruct (edge_facts k Hk) as (_ & _ & ce & FW & (cl & H1 & H2 & H3 & H4 & H5 & H6)). rewrite (SE cl H1 H3) in H6. cbn [seq map] in H6.
  destruct (e_points (edge_at k)) as [|a [|b [|? ?]]]; try discriminate H6. cbn [map] in H6. injection H6 as Ea Eb.
  exists ce, a, b. split; [reflexivity|]. split; [exact FW|]. assert (EO : edge_of m (fst ce) (snd ce) a b) by (exists cl; auto 8). split; [exact EO|].
  destruct FW as [(p & q & (cl' & G1 & G2 & G3 & G4 & G5 & G6) & SP) _].
  assert (cl' = cl). { pose proof (cell_by_id m cl C H1) as X. pose proof (cell_by_id m cl' C G1) as X'. rewrite H2 in X. rewrite G2 in X'. congruence. }
  subst cl'. split; [congruence|]. apply In_nth_error in H1. destruct H1 as (i & Hi). destruct (proj2 C i cl Hi) as (_ & _ & Rg).
  split; apply Rg; eapply nth_error_In; eauto.
Qed.
Lemma segments_loop ps rg hl : simple_edges -> List.length ps = List.length (points m) ->
  foldM (fun t i => let! k := get keys i in let! ed := unwrap (mget ekey_eqb (ft_edges ft) k) in
      match e_points ed with [a; b] => tri_segment t i (e_marker ed) a b | _ => Err "edges must have 2 points" end)
    (seq 0 (List.length keys)) (mkTriIn ps (repeat None (List.length (ft_edges ft))) rg hl) =
  Ok (mkTriIn ps (map Some segs) rg hl).
Proof.
  intros SE LP. replace (List.length (ft_edges ft)) with (List.length keys) by (rewrite isort_length; apply map_length).
  set (n := List.length keys). set (F := fun i => seg_of (edge_at (nth i keys (0, 0)))).
  match goal with |- foldM ?s _ ?t0 = _ => destruct (iloop s (fun k t => t = mkTriIn ps (map (fun i => Some (F i)) (seq 0 k) ++ repeat None (n - k)) rg hl) n) with (t := t0) as (t' & E & ->) end.
  - intros k t Hk ->. set (ky := nth k keys (0, 0)). assert (Hky : In ky keys) by (apply nth_In; auto). rewrite (get_ok keys k (0, 0)) by auto. cbn [bind]. fold ky.
    pose proof (key_edge ky Hky) as G. unfold get_edge in G. replace (fst ky, snd ky) with ky in G by (now destruct ky). rewrite G. cbn [bind].
    destruct (edge_two SE ky Hky) as (ce & a & b & EP & _ & _ & _ & La & Lb). rewrite EP. unfold tri_segment. cbn [ti_points ti_segments ti_regions ti_holes].
    rewrite LP, (proj2 (Nat.ltb_lt _ _) La), (proj2 (Nat.ltb_lt _ _) Lb). cbn [andb].
    rewrite (put_next n F k); [cbn [bind]; eauto|auto|]. unfold F, seg_of. fold ky. now rewrite EP.
  - cbn [seq map app]. now rewrite Nat.sub_0_r.
  - rewrite E. f_equal. f_equal. rewrite Nat.sub_diag. cbn [repeat]. rewrite app_nil_r. unfold F, segs. rewrite map_map. exact (map_nth_seq' (fun k => Some (seg_of (edge_at k))) keys (0, 0)).
Qed.
Lemma pair_sym a b p q : same_pair a b p q -> same_pair b a p q. Proof. unfold same_pair. tauto. Qed.
Lemma segs_spec : simple_edges ->
  StronglySorted lex (map (fun s => (Nat.min (snd (fst s)) (snd s), Nat.max (snd (fst s)) (snd s))) segs) /\
  (forall mk a b, In (mk, a, b) segs -> edge_marker m a b mk /\ exists ce, first_with (has_edge m a b) ce /\ edge_of m (fst ce) (snd ce) a b) /\
  (forall a b, (exists ce, has_edge m a b ce) -> exists mk p q, In (mk, p, q) segs /\ same_pair a b p q).
Proof.
  intros SE. destruct (edges_2d leb shuffle Sh m true ft C D HF) as (ND & _ & I1 & I2). split; [|split].
  - unfold segs. rewrite map_map. replace (map _ keys) with keys; [now apply ekeys_sorted|]. rewrite <- (map_id keys) at 1. apply map_ext_in. intros k Hk.
    destruct (edge_two SE k Hk) as (ce & a & b & EP & _ & _ & SP & _). destruct (edge_facts k Hk) as (L & _). unfold seg_of. rewrite EP. cbn [nth fst snd].
    destruct k as [x y]. cbn [fst snd] in *. unfold same_pair in SP. f_equal; lia.
  - intros mk a b H. unfold segs in H. apply in_map_iff in H. destruct H as (k & E & Hk). destruct (edge_two SE k Hk) as (ce & p & q & EP & FW & EO & SP & _).
    destruct (edge_facts k Hk) as (_ & MK & _). unfold seg_of in E. rewrite EP in E. cbn [nth] in E. injection E as <- <- <-.
    assert (P : forall u v, same_pair p q u v <-> same_pair (fst k) (snd k) u v) by (intros u v; unfold same_pair in *; lia).
    split.
    + destruct MK as [(l1 & l2 & u & v & A1 & A2 & A3)|(A1 & A2)].
      * left. exists l1, l2, u, v. split; [auto|]. split; [now apply P|]. intros z x y I S. apply (A3 z x y I). now apply P.
      * right. split; [auto|]. intros z x y I S. apply (A2 z x y I). now apply P.
    + exists ce. split; [|auto]. destruct FW as (F1 & F2). assert (HE : forall x, has_edge m p q x <-> has_edge m (fst k) (snd k) x).
      { intros x. unfold has_edge. split; intros (u & v & G & S); exists u, v; (split; [auto|]); now apply P. }
      split; [now apply HE|]. intros y Hy. apply F2. now apply HE.
  - intros a b (ce & HE). set (k := (Nat.min a b, Nat.max a b)).
    assert (HE' : has_edge m (fst k) (snd k) ce) by (destruct HE as (u & v & G & S); exists u, v; split; [auto|]; unfold k; cbn [fst snd]; unfold same_pair in *; lia).
    assert (exists ed, get_edge ft (fst k) (snd k) = Ok ed) as (ed & G) by (apply I1; split; [unfold k; cbn [fst snd]; lia|exists ce; exact HE']).
    assert (Hk : In k keys).
    { apply (proj2 (perm_in ekey_leb _ _)). apply get_edge_iff in G. apply (mget_in _ ekey_eqb_eq) in G. apply (in_map fst) in G. exact G. }
    destruct (edge_two SE k Hk) as (ce' & p & q & EP & _ & _ & SP & _). exists (e_marker (edge_at k)), p, q. split.
    + unfold segs. apply in_map_iff. exists k. split; [|auto]. unfold seg_of. now rewrite EP.
    + unfold k in SP. cbn [fst snd] in SP. unfold same_pair in *. lia.
Qed.
End Tri.

Lemma trigen_run leb shuffle gen2 : (forall l, Permutation (shuffle l) l) -> forall m holes o2 ma gma gmi ren,
  consistent m -> coords_complete m -> ndim m = 2 -> simple_edges m -> 3 <= List.length (points m) ->
  (exists ft, features_new leb shuffle m true = Ok ft /\ 3 <= List.length (ft_edges ft)) ->
  exists t segs, call_trigen leb shuffle gen2 m holes o2 ma gma gmi ren =
      (let! out := gen2 t o2 true gma gmi in let! r := from_trigen out in maybe_renumbered ren r) /\
    ti_points t = map (fun p => Some (pt_marker p, nth 0 (pt_coords p) 0%R, nth 1 (pt_coords p) 0%R)) (points m) /\
    ti_segments t = map Some segs /\
    StronglySorted lex (map (fun s => (Nat.min (snd (fst s)) (snd s), Nat.max (snd (fst s)) (snd s))) segs) /\
    (forall mk a b, In (mk, a, b) segs -> edge_marker m a b mk /\ exists ce, first_with (has_edge m a b) ce /\ edge_of m (fst ce) (snd ce) a b) /\
    (forall a b, (exists ce, has_edge m a b ce) -> exists mk p q, In (mk, p, q) segs /\ same_pair a b p q) /\
    ti_regions t = map (fun c => Some (c_marker c, mean (cell_coord m c 0), mean (cell_coord m c 1), entry ma (c_marker c))) (cells m) /\
    ti_holes t = map Some holes.
Proof.
  intros Sh m holes o2 ma gma gmi ren C K D SE L (ft & HF & LE).
  exists (mkTriIn (map (fun p => Some (fpoint p)) (points m)) (map Some (segs ft)) (map (fun c => Some (fregion m ma c)) (cells m)) (map Some holes)), (segs ft).
  destruct (segs_spec leb shuffle Sh m C D ft HF SE) as (S1 & S2 & S3).
  split; [|cbn [ti_points ti_segments ti_regions ti_holes]; repeat (split; [reflexivity || assumption|]); reflexivity].
  unfold call_trigen. rewrite D. change (negb (2 =? 2)) with false. cbn iota. cbv zeta. rewrite HF. cbn [bind].
  unfold trigen_new. rewrite (proj2 (Nat.ltb_ge _ 3) L), (proj2 (Nat.ltb_ge _ 3) LE). cbn [orb bind].
  rewrite (points_loop m K D). cbn [bind].
  rewrite (segments_loop leb shuffle Sh m C D ft HF _ _ _ SE) by (now rewrite map_length). cbn [bind].
  rewrite (regions_loop m C K D). cbn [bind]. rewrite holes_loop. reflexivity.
Qed.

(* three different edges *)
Definition three_edges {T} (m : mesh T) : Prop := exists a b c d e f, (exists ce, has_edge m a b ce) /\ (exists ce, has_edge m c d ce) /\ (exists ce, has_edge m e f ce) /\
  ~ same_pair a b c d /\ ~ same_pair a b e f /\ ~ same_pair c d e f.
Lemma three_listed leb shuffle (m : mesh R) ft : (forall l, Permutation (shuffle l) l) -> consistent m -> ndim m = 2 -> features_new leb shuffle m true = Ok ft ->
  three_edges m -> 3 <= List.length (ft_edges ft).
Proof.
  intros Sh C D HF (a & b & c & d & e & f & H1 & H2 & H3 & N1 & N2 & N3). destruct (edges_2d leb shuffle Sh m true ft C D HF) as (ND & _ & I1 & _).
  set (ky := fun x y : nat => (Nat.min x y, Nat.max x y)).
  assert (G : forall x y, (exists ce, has_edge m x y ce) -> In (ky x y) (map fst (ft_edges ft))).
  { intros x y (ce & u & v & EO & SP). assert (exists ed, get_edge ft (fst (ky x y)) (snd (ky x y)) = Ok ed) as (ed & E).
    { apply I1. unfold ky. cbn [fst snd]. split; [lia|]. exists ce. exists u, v. split; [auto|]. clear - SP. unfold same_pair in *. lia. }
    apply get_edge_iff in E. apply (mget_in _ ekey_eqb_eq) in E. apply (in_map fst) in E. exact E. }
  rewrite <- (map_length fst). change 3 with (List.length [ky a b; ky c d; ky e f]). apply NoDup_incl_length.
  - unfold ky. unfold same_pair in *. repeat (apply NoDup_cons; [cbn [In]; intros HH; repeat destruct HH as [HH|HH]; try injection HH as ? ?; lia|]). apply NoDup_nil.
  - intros x [<-|[<-|[<-|[]]]]; auto.
Qed.
Lemma foldM_err {A B} (step : A -> B -> res A) l : (forall t k, In k l -> (exists t', step t k = Ok t') \/ exists e, step t k = Err e) ->
  (exists k, In k l /\ forall t, exists e, step t k = Err e) -> forall t, exists e, foldM step l t = Err e.
Proof.
  induction l as [|k l IH]; intros H (k0 & I & HE) t; [destruct I|]. cbn [foldM]. destruct (H t k (or_introl eq_refl)) as [(t' & E)|(e & E)]; rewrite E; cbn [bind]; [|eauto].
  destruct I as [->|I]; [destruct (HE t) as (e & E'); congruence|]. apply IH; [intros; apply H; now right|]. eauto.
Qed.
Lemma trigen_quadratic leb shuffle gen2 : (forall l, Permutation (shuffle l) l) -> forall m holes o2 ma gma gmi ren ft,
  consistent m -> coords_complete m -> ndim m = 2 -> features_new leb shuffle m true = Ok ft ->
  (exists a b ce cl, first_with (has_edge m a b) ce /\ In cl (cells m) /\ c_id cl = fst ce /\ kind_edge_nnode (c_kind cl) <> 2) ->
  exists e, call_trigen leb shuffle gen2 m holes o2 ma gma gmi ren = Err e.
Proof.
  intros Sh m holes o2 ma gma gmi ren ft C K D HF (a & b & ce & cl & FW & Hc & Hid & HN). unfold call_trigen. rewrite D. change (negb (2 =? 2)) with false. cbn iota. cbv zeta.
  rewrite HF. cbn [bind]. unfold trigen_new. destruct (List.length (points m) <? 3); [cbn [bind]; eexists; reflexivity|]. destruct (List.length (ft_edges ft) <? 3); [cbn [bind]; eexists; reflexivity|]. cbn [bind].
  rewrite (points_loop m K D). cbn [bind].
  match goal with |- context [foldM ?s ?l ?t0] => lazymatch l with seq 0 (List.length (isort _ _)) => assert (E : exists e, foldM s l t0 = Err e) end end.
  - destruct (edges_2d leb shuffle Sh m true ft C D HF) as (ND & _ & I1 & I2). set (keys := isort ekey_leb (map fst (ft_edges ft))).
    apply foldM_err.
    + intros t i Hi. apply in_seq in Hi. set (ky := nth i keys (0, 0)). assert (Hky : In ky keys) by (apply nth_In; lia). rewrite (get_ok keys i (0, 0)) by lia. cbn [bind]. fold ky.
      pose proof (key_edge ft ky Hky) as G. unfold get_edge in G. replace (fst ky, snd ky) with ky in G by (now destruct ky). rewrite G. cbn [bind].
      destruct (e_points (edge_at ft ky)) as [|p [|q [|? ?]]]; try (right; eexists; reflexivity). unfold tri_segment, put.
      destruct ((p <? List.length (ti_points t)) && (q <? List.length (ti_points t))); [|right; eexists; reflexivity]. destruct (i <? List.length (ti_segments t)) eqn:Q; [|right; eexists; reflexivity].
      apply Nat.ltb_lt in Q. rewrite set_ok by auto. cbn [bind]. left. eexists. reflexivity.
    + set (k := (Nat.min a b, Nat.max a b)).
      assert (HS : forall x, has_edge m (fst k) (snd k) x <-> has_edge m a b x).
      { intros x. unfold has_edge. split; intros (u & v & G & S); exists u, v; (split; [auto|]); unfold k in *; cbn [fst snd] in *; unfold same_pair in *; lia. }
      assert (exists ed, get_edge ft (fst k) (snd k) = Ok ed) as (ed & G).
      { apply I1. split; [unfold k; cbn [fst snd]; lia|]. exists ce. apply HS, FW. }
      assert (Hk : In k keys). { apply (proj2 (perm_in ekey_leb _ _)). apply get_edge_iff in G. apply (mget_in _ ekey_eqb_eq) in G. apply (in_map fst) in G. exact G. }
      destruct (In_nth keys k (0, 0) Hk) as (i & Hi & Ei). exists i. split; [apply in_seq; lia|]. intros t. rewrite (get_ok keys i (0, 0)) by lia. cbn [bind]. rewrite Ei.
      destruct (edge_facts leb shuffle Sh m C D ft HF k Hk) as (_ & _ & ce' & FW' & (cl' & G1 & G2 & G3 & G4 & G5 & G6)).
      assert (ce' = ce). { destruct FW as (F1 & F2), FW' as (F1' & F2'). specialize (F2 ce' (proj1 (HS _) F1')). specialize (F2' ce (proj2 (HS _) F1)).
        destruct F2 as [F2|F2]; [exact F2|]. destruct F2' as [F2'|F2']; [now symmetry|]. unfold lex in *. exfalso; lia. }
      subst ce'. assert (cl' = cl). { pose proof (cell_by_id m cl C Hc) as X. pose proof (cell_by_id m cl' C G1) as X'. rewrite Hid in X. rewrite G2 in X'. congruence. }
      subst cl'. pose proof (key_edge ft k Hk) as GK. unfold get_edge in GK. replace (fst k, snd k) with k in GK by (now destruct k). rewrite GK. cbn [bind].
      apply (f_equal (@List.length _)) in G6. rewrite !map_length, seq_length in G6. destruct (e_points (edge_at ft k)) as [|p [|q [|? ?]]]; try (eexists; reflexivity). cbn in G6. congruence.
  - destruct E as (e & E). rewrite E. cbn [bind]. eexists. reflexivity.
Qed.
