(* The input of Tetgen made from a mesh. *)
From Coq Require Import String List Arith Bool ZArith Reals Lia Lra Permutation Sorted.
From Verif Require Import Base BaseFacts Kind MeshModel GraphModel TopoModel TopoSpec TopoMaps TopoFeat3 TopoFeat6 TopoFinal SearchProof2 GeomModel MeshQuerySpec JoinSpec JoinProof2
  PropTopo UnstrModel UnstrSpec UnstrProof UnstrProof2 UnstrProof6 UnstrProof9 UnstrProof10.
Import ListNotations.
Local Open Scope list_scope.
Local Open Scope nat_scope.

Lemma set_app {A} (a b : list A) x y : set (a ++ x :: b) (List.length a) y = Ok (a ++ y :: b).
Proof.
  rewrite set_ok by (rewrite app_length; cbn [List.length]; lia). f_equal. induction a as [|z a IH]; [reflexivity|]. cbn [List.length app upd]. now rewrite IH.
Qed.
Section State.
Variables (ps : list (option (Z * R * R * R))) (rg : list (option (Z * R * R * R * option R))) (hl : list (option (R * R * R))).
Definition fstate (pre suf : list (Z * list nat)) : tet_in :=
  mkTetIn ps (map (fun f => Some (fst f)) pre ++ repeat None (List.length suf)) (map (fun f => map Some (snd f)) pre ++ map (fun f => repeat None (List.length (snd f))) suf) rg hl.
Lemma put_at {A} (a b : list (option A)) x y : put (a ++ x :: b) (List.length a) y = Ok (a ++ Some y :: b).
Proof.
  unfold put. rewrite app_length. cbn [List.length]. rewrite (proj2 (Nat.ltb_lt _ _)) by lia. apply set_app.
Qed.
Lemma facet_points_run mks F1 F2 pts i : List.length F1 = i -> (forall p, In p pts -> p < List.length ps) ->
  foldM (fun t (mp : nat * nat) => tet_facet_point t i (fst mp) (snd mp)) (combine (seq 0 (List.length pts)) pts) (mkTetIn ps mks (F1 ++ repeat None (List.length pts) :: F2) rg hl) =
  Ok (mkTetIn ps mks (F1 ++ map Some pts :: F2) rg hl).
Proof.
  intros Li HP. rewrite (combine_seq pts 0), foldM_map. set (n := List.length pts). set (F := fun k => nth k pts 0).
  match goal with |- foldM ?s _ ?t0 = _ => destruct (iloop s (fun k t => t = mkTetIn ps mks (F1 ++ (map (fun i => Some (F i)) (seq 0 k) ++ repeat None (n - k)) :: F2) rg hl) n) with (t := t0) as (t' & E & ->) end.
  - intros k t Hk ->. cbn [fst snd]. unfold tet_facet_point. cbn [ei_points ei_facet_markers ei_facets ei_regions ei_holes].
    rewrite (proj2 (Nat.ltb_lt _ _)) by (apply HP, nth_In; auto). rewrite nth_error_app2 by lia. rewrite Li, Nat.sub_diag. cbn [nth_error].
    rewrite (put_next n F k) by auto. cbn [bind]. rewrite <- Li. rewrite set_app. cbn [bind]. eexists. split; reflexivity.
  - cbn [seq map app]. now rewrite Nat.sub_0_r.
  - rewrite E. rewrite Nat.sub_diag. cbn [repeat]. rewrite app_nil_r. unfold F. replace (map (fun i0 => Some (nth i0 pts 0)) (seq 0 n)) with (map (@Some nat) pts); [reflexivity|].
    symmetry. exact (map_nth_seq' Some pts 0).
Qed.
Lemma set_facet_run pre f suf : (forall p, In p (snd f) -> p < List.length ps) ->
  set_facet (fstate pre (f :: suf)) (List.length pre) (fst f) (snd f) = Ok (fstate (pre ++ [f]) suf).
Proof.
  intros HP. unfold set_facet, fstate. unfold tet_facet_marker. cbn [ei_points ei_facet_markers ei_facets ei_regions ei_holes List.length repeat map].
  rewrite <- (map_length (fun f => Some (fst f)) pre) at 1. rewrite put_at. cbn [bind].
  rewrite facet_points_run by (auto; now rewrite map_length). f_equal. f_equal; rewrite map_app, <- app_assoc; reflexivity.
Qed.
Lemma facets_run {X} (g : X -> Z * list nat) o : forall l s pre suf, List.length pre = o + s -> (forall x p, In x l -> In p (snd (g x)) -> p < List.length ps) ->
  foldM (fun t (ix : nat * X) => set_facet t (o + fst ix) (fst (g (snd ix))) (snd (g (snd ix)))) (combine (seq s (List.length l)) l) (fstate pre (map g l ++ suf)) =
  Ok (fstate (pre ++ map g l) suf).
Proof.
  induction l as [|x l IH]; intros s pre suf L HP; cbn [List.length seq combine map app foldM]; [now rewrite app_nil_r|]. cbn [fst snd].
  rewrite <- L. rewrite set_facet_run by (intros p Hp; apply (HP x); auto; now left). cbn [bind]. rewrite IH; [|rewrite app_length; cbn [List.length]; lia|intros y p Hy; apply HP; now right].
  now rewrite <- app_assoc.
Qed.
End State.

Lemma regions3_run mv ps fm fs hl (regions : list (Z * R * R * R)) :
  foldM (fun t (ir : nat * (Z * R * R * R)) => let '(mk, x, y, z) := snd ir in tet_region t (fst ir) mk x y z (max_of mv mk)) (combine (seq 0 (List.length regions)) regions)
    (mkTetIn ps fm fs (repeat None (List.length regions)) hl) =
  Ok (mkTetIn ps fm fs (map (fun r => Some (r, entry mv (fst (fst (fst r))))) regions) hl).
Proof.
  set (d := (0%Z, 0%R, 0%R, 0%R)). rewrite (combine_seq regions d), foldM_map.
  set (n := List.length regions). set (F := fun i => (nth i regions d, entry mv (fst (fst (fst (nth i regions d)))))).
  match goal with |- foldM ?s _ ?t0 = _ => destruct (iloop s (fun k t => t = mkTetIn ps fm fs (map (fun i => Some (F i)) (seq 0 k) ++ repeat None (n - k)) hl) n) with (t := t0) as (t' & E & ->) end.
  - intros k t Hk ->. cbn [fst snd]. destruct (nth k regions d) as [[[mk x] y] z] eqn:Q. unfold tet_region. cbn [ei_points ei_facet_markers ei_facets ei_regions ei_holes].
    rewrite (put_next n F k); [cbn [bind]; eexists; split; reflexivity|auto|]. unfold F. rewrite Q. cbn [fst]. now rewrite max_of_entry.
  - cbn [seq map app]. now rewrite Nat.sub_0_r.
  - rewrite E. f_equal. f_equal. rewrite Nat.sub_diag. cbn [repeat]. rewrite app_nil_r. unfold F. exact (map_nth_seq' (fun r => Some (r, entry mv (fst (fst (fst r))))) regions d).
Qed.
Lemma holes3_run ps fm fs rg (holes : list (R * R * R)) :
  foldM (fun t (ih : nat * (R * R * R)) => let '(x, y, z) := snd ih in tet_hole t (fst ih) x y z) (combine (seq 0 (List.length holes)) holes)
    (mkTetIn ps fm fs rg (repeat None (List.length holes))) =
  Ok (mkTetIn ps fm fs rg (map Some holes)).
Proof.
  set (d := (0%R, 0%R, 0%R)). rewrite (combine_seq holes d), foldM_map.
  set (n := List.length holes). set (F := fun i => nth i holes d).
  match goal with |- foldM ?s _ ?t0 = _ => destruct (iloop s (fun k t => t = mkTetIn ps fm fs rg (map (fun i => Some (F i)) (seq 0 k) ++ repeat None (n - k))) n) with (t := t0) as (t' & E & ->) end.
  - intros k t Hk ->. cbn [fst snd]. destruct (nth k holes d) as [[x y] z] eqn:Q. unfold tet_hole. cbn [ei_points ei_facet_markers ei_facets ei_regions ei_holes].
    rewrite (put_next n F k); [cbn [bind]; eexists; split; reflexivity|auto|]. unfold F. exact Q.
  - cbn [seq map app]. now rewrite Nat.sub_0_r.
  - rewrite E. f_equal. f_equal. rewrite Nat.sub_diag. cbn [repeat]. rewrite app_nil_r. unfold F. exact (map_nth_seq' Some holes d).
Qed.

Section Tet.
Variables (leb : R -> R -> bool) (shuffle : emap -> emap).
Variable m : mesh R.
Hypothesis C : consistent m. Hypothesis K : coords_complete m. Hypothesis D : ndim m = 3. Hypothesis Q : no_quadratic_tets m.
Definition fpoint3 (p : point R) : Z * R * R * R := (pt_marker p, nth 0 (pt_coords p) 0%R, nth 1 (pt_coords p) 0%R, nth 2 (pt_coords p) 0%R).
Lemma coord_get3 p j : In p (points m) -> j < 3 -> get (pt_coords p) j = Ok (nth j (pt_coords p) 0%R).
Proof. intros Hp Hj. apply get_ok. rewrite (K p Hp), D. exact Hj. Qed.
Lemma points3_run fm fs rg hl :
  foldM (fun t i => let! p := get (points m) i in let! x := get (pt_coords p) 0 in let! y := get (pt_coords p) 1 in let! z := get (pt_coords p) 2 in tet_point t i (pt_marker p) x y z)
    (seq 0 (List.length (points m))) (mkTetIn (repeat None (List.length (points m))) fm fs rg hl) =
  Ok (mkTetIn (map (fun p => Some (fpoint3 p)) (points m)) fm fs rg hl).
Proof.
  set (n := List.length (points m)). set (F := fun i => fpoint3 (nth i (points m) dpt)).
  match goal with |- foldM ?s _ ?t0 = _ => destruct (iloop s (fun k t => t = mkTetIn (map (fun i => Some (F i)) (seq 0 k) ++ repeat None (n - k)) fm fs rg hl) n) with (t := t0) as (t' & E & ->) end.
  - intros k t Hk ->. rewrite (get_ok (points m) k dpt) by auto. cbn [bind].
    assert (Hp : In (nth k (points m) dpt) (points m)) by (apply nth_In; auto). rewrite !coord_get3 by (auto; lia). cbn [bind]. unfold tet_point. cbn [ei_points ei_facet_markers ei_facets ei_regions ei_holes].
    rewrite (put_next n F k) by auto. cbn [bind]. eexists. split; reflexivity.
  - cbn [seq map app]. now rewrite Nat.sub_0_r.
  - rewrite E. f_equal. f_equal. rewrite Nat.sub_diag. cbn [repeat]. rewrite app_nil_r. unfold F. exact (map_nth_seq' (fun p => Some (fpoint3 p)) (points m) dpt).
Qed.
Variable ft : @features R.
Hypothesis HF : features_new leb shuffle m true = Ok ft.
Definition shells : list cell := filter (fun c => kind_ndim (c_kind c) =? 2) (cells m).
Notation keys := (isort fkey_leb (map fst (ft_faces ft))).
Definition dfc : face := mkFace Tri3 [] 0%Z.
Definition face_at (k : list nat) : face := match mget fkey_eqb (ft_faces ft) k with Some fc => fc | None => dfc end.
Lemma key_face k : In k keys -> get_face ft k = Ok (face_at k).
Proof.
  intros Hk. apply (proj1 (perm_in fkey_leb _ _)) in Hk. unfold face_at. destruct (mget fkey_eqb (ft_faces ft) k) as [ed|] eqn:E.
  - now apply get_face_iff.
  - exfalso. apply (mget_none _ fkey_eqb_eq) in E. apply E. exact Hk.
Qed.
Lemma key_in k fc : get_face ft k = Ok fc -> In k keys.
Proof. intros G. apply (proj2 (perm_in fkey_leb _ _)). apply get_face_iff in G. apply (mget_in _ fkey_eqb_eq) in G. apply (in_map fst) in G. exact G. Qed.
Lemma shells_run : mapM (fun id => get (cells m) id) (ft_shells ft) = Ok shells.
Proof.
  replace (ft_shells ft) with (map c_id shells).
  - assert (G : forall l, (forall c, In c l -> In c (cells m)) -> mapM (fun id => get (cells m) id) (map c_id l) = Ok l).
    { induction l as [|c l IH]; intros H; [reflexivity|]. cbn [map mapM]. unfold get at 1. rewrite (cell_by_id m c C) by (apply H; now left). cbn [bind].
      rewrite IH by (intros; apply H; now right). reflexivity. }
    apply G. intros c Hc. apply filter_In in Hc. tauto.
  - unfold features_new in HF. rewrite D in HF. change (negb ((2 <=? 3) && (3 <=? 3))) with false in HF. change (3 =? 2) with false in HF. change (3 =? 3) with true in HF. cbv iota in HF.
    apply bind_ok in HF. destruct HF as (r & _ & H). destruct r as [[[[em fm] pl] es] fs]. apply bind_ok in H. destruct H as (pl' & _ & H). injection H as <-. reflexivity.
Qed.
Lemma faces_run : mapM (fun k => unwrap (mget fkey_eqb (ft_faces ft) k)) keys = Ok (map face_at keys).
Proof.
  assert (G : forall l, (forall k, In k l -> In k keys) -> mapM (fun k => unwrap (mget fkey_eqb (ft_faces ft) k)) l = Ok (map face_at l)).
  { induction l as [|k l IH]; intros H; [reflexivity|]. cbn [map mapM]. pose proof (key_face k (H k (or_introl eq_refl))) as E. unfold get_face in E. rewrite E. cbn [bind].
    rewrite IH by (intros; apply H; now right). reflexivity. }
  apply G. auto.
Qed.
Definition shell_facet (c : cell) : Z * list nat := (c_marker c, c_points c).
Definition face_facet (f : face) : Z * list nat := (f_marker f, f_points f).
Definition listed : list (list nat * (Z * list nat)) := map (fun k => (k, face_facet (face_at k))) keys.
Lemma listed_spec : StronglySorted lex_list (map fst listed) /\
  (forall k mk ps, In (k, (mk, ps)) listed -> StronglySorted le k /\ face_marker m k mk /\ exists cf kd, first_with (has_face m k) cf /\ face_nodes m (fst cf) (snd cf) kd ps) /\
  (forall k, StronglySorted le k -> (exists cf, has_face m k cf) -> exists mk ps, In (k, (mk, ps)) listed) /\
  (forall k mk ps p, In (k, (mk, ps)) listed -> In p ps -> p < List.length (points m)).
Proof.
  destruct (faces_3d leb shuffle m true ft C D HF) as (ND & _). split; [|split; [|split]].
  - unfold listed. rewrite map_map. cbn [fst]. rewrite map_id. eapply sorted_weaken; [|apply (isort_keys fkey_leb fkey_leb_total fkey_leb_trans fkey_leb_anti _ ND)]. intros x y. apply fkey_lex.
  - intros k mk ps H. unfold listed in H. apply in_map_iff in H. destruct H as (k' & E & Hk). injection E as -> <- <-. pose proof (key_face k Hk) as G.
    split; [apply (C21_listed_faces_3d R leb shuffle m true ft C D Q HF); eauto|]. destruct (C21_face_data_3d R leb shuffle m true ft C D Q HF k _ G) as (A & cf & B1 & B2).
    split; [exact A|]. exists cf, (f_kind (face_at k)). auto.
  - intros k S X. destruct (proj2 (C21_listed_faces_3d R leb shuffle m true ft C D Q HF k) (conj S X)) as (fc & G). exists (f_marker (face_at k)), (f_points (face_at k)).
    unfold listed. apply in_map_iff. exists k. split; [reflexivity|]. eapply key_in, G.
  - intros k mk ps p H Hp. unfold listed in H. apply in_map_iff in H. destruct H as (k' & E & Hk). injection E as -> <- <-. pose proof (key_face k Hk) as G.
    destruct (C21_face_data_3d R leb shuffle m true ft C D Q HF k _ G) as (_ & cf & _ & (cl & H1 & _ & _ & _ & _ & H6)).
    apply In_nth_error in H1. destruct H1 as (i & Hi). destruct (proj2 C i cl Hi) as (_ & _ & Rg). apply Rg.
    apply (in_map Some) in Hp. rewrite <- H6 in Hp. apply in_map_iff in Hp. destruct Hp as (j & Ej & _). eapply nth_error_In, Ej.
Qed.
End Tet.

Lemma tetgen_run leb shuffle gen3 m regions holes o2 mv gmv gmi ren :
  consistent m -> coords_complete m -> ndim m = 3 -> no_quadratic_tets m -> 4 <= List.length (points m) ->
  (exists ft, features_new leb shuffle m true = Ok ft) ->
  exists fl, let facets := map shell_facet (shells m) ++ map snd fl in
    (StronglySorted lex_list (map fst fl) /\
     (forall k mk ps, In (k, (mk, ps)) fl -> StronglySorted le k /\ face_marker m k mk /\ exists cf kd, first_with (has_face m k) cf /\ face_nodes m (fst cf) (snd cf) kd ps) /\
     (forall k, StronglySorted le k -> (exists cf, has_face m k cf) -> exists mk ps, In (k, (mk, ps)) fl)) /\
    ((4 <= List.length facets -> (forall f, In f facets -> 3 <= List.length (snd f)) ->
      call_tetgen leb shuffle gen3 m regions holes o2 mv gmv gmi ren =
      (let! out := gen3 (mkTetIn (map (fun p => Some (fpoint3 p)) (points m)) (map (fun f => Some (fst f)) facets) (map (fun f => map Some (snd f)) facets)
                         (map (fun r => Some (r, entry mv (fst (fst (fst r))))) regions) (map Some holes)) o2 gmv gmi in
       let! r := from_tetgen out in maybe_renumbered ren r)) /\
     (~ (4 <= List.length facets /\ forall f, In f facets -> 3 <= List.length (snd f)) -> exists e, call_tetgen leb shuffle gen3 m regions holes o2 mv gmv gmi ren = Err e)).
Proof.
  intros C K D Q L (ft & HF). exists (listed ft). cbv zeta. destruct (listed_spec leb shuffle m C D Q ft HF) as (S1 & S2 & S3 & S4). split; [auto|].
  set (keys := isort fkey_leb (map fst (ft_faces ft))).
  assert (EF : map snd (listed ft) = map face_facet (map (face_at ft) keys)) by (unfold listed; rewrite !map_map; reflexivity). rewrite EF.
  set (facets := map shell_facet (shells m) ++ map face_facet (map (face_at ft) keys)).
  assert (LS : List.length (ft_shells ft) = List.length (shells m)) by (pose proof (shells_run leb shuffle m C D ft HF) as E; apply mapM_length in E; auto).
  assert (FN : map (fun c => List.length (c_points c)) (shells m) ++ map (fun f => List.length (f_points f)) (map (face_at ft) keys) = map (fun f => List.length (snd f)) facets).
  { unfold facets. rewrite map_app. rewrite !map_map. reflexivity. }
  assert (EX : existsb (fun n => n <? 3) (map (fun f : Z * list nat => List.length (snd f)) facets) = false <-> forall f, In f facets -> 3 <= List.length (snd f)).
  { rewrite <- not_true_iff_false, existsb_exists. split.
    - intros N f Hf. destruct (le_lt_dec 3 (List.length (snd f))) as [|LT]; [auto|]. exfalso. apply N. eexists. split; [apply in_map; exact Hf|]. now apply Nat.ltb_lt.
    - intros H (n & I & LT). apply in_map_iff in I. destruct I as (f & <- & Hf). apply Nat.ltb_lt in LT. specialize (H f Hf). lia. }
  assert (HS : forall (x : cell) (p : nat), In x (shells m) -> In p (snd (shell_facet x)) -> p < List.length (points m)).
  { intros x p Hx Hp. apply filter_In in Hx. destruct Hx as (Hx & _). apply In_nth_error in Hx. destruct Hx as (i & Hi). destruct (proj2 C i x Hi) as (_ & _ & Rg). auto. }
  assert (HC : forall (x : face) (p : nat), In x (map (face_at ft) keys) -> In p (snd (face_facet x)) -> p < List.length (points m)).
  { intros x p Hx Hp. apply in_map_iff in Hx. destruct Hx as (k & <- & Hk). eapply (S4 k (f_marker (face_at ft k)) (f_points (face_at ft k)) p); [|exact Hp]. unfold listed. apply in_map_iff. exists k. auto. }
  split.
  - intros L4 L3. unfold call_tetgen. rewrite D. change (negb (3 =? 3)) with false. cbv iota. cbv zeta. rewrite HF. cbn [bind].
    rewrite (shells_run leb shuffle m C D ft HF). cbn [bind]. rewrite (faces_run ft). cbn [bind]. fold keys. rewrite FN.
    unfold tetgen_new. rewrite (proj2 (Nat.ltb_ge _ 4) L). rewrite map_length, (proj2 (Nat.ltb_ge _ 4) L4). rewrite (proj2 EX L3). cbn [bind].
    rewrite (points3_run m K D). cbn [bind]. rewrite map_map.
    pose proof (facets_run (map (fun p => Some (fpoint3 p)) (points m)) (repeat None (List.length regions)) (repeat None (List.length holes)) shell_facet 0 (shells m) 0 []
                  (map face_facet (map (face_at ft) keys)) eq_refl) as R1. rewrite map_length in R1. specialize (R1 HS). unfold fstate at 1 in R1. cbn [map app] in R1. fold facets in R1.
    cbn [Nat.add] in R1. unfold shell_facet at 1 2 in R1. cbn [fst snd] in R1. rewrite R1. clear R1. cbn [bind].
    pose proof (facets_run (map (fun p => Some (fpoint3 p)) (points m)) (repeat None (List.length regions)) (repeat None (List.length holes)) face_facet (List.length (ft_shells ft)) (map (face_at ft) keys) 0
                  (map shell_facet (shells m)) []) as R1. rewrite !map_length in R1. rewrite !map_length. rewrite app_nil_r in R1. rewrite LS in *. specialize (R1 ltac:(lia)). specialize (R1 HC).
    unfold face_facet at 1 2 in R1. cbn [fst snd] in R1. rewrite R1. clear R1. cbn [bind]. fold facets. unfold fstate. cbn [List.length repeat map]. rewrite !app_nil_r.
    rewrite regions3_run. cbn [bind]. rewrite holes3_run. reflexivity.
  - intros N. unfold call_tetgen. rewrite D. change (negb (3 =? 3)) with false. cbv iota. cbv zeta. rewrite HF. cbn [bind].
    rewrite (shells_run leb shuffle m C D ft HF). cbn [bind]. rewrite (faces_run ft). cbn [bind]. fold keys. rewrite FN.
    unfold tetgen_new. rewrite (proj2 (Nat.ltb_ge _ 4) L). rewrite map_length. destruct (List.length facets <? 4) eqn:E4; [cbn [bind]; eexists; reflexivity|]. apply Nat.ltb_ge in E4.
    destruct (existsb _ _) eqn:E3; [cbn [bind]; eexists; reflexivity|]. exfalso. apply N. split; [auto|]. now apply EX.
Qed.
