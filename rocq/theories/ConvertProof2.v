(* Proofs about the conversion of meshes: the steps for one cell *)
From Coq Require Import String Reals QArith Qreals List Arith Bool ZArith Lia Lra Permutation.
From Verif Require Import Base BaseFacts Kind ShapesModel ShapesProof ShapesTables MeshModel MeshQuerySpec TopoModel TopoSpec TopoMaps TopoProof TopoFeat TopoFeat4 TopoFeat5 PadModel PadSpec PadProof PadProof2 PadProof4 ConvertModel ConvertSpec ConvertProof.
Import ListNotations.
Local Open Scope list_scope.
Local Open Scope nat_scope.

Lemma foldM_from {S} (f : S -> nat -> res S) (P : nat -> S -> Prop) lo n s : P lo s ->
  (forall i s, lo <= i < lo + n -> P i s -> exists s', f s i = Ok s' /\ P (Datatypes.S i) s') ->
  exists s', foldM f (seq lo n) s = Ok s' /\ P (lo + n) s'.
Proof.
  intros H0 H. induction n as [|n IH]; [exists s; rewrite Nat.add_0_r; auto|].
  destruct IH as (s1 & E & P1); [intros; apply H; auto; lia|].
  destruct (H (lo + n) s1 ltac:(lia) P1) as (s2 & E2 & P2).
  exists s2. split; [|rewrite Nat.add_succ_r; auto]. rewrite seq_S, foldM_app, E. cbn [bind foldM]. rewrite E2. reflexivity.
Qed.
Lemma foldM_list {A S} (f : S -> A -> res S) (P : list A -> S -> Prop) l : forall done s, P done s ->
  (forall pre x post s, done ++ l = pre ++ x :: post -> P pre s -> exists s', f s x = Ok s' /\ P (pre ++ [x]) s') ->
  exists s', foldM f l s = Ok s' /\ P (done ++ l) s'.
Proof.
  induction l as [|x l IH]; intros done s H0 H; [exists s; rewrite app_nil_r; auto|].
  destruct (H done x l s eq_refl H0) as (s1 & E & P1). cbn [foldM]. rewrite E. cbn [bind].
  destruct (IH (done ++ [x]) s1 P1) as (s2 & E2 & P2).
  - intros pre y post s' Ea. rewrite <- app_assoc in Ea. apply (H pre y post s' Ea).
  - exists s2. split; auto. rewrite <- app_assoc in P2. exact P2.
Qed.

Section Step.
Variable m : mesh R.
Variables source target : geokind.
Hypothesis C : consistent m.
Hypothesis K : coords_complete m.
Hypothesis D : ndim m = 2.
Hypothesis Ps : plane source.
Hypothesis Ec : kind_class target = kind_class source.

Lemma load_cell_ok cl p : In cl (cells m) -> c_kind cl = source -> pad_wf p -> p_kind p = source -> p_space p = 2 ->
  exists q, load_cell m cl (kind_nnode source) p = Ok q /\ element_of m cl q /\ p_ok q = true.
Proof.
  intros Hc Ek W Kp Sp. destruct (mesh_set_pad_ok m cl p C K Hc W) as (q & E & X); [congruence|congruence|].
  exists q. split; [|auto]. unfold mesh_set_pad in E. rewrite Kp in E.
  destruct (negb _) in E; [discriminate|]. exact E.
Qed.

Lemma cell_len cl : In cl (cells m) -> c_kind cl = source -> List.length (c_points cl) = kind_nnode source.
Proof. intros Hc <-. apply In_nth_error in Hc as (i & Hi). apply C in Hi. apply Hi. Qed.
Lemma cell_ref cl a id : In cl (cells m) -> nth_error (c_points cl) a = Some id -> id < List.length (points m).
Proof. intros Hc H. apply In_nth_error in Hc as (i & Hi). apply C in Hi. apply Hi. eapply nth_error_In; eauto. Qed.
Lemma cell_point cl a : In cl (cells m) -> c_kind cl = source -> a < kind_nnode source ->
  exists id pt, nth_error (c_points cl) a = Some id /\ nth_error (points m) id = Some pt.
Proof.
  intros Hc Ek Ha. destruct (nth_error (c_points cl) a) as [id|] eqn:E.
  - pose proof (cell_ref cl a id Hc E) as L. destruct (nth_error (points m) id) as [pt|] eqn:E2; [eauto|apply nth_error_None in E2; lia].
  - apply nth_error_None in E. rewrite (cell_len cl Hc Ek) in E. lia.
Qed.

Lemma coords_image cl p ksi : In cl (cells m) -> c_kind cl = source -> element_of m cl p -> p_ok p = true ->
  pad_coords p 2 ksi = Ok (image m cl ksi, with_interp p (calc_interp source ksi)).
Proof.
  intros Hc Ek (W & Kp & Sp & X) O. unfold pad_coords. rewrite O, Sp, D. cbn [negb Nat.eqb].
  rewrite Kp, Ek. f_equal. f_equal. unfold image, mat_vec. rewrite D, Ek.
  assert (Lx : List.length (p_xxt p) = 2) by (destruct W as (_ & _ & L & _); congruence).
  apply (nth_ext _ _ 0%R 0%R); [rewrite !map_length, seq_length; auto|].
  intros j Hj. rewrite map_length in Hj.
  rewrite (nth_indep _ 0%R (dot [] (calc_interp source ksi))) by (rewrite map_length; auto).
  rewrite (map_nth (fun row => dot row (calc_interp source ksi)) _ []).
  rewrite (nth_indep _ 0%R ((fun i => dot (calc_interp source ksi) (cell_x m cl i)) 0)) by (rewrite map_length, seq_length; lia).
  rewrite (map_nth (fun i => dot (calc_interp source ksi) (cell_x m cl i))), seq_nth by lia. simpl (0 + j).
  rewrite dot_comm. f_equal.
  assert (Lr : List.length (nth j (p_xxt p) []) = kind_nnode source) by (rewrite <- Ek, <- Kp; apply wf_row; auto; rewrite Sp, D; lia).
  assert (Lc := cell_len cl Hc Ek).
  apply (nth_ext _ _ 0%R 0%R); [unfold cell_x; rewrite map_length; congruence|].
  intros a Ha. destruct (cell_point cl a Hc Ek ltac:(lia)) as (id & pt & E1 & E2).
  pose proof (X a id pt j E1 E2 ltac:(lia)) as V. unfold node_x in V.
  etransitivity; [exact V|]. unfold cell_x. symmetry.
  erewrite nth_error_nth; [|rewrite nth_error_map, E1; reflexivity]. now rewrite E2.
Qed.
Lemma with_interp_element cl p v : element_of m cl p -> element_of m cl (with_interp p v) /\ p_ok (with_interp p v) = p_ok p.
Proof. destruct p. unfold element_of, with_interp, pad_wf, node_x, p_geo. simpl. auto. Qed.

Lemma edge_markers_ok cl marks : In cl (cells m) -> c_kind cl = source ->
  List.length marks = kind_nedge target -> (kind_edge_nnode source = 2 -> Forall (eq 0%Z) marks) ->
  exists marks', edge_markers m cl source (kind_nedge target) marks = Ok marks' /\ List.length marks' = kind_nedge target /\
    (kind_edge_nnode source = 2 -> Forall (eq 0%Z) marks') /\
    forall e, e < kind_nedge target -> edge_mark m cl e (nth e marks' 0%Z).
Proof.
  intros Hc Ek L Z0. unfold edge_markers, edge_mark. rewrite Ek.
  destruct (plane_facts source Ps) as (_ & _ & _ & G2).
  destruct (Nat.ltb_spec 2 (kind_edge_nnode source)) as [G|G].
  - set (Q := fun n (v : list Z) => List.length v = kind_nedge target /\ forall e, e < n ->
        exists id pt, nth_error (c_points cl) (edge_node_id source e (kind_edge_nnode source - 1)) = Some id /\
          nth_error (points m) id = Some pt /\ nth e v 0%Z = pt_marker pt).
    destruct (foldM_from (fun (marks : list Z) e =>
        foldM (fun (marks : list Z) i =>
            let! id := get (c_points cl) (edge_node_id source e i) in
            let! pt := get (points m) id in
            set marks e (pt_marker pt))
          (seq 2 (kind_edge_nnode source - 2)) marks) Q 0 (kind_nedge target) marks) as (v & E & Qv).
    + split; [auto|]. intros; lia.
    + intros e v [_ He] [Lv Hv]. simpl in He.
      set (S := fun n (w : list Z) => List.length w = kind_nedge target /\ (forall e', e' < e -> nth e' w 0%Z = nth e' v 0%Z) /\
         (2 < n -> exists id pt, nth_error (c_points cl) (edge_node_id source e (n - 1)) = Some id /\
          nth_error (points m) id = Some pt /\ nth e w 0%Z = pt_marker pt)).
      destruct (foldM_from (fun (marks : list Z) i =>
            let! id := get (c_points cl) (edge_node_id source e i) in
            let! pt := get (points m) id in
            set marks e (pt_marker pt)) S 2 (kind_edge_nnode source - 2) v) as (w & Ew & Lw & Bw & Sw).
      * split; [auto|]. split; [auto|]. lia.
      * intros i w Hi (Lw & Bw & _).
        destruct (class_facts source target Ps Ec) as (EN & _ & _).
        assert (Ne : edge_node_id source e i < kind_nnode source) by (apply (mid_facts source Ps); lia).
        destruct (cell_point cl _ Hc Ek Ne) as (id & pt & E1 & E2).
        unfold get. rewrite E1. cbn [bind]. rewrite E2. cbn [bind]. rewrite set_ok by lia.
        eexists. split; [reflexivity|]. split; [now rewrite upd_length|]. split.
        -- intros e' He'. rewrite nth_upd_other by lia. auto.
        -- intros _. exists id, pt. replace (Datatypes.S i - 1) with i by lia. split; [auto|]. split; [auto|]. apply nth_upd_same. lia.
      * exists w. split; [exact Ew|]. split; [auto|]. intros e' He'. destruct (Nat.eq_dec e' e) as [->|N].
        -- replace (kind_edge_nnode source - 1) with (2 + (kind_edge_nnode source - 2) - 1) by lia. apply Sw. lia.
        -- rewrite Bw by lia. apply Hv. lia.
    + exists v. split; [exact E|]. destruct Qv as [Lv Hv]. split; [auto|]. split; [lia|]. intros e He. simpl in Hv.
      destruct (Hv e He) as (id & pt & A & B & F). exists id, pt. auto.
  - exists marks. split; [auto|]. split; [auto|]. split; [auto|]. intros e He.
    assert (F : Forall (eq 0%Z) marks) by (apply Z0; lia). rewrite Forall_forall in F. symmetry. apply F. apply nth_In. lia.
Qed.
End Step.
