(* The mesh made by subdivide. *)
From Coq Require Import String Reals QArith Qreals List Lia Lra Bool Arith ZArith Permutation Sorted.
From Verif Require Import Base BaseFacts TopoMaps Kind MeshModel TopoModel MeshQuerySpec ShapesModel ShapesSpec ShapesProof
  GeomModel GeomProof GridModel GridSpec PropGrid PadModel PadSpec PadProof PadProof2 PadProof4
  BlockModel BlockSpec BlockProof BlockProof2 BlockProof3 BlockProof4 BlockProof5 BlockProof6 BlockProof7.
From Verif Require JoinProof2 GraphProof3 SearchProof2.
Import ListNotations.
Local Open Scope list_scope.
Local Open Scope R_scope.

Section Mesh.
Variables (b : block) (target : geokind).
Variable sh : container -> container.
Variable shc : list (nat * nat) -> list (nat * nat).
Hypothesis Hsh : forall c, Permutation (sh c) c.
Hypothesis Hshc : forall l, Permutation (shc l) l.
Hypothesis W : wf_block b.
Hypothesis F : In target (targets (b_ndim b)).
Hypothesis Sp : spaced b target.
Variable msh : mesh R.
Hypothesis Run : subdivide sh shc b target = Ok msh.
Notation nd := (b_ndim b).
Notation nn := (kind_nnode target).
Notation ksi := (node_ksi b target).

Lemma result : exists K st, msh = s_mesh b st /\ all_ok b target (indices b) K st.
Proof. pose proof (subdivide_ok b target sh shc Hsh Hshc W F Sp) as H. rewrite Run in H. exact H. Qed.

Lemma mesh_consistent : consistent msh /\ coords_complete msh /\ ndim msh = nd.
Proof.
  destruct result as (K & st & -> & A). pose proof (a_inv _ _ _ _ _ A) as I. split; [split|split; [|reflexivity]].
  - intros i p H. apply (i_pt _ _ _ _ _ I i p H).
  - intros i c H. destruct (a_cells _ _ _ _ _ A) as [L C]. cbn in H. assert (Hi : (i < List.length (indices b))%nat) by (rewrite <- L; apply nth_error_Some; congruence).
    destruct (nth_error (indices b) i) as [idx|] eqn:E; [|apply nth_error_None in E; lia]. destruct (C i idx E) as (c' & Q1 & Q2 & Q3 & Q4 & Q5 & Q6).
    assert (c' = c) by congruence. subst c'. split; [auto|]. rewrite Q4. split; [auto|]. intros q Hq. apply In_nth_error in Hq as (m & Hm).
    destruct (Q6 m) as (q' & X1 & X2). { rewrite <- Q5. apply nth_error_Some. congruence. }
    cbn. rewrite (i_len _ _ _ _ _ I). apply nth_error_Some. congruence.
  - intros p Hp. cbn in Hp. apply In_nth_error in Hp as (i & Hi). apply (i_pt _ _ _ _ _ I i p Hi).
Qed.
Lemma mesh_markers p : In p (points msh) -> pt_marker p = 0%Z.
Proof.
  destruct result as (K & st & -> & A). intros Hp. cbn in Hp. apply In_nth_error in Hp as (i & Hi). apply (i_pt _ _ _ _ _ (a_inv _ _ _ _ _ A) i p Hi).
Qed.
Lemma mesh_ncells : List.length (cells msh) = fold_right Nat.mul 1%nat (b_ndiv b).
Proof. destruct result as (K & st & -> & A). destruct (a_cells _ _ _ _ _ A) as [L _]. cbn. rewrite L. apply indices_length; auto. Qed.
Lemma mesh_cell idx : valid_index b idx -> exists c, nth_error (cells msh) (rank (b_ndiv b) idx) = Some c /\
  c_kind c = target /\ c_marker c = b_marker b /\ List.length (c_points c) = nn.
Proof.
  intros V. destruct result as (K & st & -> & A). destruct (a_cells _ _ _ _ _ A) as [_ C].
  destruct (C _ idx (indices_rank b W idx V)) as (c & Q1 & Q2 & Q3 & Q4 & Q5 & Q6). exists c. auto.
Qed.
Lemma mesh_cell_index i : (i < List.length (cells msh))%nat -> exists idx, valid_index b idx /\ rank (b_ndiv b) idx = i.
Proof.
  rewrite mesh_ncells. intros Hi. pose proof (w_ndiv b W) as Ld. unfold valid_index. pose proof (w_pos b W) as P. unfold ndivs in *.
  destruct (w_nd b W) as [E|E]; rewrite E in *.
  - destruct (len1 _ Ld) as (nx & ny & En). rewrite En in *. cbn in Hi. pose proof (P 0%nat ltac:(lia)). pose proof (P 1%nat ltac:(lia)). cbn in *.
    exists [(i mod nx)%nat; (i / nx)%nat]. pose proof (Nat.div_mod i nx ltac:(lia)). pose proof (Nat.mod_upper_bound i nx ltac:(lia)).
    split; [split; [reflexivity|]|cbn; nia]. intros [|[|a]] Ha; cbn; [lia| |lia]. apply Nat.div_lt_upper_bound; nia.
  - destruct (len3' _ Ld) as (nx & ny & nz & En). rewrite En in *. cbn in Hi. pose proof (P 0%nat ltac:(lia)). pose proof (P 1%nat ltac:(lia)). pose proof (P 2%nat ltac:(lia)). cbn in *.
    exists [(i mod nx)%nat; ((i / nx) mod ny)%nat; (i / nx / ny)%nat]. pose proof (Nat.div_mod i nx ltac:(lia)) as D1. pose proof (Nat.mod_upper_bound i nx ltac:(lia)).
    pose proof (Nat.div_mod (i / nx) ny ltac:(lia)) as D2. pose proof (Nat.mod_upper_bound (i / nx) ny ltac:(lia)).
    split; [split; [reflexivity|]|].
    + intros [|[|[|a]]] Ha; cbn; [lia|lia| |lia]. rewrite Nat.div_div by lia. apply Nat.div_lt_upper_bound; nia.
    + cbn [rank]. rewrite Nat.mul_0_r, Nat.add_0_r. replace (((i / nx) mod ny) + ny * (i / nx / ny))%nat with (i / nx)%nat by lia. lia.
Qed.
Lemma point_at_K K st idx m p : msh = s_mesh b st -> all_ok b target (indices b) K st -> valid_index b idx -> (m < nn)%nat ->
  (point_at b msh idx m p <-> nth_error K p = Some (ksi idx m)).
Proof.
  intros -> A V Hm. destruct (a_cells _ _ _ _ _ A) as [_ C]. destruct (C _ idx (indices_rank b W idx V)) as (c & Q1 & _ & _ & _ & _ & Q6).
  destruct (Q6 m Hm) as (q & X1 & X2). unfold point_at. cbn. split.
  - intros (c' & Y1 & Y2). assert (c' = c) by congruence. subst c'. congruence.
  - intros H. exists c. split; auto. rewrite X1. f_equal. apply (nodup_nth K q p _ (i_nodup _ _ _ _ _ (a_inv _ _ _ _ _ A)) X2 H).
Qed.
Lemma mesh_point_at idx m : valid_index b idx -> (m < nn)%nat -> exists p, point_at b msh idx m p /\ (p < List.length (points msh))%nat.
Proof.
  intros V Hm. destruct result as (K & st & E & A). destruct (a_cells _ _ _ _ _ A) as [_ C]. destruct (C _ idx (indices_rank b W idx V)) as (c & Q1 & _ & _ & _ & _ & Q6).
  destruct (Q6 m Hm) as (q & X1 & X2). exists q. split; [apply (point_at_K K st); auto|]. rewrite E. cbn. rewrite (i_len _ _ _ _ _ (a_inv _ _ _ _ _ A)). apply nth_error_Some. congruence.
Qed.
Lemma mesh_shared idx m p idx' m' p' : valid_index b idx -> valid_index b idx' -> (m < nn)%nat -> (m' < nn)%nat ->
  point_at b msh idx m p -> point_at b msh idx' m' p' -> (p = p' <-> lattice target idx m = lattice target idx' m').
Proof.
  intros V V' Hm Hm' H H'. destruct result as (K & st & E & A). apply (point_at_K K st) in H, H'; auto.
  rewrite <- (ksi_iff b target W F Sp) by auto. split; [congruence|]. intros Q. rewrite Q in H.
  apply (nodup_nth K p p' _ (i_nodup _ _ _ _ _ (a_inv _ _ _ _ _ A)) H H').
Qed.
Lemma mesh_no_orphan p : (p < List.length (points msh))%nat -> exists idx m, valid_index b idx /\ (m < nn)%nat /\ point_at b msh idx m p.
Proof.
  intros Hp. destruct result as (K & st & E & A). pose proof Hp as Hp'. rewrite E in Hp'. cbn in Hp'. rewrite (i_len _ _ _ _ _ (a_inv _ _ _ _ _ A)) in Hp'.
  destruct (nth_error K p) as [x|] eqn:Ex; [|apply nth_error_None in Ex; lia].
  destruct (i_from _ _ _ _ _ (a_inv _ _ _ _ _ A) x (nth_error_In _ _ Ex)) as (idx & m & _ & V & Hm & ->). exists idx, m. split; auto. split; auto. apply (point_at_K K st); auto.
Qed.
(* the coordinates of kept points *)
Lemma mesh_kept idx m p : valid_index b idx -> (m < nn)%nat -> point_at b msh idx m p -> keep b target (ksi idx m) ->
  exists s x, coords_of msh p x /\ place b (ksi idx m) = Ok (s, x).
Proof.
  intros V Hm H Kp. destruct result as (K & st & E & A). apply (point_at_K K st) in H; auto. pose proof (a_inv _ _ _ _ _ A) as I.
  assert (Hp : (p < List.length (s_points st))%nat) by (rewrite (i_len _ _ _ _ _ I); apply nth_error_Some; congruence).
  destruct (nth_error (s_points st) p) as [pt|] eqn:Ep; [|apply nth_error_None in Ep; lia].
  destruct (i_keep _ _ _ _ _ I p pt _ Ep H Kp) as (s & Es). exists s, (pt_coords pt). split; auto. exists pt. rewrite E. auto.
Qed.
Lemma mesh_positions idx m p : has_constraints b = false -> valid_index b idx -> (m < nn)%nat -> point_at b msh idx m p -> coords_of msh p (block_map b (ksi idx m)).
Proof.
  intros HC V Hm H. destruct (mesh_kept idx m p V Hm H (or_introl HC)) as (s & x & X & P).
  pose proof (place_spec b (ksi idx m) W (node_ksi_length b target idx m) (node_clear b target W F Sp idx m V Hm)) as Q. rewrite P in Q. destruct Q as [_ Q]. cbn [fst snd] in Q.
  destruct s as [s|]; [|destruct Q as [-> _]; auto]. destruct Q as (_ & Hs & Cs & _).
  assert (has_constraints b = true) by (apply has_constraints_iff; eauto). congruence.
Qed.
(* constrained sides *)
Lemma mesh_meets idx m p s : b_ring b = false -> valid_index b idx -> (m < nn)%nat -> point_at b msh idx m p ->
  (s < nsides nd)%nat -> constrained b s -> at_side nd s (ksi idx m) ->
  (apart b \/ (per target = 1 \/ m < corners nd)%nat /\ forall s', (s' < nsides nd)%nat -> constrained b s' -> at_side nd s' (ksi idx m) -> s' = s) ->
  exists x, coords_of msh p x /\ meets b s x /\ projects b s (block_map b (ksi idx m)) x.
Proof.
  intros Rg V Hm H Hs Cs As Ap. assert (Kp : keep b target (ksi idx m)).
  { destruct Ap as [Ap|[[Ap|Ap] _]]; [right; right; right; eauto 10|right; left; auto|right; right; left; exists idx, m; auto]. }
  assert (Un : forall s', (s' < nsides nd)%nat -> constrained b s' -> at_side nd s' (ksi idx m) -> s' = s).
  { destruct Ap as [Ap|[_ Ap]]; [|exact Ap]. intros s' Hs' Cs' As'. destruct (Nat.eq_dec s' s) as [Q|Q]; auto. exfalso.
    pose proof (Ap s' s Hs' Hs Cs' Cs Q) as X. pose proof (same_axis b W s' s Hs' Hs Q X) as Y. unfold at_side in As, As'. rewrite X in As'. rewrite As in As'.
    rewrite !side_end_eq in As' by (auto; apply W). destruct (side_high nd s), (side_high nd s'); try congruence; lra. }
  destruct (mesh_kept idx m p V Hm H Kp) as (o & x & X & P). exists x. split; auto.
  pose proof (place_spec b (ksi idx m) W (node_ksi_length b target idx m) (node_clear b target W F Sp idx m V Hm)) as Q. rewrite P in Q. destruct Q as [_ Q]. cbn [fst snd] in Q.
  destruct o as [s'|]; [|destruct Q as [Ex Q]; rewrite Ex in Q |- *; destruct (Q Rg s Hs As) as (M & _ & Pj); auto]. destruct Q as (_ & Hs' & Cs' & As' & M & _ & Pj & _). rewrite <- (Un s' Hs' Cs' As'). auto.
Qed.
Lemma mesh_unmoved idx m p : valid_index b idx -> (m < nn)%nat -> point_at b msh idx m p -> (per target = 1 \/ m < corners nd)%nat ->
  (b_ring b = true \/ forall s, (s < nsides nd)%nat -> constrained b s -> ~ at_side nd s (ksi idx m)) -> coords_of msh p (block_map b (ksi idx m)).
Proof.
  intros V Hm H Hc Hn. assert (Kp : keep b target (ksi idx m)) by (destruct Hc as [Hc|Hc]; [right; left; auto|right; right; left; exists idx, m; auto]).
  destruct (mesh_kept idx m p V Hm H Kp) as (s & x & X & P).
  pose proof (place_spec b (ksi idx m) W (node_ksi_length b target idx m) (node_clear b target W F Sp idx m V Hm)) as Q. rewrite P in Q. destruct Q as [_ Q]. cbn [fst snd] in Q.
  destruct s as [s|]; [|destruct Q as [-> _]; auto]. destruct Q as (Rg & Hs & Cs & As & _). exfalso. destruct Hn as [Hn|Hn]; [congruence|]. apply (Hn s); auto.
Qed.

(* ---------------------------------------------------------------- marks *)
Definition edge_sides (e : nat) : list nat := if (nd =? 2)%nat then [e] else nth e hex_edge_to_face [].
Lemma edge_sides_lt e s : (e < n_edges b)%nat -> In s (edge_sides e) -> (s < nsides nd)%nat.
Proof.
  unfold n_edges, edge_sides, nsides. destruct (nd =? 2)%nat; intros He Hs; [destruct Hs as [<- |[]]; auto|].
  do 12 (destruct e as [|e]; [simpl in Hs; lia|]). lia.
Qed.
End Mesh.

(* the edges and faces of the reference square and cube *)
Lemma ref_coords_hex20 : forall m, (m < 8)%nat -> ref_coords Hex20 m =
  nth m [[-1; -1; -1]; [1; -1; -1]; [1; 1; -1]; [-1; 1; -1]; [-1; -1; 1]; [1; -1; 1]; [1; 1; 1]; [-1; 1; 1]] [].
Proof. intros m Hm. unfold ref_coords. do 8 (destruct m as [|m]; [cbn; unfold Q2R; cbn; repeat f_equal; lra|]). lia. Qed.
Ltac table := first [rewrite ref_coords_qua8 by lia | rewrite ref_coords_hex20 by lia].
Ltac block_part :=
  match goal with |- on_nodes ?k ?l ?x <-> _ => let l' := eval vm_compute in l in change l with l' end;
  unfold on_nodes; split;
  [ intros H; first
      [ split; [|split] | split | idtac];
      cbn -[In ref_coords]; apply H; try (cbv; lia); intros m Hm; cbn in Hm; repeat (destruct Hm as [<- |Hm]; [table; reflexivity|]); destruct Hm
  | intros H a v Ha Hv; assert (Ha' : (a < 3)%nat) by (cbv in Ha; lia); cbn in H;
    destruct a as [|[|[|a]]]; [| | |lia]; try (exfalso; cbv in Ha; lia);
    let pp := fresh in let n := match type of Hv with forall m, In m (?p :: ?q :: _) -> _ => constr:((p, q)) end in
    match type of Hv with
    | forall m, In m [?p; ?q] -> _ =>
        pose proof (Hv p (or_introl eq_refl)) as Hp; pose proof (Hv q (or_intror (or_introl eq_refl))) as Hq; revert Hp Hq; do 2 table; cbn; intros; lra
    | forall m, In m [?p; ?q; ?r; ?s] -> _ =>
        pose proof (Hv p (or_introl eq_refl)) as Hp; pose proof (Hv q (or_intror (or_introl eq_refl))) as Hq;
        pose proof (Hv r (or_intror (or_intror (or_introl eq_refl)))) as Hr; pose proof (Hv s (or_intror (or_intror (or_intror (or_introl eq_refl))))) as Hs;
        revert Hp Hq Hr Hs; do 4 table; cbn; intros; lra
    end ].
Lemma block_edge_2d e x : (e < 4)%nat -> (on_block_edge 2 e x <-> at_side 2 e x).
Proof. intros He. unfold on_block_edge, at_side. do 4 (destruct e as [|e]; [block_part|]). lia. Qed.
Definition at_sides (nd : nat) (l : list nat) (x : list R) : Prop := forall s, In s l -> at_side nd s x.
Lemma at_sides2 s s' x : at_sides 3 [s; s'] x <-> at_side 3 s x /\ at_side 3 s' x.
Proof. unfold at_sides. simpl. split; [intros H; split; apply H; auto|intros [A B] q [<- |[<- |[]]]; auto]. Qed.
Lemma block_edge_3d e x : (e < 12)%nat -> (on_block_edge 3 e x <-> at_sides 3 (nth e hex_edge_to_face []) x).
Proof. intros He. unfold on_block_edge. do 12 (destruct e as [|e]; [cbn [nth hex_edge_to_face]; rewrite at_sides2; unfold at_side; block_part|]). lia. Qed.
Lemma block_face_3d f x : (f < 6)%nat -> (on_block_face f x <-> at_side 3 f x).
Proof. intros He. unfold on_block_face, at_side. do 6 (destruct f as [|f]; [block_part|]). lia. Qed.

(* which cells touch which sides *)
Definition touch_side (nd : nat) (t : touch) (s : nat) : bool :=
  if (nd =? 2)%nat then match s with 0%nat => ym t | 1%nat => xp t | 2%nat => yp t | _ => xm t end
  else match s with 0%nat => xm t | 1%nat => xp t | 2%nat => ym t | 3%nat => yp t | 4%nat => zm t | _ => zp t end.
Lemma edge_on_sides b t e : (e < n_edges b)%nat -> edge_on b t e = forallb (touch_side (b_ndim b) t) (edge_sides b e).
Proof.
  unfold edge_on, n_edges, edge_sides, touch_side. destruct (b_ndim b =? 2)%nat; intros H.
  - do 4 (destruct e as [|e]; [cbn; rewrite ?andb_true_r; reflexivity|]). lia.
  - do 12 (destruct e as [|e]; [cbn; rewrite ?andb_true_r; try reflexivity; apply andb_comm|]). lia.
Qed.
Lemma face_on_side t f : (f < 6)%nat -> face_on t f = touch_side 3 t f.
Proof. intros H. do 6 (destruct f as [|f]; [reflexivity|]). lia. Qed.
Lemma touch_side_iff b idx s : wf_block b -> (s < nsides (b_ndim b))%nat ->
  (touch_side (b_ndim b) (touch_of b idx) s = true <->
   nth (side_axis (b_ndim b) s) idx 0%nat = (if side_high (b_ndim b) s then ndivs b (side_axis (b_ndim b) s) - 1 else 0)%nat).
Proof.
  intros W. unfold touch_of, touches, nsides. destruct (w_nd b W) as [-> | ->]; cbn [Nat.eqb]; intros H.
  - do 4 (destruct s as [|s]; [cbn; apply Nat.eqb_eq|]). lia.
  - do 6 (destruct s as [|s]; [cbn; apply Nat.eqb_eq|]). lia.
Qed.
(* the cell edges and faces along given sides *)
Definition along (nd : nat) (k : geokind) (ss nodes : list nat) : bool :=
  forallb (fun s => forallb (fun m => (offset k m (side_axis nd s) =? end_off k (side_high nd s))%nat) nodes) ss.
Definition sides_of (nd e : nat) : list nat := if (nd =? 2)%nat then [e] else nth e hex_edge_to_face [].
Lemma edges_along nd k e e' : (nd = 2 \/ nd = 3)%nat -> In k (targets nd) -> (e < kind_nedge k)%nat -> (e' < kind_nedge k)%nat ->
  along nd k (sides_of nd e) [edge_node_id k e' 0; edge_node_id k e' 1] = (e =? e')%nat.
Proof.
  intros Hn Hk He He'.
  assert (C : forallb (fun k => forallb (fun e => forallb (fun e' => Bool.eqb (along nd k (sides_of nd e) [edge_node_id k e' 0; edge_node_id k e' 1]) (e =? e')%nat)
    (seq 0 (kind_nedge k))) (seq 0 (kind_nedge k))) (targets nd) = true) by (destruct Hn as [-> | ->]; vm_compute; reflexivity).
  rewrite forallb_forall in C. specialize (C k Hk). rewrite forallb_forall in C. specialize (C e ltac:(apply in_seq; lia)). rewrite forallb_forall in C.
  specialize (C e' ltac:(apply in_seq; lia)). apply eqb_prop in C. exact C.
Qed.
Lemma faces_along k f f' : In k (targets 3) -> (f < 6)%nat -> (f' < 6)%nat ->
  along 3 k [f] (map (face_node_id k f') (seq 0 4)) = (f =? f')%nat.
Proof.
  intros Hk He He'.
  assert (C : forallb (fun k => forallb (fun e => forallb (fun e' => Bool.eqb (along 3 k [e] (map (face_node_id k e') (seq 0 4))) (e =? e')%nat)
    (seq 0 6)) (seq 0 6)) (targets 3) = true) by (vm_compute; reflexivity).
  rewrite forallb_forall in C. specialize (C k Hk). rewrite forallb_forall in C. specialize (C f ltac:(apply in_seq; lia)). rewrite forallb_forall in C.
  specialize (C f' ltac:(apply in_seq; lia)). apply eqb_prop in C. exact C.
Qed.
Lemma faces_target k : In k (targets 3) -> kind_nface k = 6%nat.
Proof. intros H; simpl in H; repeat (destruct H as [<- |H]; [reflexivity|]); destruct H. Qed.

Section Marks.
Variables (b : block) (target : geokind).
Hypothesis W : wf_block b.
Hypothesis F : In target (targets (b_ndim b)).
Hypothesis Sp : spaced b target.
Notation nd := (b_ndim b).
Notation nn := (kind_nnode target).
Notation ksi := (node_ksi b target).
Lemma at_sides_nodes idx ss nodes : valid_index b idx -> (forall s, In s ss -> (s < nsides nd)%nat) -> nodes <> [] -> (forall m, In m nodes -> (m < nn)%nat) ->
  ((forall m, In m nodes -> at_sides nd ss (ksi idx m)) <-> forallb (touch_side nd (touch_of b idx)) ss = true /\ along nd target ss nodes = true).
Proof.
  intros V Hs Hne Hm. unfold along, at_sides. rewrite !forallb_forall. split.
  - intros H. split.
    + intros s Hin. apply (touch_side_iff b idx s W (Hs s Hin)). destruct nodes as [|m0 l]; [congruence|].
      apply (at_side_node b target W F Sp s idx m0 V (Hm m0 (or_introl eq_refl)) (Hs s Hin)). apply H; simpl; auto.
    + intros s Hin. apply forallb_forall. intros m Hmn. apply Nat.eqb_eq. apply (at_side_node b target W F Sp s idx m V (Hm m Hmn) (Hs s Hin)). apply H; auto.
  - intros [A B] m Hmn s Hin. apply (at_side_node b target W F Sp s idx m V (Hm m Hmn) (Hs s Hin)). split; [apply (touch_side_iff b idx s W (Hs s Hin)); auto|].
    specialize (B s Hin). rewrite forallb_forall in B. apply Nat.eqb_eq, B, Hmn.
Qed.
Lemma block_edge_sides e x : (e < n_edges b)%nat -> (on_block_edge nd e x <-> at_sides nd (sides_of nd e) x).
Proof.
  unfold n_edges, sides_of. intros He. destruct (w_nd b W) as [E|E]; rewrite E in *; cbn [Nat.eqb] in *.
  - rewrite block_edge_2d by auto. unfold at_sides. simpl. split; [intros H s [<- |[]]; auto|auto].
  - apply block_edge_3d; auto.
Qed.
Lemma edge_where idx e e' : valid_index b idx -> (e < n_edges b)%nat -> (e' < kind_nedge target)%nat ->
  (on_block_edge nd e (ksi idx (edge_node_id target e' 0)) /\ on_block_edge nd e (ksi idx (edge_node_id target e' 1)) <->
   e = e' /\ edge_on b (touch_of b idx) e = true).
Proof.
  intros V He He'. rewrite !block_edge_sides by auto. rewrite (edge_on_sides b _ e He). change (edge_sides b e) with (sides_of nd e).
  pose proof (corner_nnode nd target (w_nd b W) F) as Cn.
  destruct (edge_facts nd target (w_nd b W) F e' He') as (_ & E2 & E3 & _).
  destruct (at_sides_nodes idx (sides_of nd e) [edge_node_id target e' 0; edge_node_id target e' 1] V (fun s => edge_sides_lt b e s He)) as [A B];
    [discriminate|intros m [<- |[<- |[]]]; lia|].
  rewrite (edges_along nd target e e' (w_nd b W) F) in A, B by (auto; rewrite (kind_edges b target W F); auto). rewrite Nat.eqb_eq in A, B. split.
  - intros [H1 H2]. destruct A as [A1 A2]; auto. intros m [<- |[<- |[]]]; auto.
  - intros [E1 E4]. split; apply B; simpl; auto.
Qed.
Lemma face_where idx f f' : nd = 3%nat -> valid_index b idx -> (f < 6)%nat -> (f' < 6)%nat ->
  ((forall j, (j < 4)%nat -> on_block_face f (ksi idx (face_node_id target f' j))) <-> f = f' /\ face_on (touch_of b idx) f = true).
Proof.
  intros N3 V Hf Hf'. pose proof (corner_nnode nd target (w_nd b W) F) as Cn.
  destruct (at_sides_nodes idx [f] (map (face_node_id target f') (seq 0 4)) V) as [A B].
  { intros s [<- |[]]. unfold nsides. rewrite N3. auto. } { discriminate. }
  { intros m Hm. apply in_map_iff in Hm as (j & <- & Hj). apply in_seq in Hj. pose proof (face_corner b target F f' j N3 Hf' ltac:(lia)). lia. }
  rewrite N3 in A, B. rewrite (faces_along target f f') in A, B by (auto; rewrite <- N3; auto). rewrite Nat.eqb_eq in A, B.
  rewrite (face_on_side _ f Hf). cbn [forallb] in A, B. rewrite andb_true_r in A, B. split.
  - intros H. destruct A as [A1 A2]; auto. intros m Hm s [<- |[]]. apply in_map_iff in Hm as (j & <- & Hj). apply in_seq in Hj. apply block_face_3d; auto. apply H. lia.
  - intros [E1 E4] j Hj. apply block_face_3d; auto. apply (B (conj E4 E1)); [|simpl; auto]. apply in_map_iff. exists j. split; auto. apply in_seq. lia.
Qed.
Lemma mget_in {V} (m : list (nat * V)) k v : mget Nat.eqb m k = Some v -> In (k, v) m.
Proof.
  induction m as [|[k' v'] m IH]; simpl; [discriminate|]. destruct (Nat.eqb_spec k' k) as [->|N]; [intros H; injection H as ->; auto|auto].
Qed.
Lemma em_lt e mk : mget Nat.eqb (b_em b) e = Some mk -> (e < n_edges b)%nat.
Proof. intros H. apply mget_in in H. apply (w_ems b W) in H. exact H. Qed.
Lemma fm_lt f mk : mget Nat.eqb (b_fm b) f = Some mk -> (f < 6)%nat /\ nd = 3%nat.
Proof.
  intros H. split; [apply (w_fms b W f mk), mget_in, H|]. destruct (w_nd b W) as [E|E]; auto. rewrite (w_fm b W E) in H. discriminate.
Qed.

Variable sh : container -> container.
Variable shc : list (nat * nat) -> list (nat * nat).
Hypothesis Hsh : forall c, Permutation (sh c) c.
Hypothesis Hshc : forall l, Permutation (shc l) l.
Variable msh : mesh R.
Hypothesis Run : subdivide sh shc b target = Ok msh.
Lemma mesh_edge_marks mk u v : In (mk, u, v) (marked_edges msh) <->
  exists e idx e' p q, mget Nat.eqb (b_em b) e = Some mk /\ valid_index b idx /\ (e' < kind_nedge target)%nat /\
    point_at b msh idx (edge_node_id target e' 0) p /\ point_at b msh idx (edge_node_id target e' 1) q /\
    on_block_edge nd e (ksi idx (edge_node_id target e' 0)) /\ on_block_edge nd e (ksi idx (edge_node_id target e' 1)) /\
    u = Nat.min p q /\ v = Nat.max p q.
Proof.
  destruct (result b target sh shc Hsh Hshc W F Sp msh Run) as (K & st & E & A). pose proof (corner_nnode nd target (w_nd b W) F) as Cn.
  pose proof (kind_edges b target W F) as Ke.
  assert (PA := fun idx m p => point_at_K b target sh shc W msh Run K st idx m p E A).
  rewrite E at 1. cbn [marked_edges s_mesh]. rewrite (a_me _ _ _ _ _ A). split.
  - intros (idx & Hi & e & mk' & p & q & H1 & H2 & H3 & H4 & H5 & H6). apply (indices_valid b W) in Hi. injection H6 as -> -> ->.
    destruct (edge_facts nd target (w_nd b W) F e ltac:(lia)) as (_ & E2 & E3 & _).
    destruct (proj2 (edge_where idx e e Hi H1 ltac:(lia)) (conj eq_refl H2)) as [O1 O2].
    exists e, idx, e, p, q. split; auto. split; auto. split; [lia|]. split; [apply PA; auto; lia|]. split; [apply PA; auto; lia|]. auto.
  - intros (e & idx & e' & p & q & H1 & H2 & H3 & H4 & H5 & H6 & H7 & -> & ->). pose proof (em_lt e mk H1) as He.
    destruct (proj1 (edge_where idx e e' H2 He H3) (conj H6 H7)) as [<- Ho].
    destruct (edge_facts nd target (w_nd b W) F e H3) as (_ & E2 & E3 & _).
    exists idx. split; [apply (indices_valid b W); auto|]. exists e, mk, p, q. apply PA in H4, H5; auto; try lia. auto 10.
Qed.
Lemma mesh_face_marks x : In x (marked_faces msh) <->
  exists f idx f' p1 p2 p3 p4 a1 a2 a3 a4 mk, mget Nat.eqb (b_fm b) f = Some mk /\ valid_index b idx /\ (f' < 6)%nat /\
    point_at b msh idx (face_node_id target f' 0) p1 /\ point_at b msh idx (face_node_id target f' 1) p2 /\
    point_at b msh idx (face_node_id target f' 2) p3 /\ point_at b msh idx (face_node_id target f' 3) p4 /\
    (forall j, (j < 4)%nat -> on_block_face f (ksi idx (face_node_id target f' j))) /\
    Permutation [p1; p2; p3; p4] [a1; a2; a3; a4] /\ (a1 <= a2 <= a3)%nat /\ (a3 <= a4)%nat /\ x = (mk, a1, a2, a3, Some a4).
Proof.
  destruct (result b target sh shc Hsh Hshc W F Sp msh Run) as (K & st & E & A). pose proof (corner_nnode nd target (w_nd b W) F) as Cn.
  assert (PA := fun idx m p => point_at_K b target sh shc W msh Run K st idx m p E A).
  assert (Sr : forall p1 p2 p3 p4 a1 a2 a3 a4, sort4 [p1; p2; p3; p4] = [a1; a2; a3; a4] <-> Permutation [p1; p2; p3; p4] [a1; a2; a3; a4] /\ (a1 <= a2 <= a3)%nat /\ (a3 <= a4)%nat).
  { intros p1 p2 p3 p4 a1 a2 a3 a4. split.
    - intros Hs. split; [rewrite <- Hs; symmetry; apply isort_perm|].
      pose proof (JoinProof2.sort4_is_sorted [p1; p2; p3; p4]) as S4. rewrite Hs in S4. inversion S4 as [|? ? S3 F1]; subst. inversion S3 as [|? ? S2 F2]; subst. inversion S2 as [|? ? S1 F3]; subst.
      inversion F1; subst. inversion F2; subst. inversion F3; subst. lia.
    - intros (Hp & Ho1 & Ho2). destruct (sort4_four p1 p2 p3 p4) as (c1 & c2 & c3 & c4 & Ec).
      assert (P2 : Permutation [c1; c2; c3; c4] [a1; a2; a3; a4]) by (rewrite <- Ec; transitivity [p1; p2; p3; p4]; auto; apply isort_perm).
      pose proof (JoinProof2.sort4_is_sorted [p1; p2; p3; p4]) as S4. rewrite Ec in S4 |- *.
      apply (GraphProof3.sorted_unique Nat.leb); [intros x0 y0 H1 H2; apply Nat.leb_le in H1, H2; lia| | |exact P2].
      + clear - S4. induction S4 as [|x l S4 IH Fx]; constructor; auto. eapply Forall_impl; [|exact Fx]. intros y H. apply Nat.leb_le; auto.
      + repeat constructor; apply Nat.leb_le; lia. }
  rewrite E at 1. cbn [marked_faces s_mesh]. rewrite (a_mf _ _ _ _ _ A). split.
  - intros (idx & Hi & f & mk & p1 & p2 & p3 & p4 & a1 & a2 & a3 & a4 & H1 & H2 & H3 & H4 & H5 & H6 & H7 & H8 & H9). apply (indices_valid b W) in Hi.
    destruct (fm_lt f mk H3) as [_ N3]. pose proof (fun j Hj => face_corner b target F f j N3 H1 Hj) as Fc.
    exists f, idx, f, p1, p2, p3, p4, a1, a2, a3, a4, mk. split; auto. split; auto. split; auto.
    do 4 (split; [apply PA; auto; match goal with |- (face_node_id _ _ ?j < _)%nat => pose proof (Fc j ltac:(lia)); lia end|]).
    split; [apply face_where; auto|]. apply Sr in H8 as (P & O1 & O2). auto.
  - intros (f & idx & f' & p1 & p2 & p3 & p4 & a1 & a2 & a3 & a4 & mk & H1 & H2 & H3 & H4 & H5 & H6 & H7 & H8 & H9 & H10 & H11 & ->).
    destruct (fm_lt f mk H1) as [Hf N3]. pose proof (fun j Hj => face_corner b target F f' j N3 H3 Hj) as Fc.
    destruct (proj1 (face_where idx f f' N3 H2 Hf H3) H8) as [<- Ho].
    exists idx. split; [apply (indices_valid b W); auto|]. exists f, mk, p1, p2, p3, p4, a1, a2, a3, a4. split; auto. split; auto. split; auto.
    assert (Fc' : forall j, (j < 4)%nat -> (face_node_id target f j < nn)%nat) by (intros j Hj; specialize (Fc j Hj); lia).
    apply PA in H4, H5, H6, H7; auto; try (apply Fc'; lia). do 4 (split; [auto|]). split; [apply Sr; auto|auto].
Qed.
End Marks.
