(* Constraints and the placement of a new point. *)
From Coq Require Import String Reals QArith Qreals List Lia Lra Bool Arith ZArith.
From Verif Require Import Base BaseFacts TopoMaps Kind MeshModel TopoModel ShapesModel ShapesSpec ShapesProof
  GeomModel GeomProof PadModel PadSpec PadProof PadProof2 BlockModel BlockSpec BlockProof BlockProof2 BlockProof3.
Import ListNotations.
Local Open Scope list_scope.
Local Open Scope R_scope.

(* Ok with a property, or Err under a condition; never a panic *)
Definition okerr {A} (e : Prop) (r : res A) (P : A -> Prop) : Prop :=
  match r with Ok v => P v | Err _ => e | _ => False end.
Lemma okerr_bind {A B} e (r : res A) (f : A -> res B) P Q : okerr e r P -> (forall v, P v -> okerr e (f v) Q) -> okerr e (bind r f) Q.
Proof. intros H K. destruct r; simpl in *; auto. Qed.
Lemma okerr_mono {A} (e e' : Prop) (r : res A) (P Q : A -> Prop) : okerr e r P -> (e -> e') -> (forall v, P v -> Q v) -> okerr e' r Q.
Proof. destruct r; simpl; auto. Qed.
Lemma okerr_eq {A} e (r : res A) P : okerr e r P -> okerr e r (fun v => r = Ok v /\ P v).
Proof. destruct r; simpl; auto. Qed.
Lemma okerr_foldM {A S} e (I : list A -> S -> Prop) (f : S -> A -> res S) l :
  forall done s, I done s -> (forall done x s, In x l -> I done s -> okerr e (f s x) (I (done ++ [x]))) -> okerr e (foldM f l s) (I (done ++ l)).
Proof.
  induction l as [|x l IH]; intros done s H K; simpl; [rewrite app_nil_r; auto|].
  apply okerr_bind with (P := I (done ++ [x])); [apply K; simpl; auto|]. intros v Hv.
  replace (done ++ x :: l) with ((done ++ [x]) ++ l) by (rewrite <- app_assoc; reflexivity). apply IH; auto. intros d y s' Hy. apply K; simpl; auto.
Qed.
Lemma okerr_foldM_const {A S} e (I : S -> Prop) (f : S -> A -> res S) l :
  forall s, I s -> (forall x s, In x l -> I s -> okerr e (f s x) I) -> okerr e (foldM f l s) I.
Proof. intros s H K. apply (okerr_foldM e (fun _ => I) f l [] s H). intros _ x s' Hx Hs. apply K; auto. Qed.

(* ---------------------------------------------------------------- circles *)
Lemma upd2_nth (x : list R) p q u v i : (p < List.length x)%nat -> (q < List.length x)%nat -> p <> q ->
  nth i (upd (upd x p u) q v) 0 = if (i =? q)%nat then v else if (i =? p)%nat then u else nth i x 0.
Proof.
  intros Hp Hq N. destruct (Nat.eqb_spec i q) as [->|A].
  - apply nth_upd_same. rewrite upd_length; auto.
  - rewrite nth_upd_other by auto. destruct (Nat.eqb_spec i p) as [->|B]; [apply nth_upd_same; auto|apply nth_upd_other; auto].
Qed.
Lemma to_circle_spec x p q pc qc r msg : (p < List.length x)%nat -> (q < List.length x)%nat -> p <> q ->
  let d := dist2 (nth p x 0 - pc) (nth q x 0 - qc) in
  (d <= / 100000000 -> to_circle x p q pc qc r msg = Err msg) /\
  (/ 100000000 < d -> exists m x', to_circle x p q pc qc r msg = Ok (m, x') /\ List.length x' = List.length x /\
     nth p x' 0 = pc + r / d * (nth p x 0 - pc) /\ nth q x' 0 = qc + r / d * (nth q x 0 - qc) /\
     (forall i, i <> p -> i <> q -> nth i x' 0 = nth i x 0) /\
     dist2 (nth p x' 0 - pc) (nth q x' 0 - qc) = Rabs r /\ (m = false -> x' = x) /\ (m = true -> r <> d)).
Proof.
  intros Hp Hq N d. unfold to_circle. rewrite (get_ok _ _ 0 Hp), (get_ok _ _ 0 Hq). cbn [bind].
  set (xp := nth p x 0) in *. set (xq := nth q x 0) in *.
  assert (Ed : sqrt ((xp - pc) * (xp - pc) + (xq - qc) * (xq - qc)) = d) by (unfold d, dist2; f_equal; ring).
  rewrite Ed. assert (D0 : 0 <= d) by apply sqrt_pos. rewrite (Rabs_pos_eq d) by auto. unfold TOL_DISTANCE.
  assert (D2 : d * d = (xp - pc) ^ 2 + (xq - qc) ^ 2) by (unfold d, dist2; apply sqrt_sqrt; pose proof (pow2_ge_0 (xp - pc)); pose proof (pow2_ge_0 (xq - qc)); lra).
  split; intros H; [rewrite (proj2 (Rleb_iff d _)) by auto; reflexivity|].
  rewrite (proj2 (Rleb_false d _)) by lra.
  assert (Dist : forall u v, u = pc + r / d * (xp - pc) -> v = qc + r / d * (xq - qc) -> dist2 (u - pc) (v - qc) = Rabs r).
  { intros u v -> ->. unfold dist2. rewrite <- sqrt_Rsqr_abs. f_equal. unfold Rsqr.
    replace ((pc + r / d * (xp - pc) - pc) ^ 2 + (qc + r / d * (xq - qc) - qc) ^ 2) with ((r / d) * (r / d) * ((xp - pc) ^ 2 + (xq - qc) ^ 2)) by ring.
    rewrite <- D2. field. lra. }
  destruct (Req_dec (r - d) 0) as [G|G].
  - rewrite (proj2 (Rltb_false 0 _)) by (rewrite G, Rabs_R0; lra). exists false, x. split; [reflexivity|]. split; [auto|].
    fold xp xq. assert (Er : r / d = 1) by (replace r with d by lra; field; lra). rewrite Er. split; [lra|]. split; [lra|]. split; [auto|]. split; [|split; [auto|discriminate]].
    apply Dist; rewrite Er; lra.
  - rewrite (proj2 (Rltb_iff 0 _)) by (apply Rabs_pos_lt; auto). rewrite set_ok by auto. cbn [bind]. rewrite set_ok by (rewrite upd_length; auto). cbn [bind].
    eexists true, _. split; [reflexivity|]. split; [rewrite !upd_length; auto|]. rewrite !upd2_nth by auto.
    rewrite (Nat.eqb_refl q), (Nat.eqb_refl p). destruct (Nat.eqb_spec p q) as [E|_]; [contradiction|].
    assert (E1 : xp + (r - d) * (xp - pc) / d = pc + r / d * (xp - pc)) by (field; lra).
    assert (E2 : xq + (r - d) * (xq - qc) / d = qc + r / d * (xq - qc)) by (field; lra).
    split; [exact E1|]. split; [exact E2|]. split; [|split; [apply Dist; auto|split; [discriminate|intros _ Q; apply G; lra]]].
    intros i A B. rewrite upd2_nth by auto. destruct (Nat.eqb_spec i q); [contradiction|]. destruct (Nat.eqb_spec i p); [contradiction|auto].
Qed.

Lemma to_projection x x' p q pc qc r : List.length x' = List.length x ->
  nth p x' 0 = pc + r / dist2 (nth p x 0 - pc) (nth q x 0 - qc) * (nth p x 0 - pc) -> nth q x' 0 = qc + r / dist2 (nth p x 0 - pc) (nth q x 0 - qc) * (nth q x 0 - qc) ->
  (forall i, i <> p -> i <> q -> nth i x' 0 = nth i x 0) -> projection p q pc qc r x x'.
Proof.
  intros L A B C. split; [exact L|]. intros i. destruct (Nat.eqb_spec i p) as [->|N1]; [exact A|]. destruct (Nat.eqb_spec i q) as [->|N2]; [exact B|]. apply C; assumption.
Qed.
Lemma not_projection x p q pc qc r : (p < List.length x)%nat -> (q < List.length x)%nat -> p <> q -> 0 < dist2 (nth p x 0 - pc) (nth q x 0 - qc) ->
  r <> dist2 (nth p x 0 - pc) (nth q x 0 - qc) -> ~ projection p q pc qc r x x.
Proof.
  intros Hp Hq N D Hr (_ & H). set (d := dist2 _ _) in *. pose proof (H p) as A. pose proof (H q) as B. rewrite Nat.eqb_refl in A. rewrite Nat.eqb_refl in B.
  destruct (Nat.eqb_spec q p) as [E|_]; [congruence|]. fold d in A, B. set (u := nth p x 0 - pc) in *. set (v := nth q x 0 - qc) in *.
  assert (D2 : d * d = u ^ 2 + v ^ 2) by (unfold d, dist2; apply sqrt_sqrt; pose proof (pow2_ge_0 u); pose proof (pow2_ge_0 v); lra).
  assert (U : (r / d - 1) * u = 0) by (unfold u in *; lra). assert (V : (r / d - 1) * v = 0) by (unfold v in *; lra).
  assert (Q : r / d - 1 = 0). { apply Rmult_integral in U as [U|U]; [exact U|]. apply Rmult_integral in V as [V|V]; [exact V|]. rewrite U, V in D2. nra. }
  apply Hr. replace r with (r / d * d) by (field; lra). replace (r / d) with 1 by lra. ring.
Qed.
(* one side *)
Lemma apply_side_spec b x s : wf_block b -> List.length x = b_ndim b ->
  okerr (near b s x) (apply_side b x s)
    (fun r => List.length (snd r) = b_ndim b /\ (fst r = false -> snd r = x) /\ (fst r = true -> constrained b s) /\ meets b s (snd r) /\ ~ near b s x /\ projects b s x (snd r) /\ (fst r = true -> ~ projects b s x x)).
Proof.
  intros W L. unfold apply_side, constrained, meets, near, projects. destruct (w_nd b W) as [E|E]; rewrite E in L |- *; cbn [Nat.eqb].
  - destruct (mget Nat.eqb (b_ec b) s) as [[xc yc r]|]; [|simpl; repeat split; auto; discriminate]. cbn [apply_constraint_2d].
    match goal with |- okerr _ (to_circle ?x ?p ?q ?pc ?qc ?r ?m) _ => destruct (to_circle_spec x p q pc qc r m ltac:(lia) ltac:(lia) ltac:(lia)) as [A B];
      destruct (Rle_lt_dec (dist2 (nth p x 0 - pc) (nth q x 0 - qc)) (/ 100000000)) as [C|C]; [rewrite (A C); exact C|destruct (B C) as (u & x' & -> & X1 & X2 & X3 & X4 & X5 & X6 & X7)] end.
    cbn [okerr fst snd]. split; [lia|]. split; [exact X6|]. split; [discriminate|]. split; [exact X5|]. split; [apply Rlt_not_le; exact C|]. split; [apply to_projection; assumption|].
    intros U. apply not_projection; [lia|lia|lia|lra|exact (X7 U)].
  - destruct (mget Nat.eqb (b_fc b) s) as [[xc yc r|xc yc r|xc yc r]|]; [| | |simpl; repeat split; auto; discriminate]; cbn [apply_constraint_3d];
    (match goal with |- okerr _ (to_circle ?x ?p ?q ?pc ?qc ?r ?m) _ => destruct (to_circle_spec x p q pc qc r m ltac:(lia) ltac:(lia) ltac:(lia)) as [A B];
      destruct (Rle_lt_dec (dist2 (nth p x 0 - pc) (nth q x 0 - qc)) (/ 100000000)) as [C|C]; [rewrite (A C); exact C|destruct (B C) as (u & x' & -> & X1 & X2 & X3 & X4 & X5 & X6 & X7)] end;
    cbn [okerr fst snd]; split; [lia|]; split; [exact X6|]; split; [discriminate|]; split; [exact X5|]; split; [apply Rlt_not_le; exact C|]; split; [apply to_projection; assumption|];
    intros U; apply not_projection; [lia|lia|lia|lra|exact (X7 U)]).
Qed.

Lemma near_constrained b s x : near b s x -> constrained b s.
Proof.
  unfold near, constrained. destruct (b_ndim b =? 2)%nat; [destruct (mget Nat.eqb (b_ec b) s)|destruct (mget Nat.eqb (b_fc b) s)]; intros H; try discriminate; destruct H.
Qed.
(* all sides, in their order *)
Definition side_step (b : block) (ksi : list R) (st : option nat * list R) (t : nat * R * nat) : res (option nat * list R) :=
  match fst st with
  | Some _ => Ok st
  | None =>
      let '(axis, v, side) := t in
      let! k := get ksi axis in
      if Rltb (Rabs (v - k)) TOL_SIDE then
        let! r := apply_side b (snd st) side in
        if fst r then Ok (Some side, snd r) else Ok (None, snd r)
      else Ok st
  end.
(* the reference coordinates are on a side or away from it *)
Definition clear_of_sides (nd : nat) (ksi : list R) : Prop :=
  forall s, (s < nsides nd)%nat -> nth (side_axis nd s) ksi 0 <> side_end nd s -> / 10000000000000 <= Rabs (side_end nd s - nth (side_axis nd s) ksi 0).
Lemma side_tests_eq nd : (nd = 2 \/ nd = 3)%nat -> side_tests nd = map (fun s => (side_axis nd s, side_end nd s, s)) (seq 0 (nsides nd)).
Proof. intros [-> | ->]; reflexivity. Qed.
Lemma side_axis_lt nd s : (nd = 2 \/ nd = 3)%nat -> (s < nsides nd)%nat -> (side_axis nd s < nd)%nat.
Proof. intros [-> | ->]; unfold nsides; cbn [Nat.eqb]; intros H; do 6 (destruct s as [|s]; [unfold side_axis; cbn; lia|]); lia. Qed.

Lemma handle_spec b x ksi : wf_block b -> List.length x = b_ndim b -> List.length ksi = b_ndim b -> clear_of_sides (b_ndim b) ksi ->
  okerr (exists s, (s < nsides (b_ndim b))%nat /\ constrained b s /\ at_side (b_ndim b) s ksi /\ near b s x) (handle_constraints b x ksi) (fun r => List.length (snd r) = b_ndim b /\
    match fst r with
    | Some s => (s < nsides (b_ndim b))%nat /\ constrained b s /\ at_side (b_ndim b) s ksi /\ meets b s (snd r) /\ ~ near b s x /\ projects b s x (snd r) /\ ~ projects b s x x
    | None => snd r = x /\ forall s, (s < nsides (b_ndim b))%nat -> at_side (b_ndim b) s ksi -> meets b s x /\ ~ near b s x /\ projects b s x x
    end).
Proof.
  intros W L Lk C. unfold handle_constraints. change (fun st t => _) with (side_step b ksi).
  rewrite (side_tests_eq _ (w_nd b W)).
  set (I := fun (done : list (nat * R * nat)) (r : option nat * list R) => List.length (snd r) = b_ndim b /\
    match fst r with
    | Some s => (s < nsides (b_ndim b))%nat /\ constrained b s /\ at_side (b_ndim b) s ksi /\ meets b s (snd r) /\ ~ near b s x /\ projects b s x (snd r) /\ ~ projects b s x x
    | None => snd r = x /\ forall s, In s (map snd done) -> at_side (b_ndim b) s ksi -> meets b s x /\ ~ near b s x /\ projects b s x x
    end).
  eapply okerr_mono; [apply (okerr_foldM (exists s, (s < nsides (b_ndim b))%nat /\ constrained b s /\ at_side (b_ndim b) s ksi /\ near b s x) I _ _ []) | | ].
  - split; [auto|]. simpl. tauto.
  - intros done t st Ht [I1 I2]. apply in_map_iff in Ht as (s & <- & Hs). apply in_seq in Hs.
    unfold side_step. destruct st as [[s'|] y]; cbn [fst snd] in *.
    + split; [exact I1|]. cbn [fst snd]. exact I2.
    + destruct I2 as [-> I2]. pose proof (side_axis_lt _ s (w_nd b W) ltac:(lia)) as Ha.
      rewrite (get_ok _ _ 0) by (rewrite Lk; auto). cbn [bind].
      destruct (Req_EM_T (nth (side_axis (b_ndim b) s) ksi 0) (side_end (b_ndim b) s)) as [Q|Q].
      * rewrite (proj2 (Rltb_iff _ _)). 2:{ rewrite Q, Rminus_diag_eq, Rabs_R0 by auto. unfold TOL_SIDE. lra. }
        eapply okerr_bind; [eapply okerr_mono; [apply (apply_side_spec b x s W L)| |]|].
        { intros Hc. exists s. split; [lia|]. split; [apply (near_constrained b s x Hc)|]. split; [exact Q|exact Hc]. }
        { intros v Hv. exact Hv. }
        intros [u y] (Y1 & Y2 & Y3 & Y4 & Y5 & Y6 & Y7). cbn [fst snd] in *. destruct u.
        -- split; [auto|]. cbn [fst snd]. split; [lia|]. split; [auto|]. split; [exact Q|auto].
        -- split; [auto|]. cbn [fst snd]. specialize (Y2 eq_refl). subst y. split; [auto|]. intros s0. rewrite map_app, in_app_iff. simpl.
           intros [H|[<- |[]]]; auto.
      * rewrite (proj2 (Rltb_false _ _)); [|unfold TOL_SIDE; apply C; auto; lia]. split; [auto|]. cbn [fst snd]. split; [auto|].
        intros s0. rewrite map_app, in_app_iff. simpl. intros [H|[<- |[]]] A; auto. contradiction.
  - auto.
  - intros r [I1 I2]. split; [auto|]. destruct (fst r); [auto|]. destruct I2 as [A B]. split; [auto|]. intros s Hs. apply B.
    simpl app. rewrite map_map. simpl. rewrite map_id. apply in_seq. lia.
Qed.

Lemma has_constraints_iff b : wf_block b -> (has_constraints b = true <-> exists s, (s < nsides (b_ndim b))%nat /\ constrained b s).
Proof.
  intros W. unfold has_constraints, constrained.
  assert (M : forall V (m : list (nat * V)) (n : nat), (forall s c, In (s, c) m -> s < n)%nat ->
    (negb (List.length m =? 0)%nat = true <-> exists s, (s < n)%nat /\ mget Nat.eqb m s <> None)).
  { intros V m n H. rewrite negb_true_iff, Nat.eqb_neq. destruct m as [|[s c] m].
    - simpl. split; [tauto|]. intros (s & _ & X). auto.
    - split; [intros _|simpl; lia]. exists s. split; [apply (H s c); simpl; auto|]. simpl. rewrite Nat.eqb_refl. discriminate. }
  destruct (w_nd b W) as [E|E]; rewrite E; unfold nsides; cbn [Nat.eqb].
  - rewrite (w_fc b W E). simpl. rewrite orb_false_r. apply M. apply (w_ecs b W).
  - rewrite (w_ec b W E). simpl. apply M. apply (w_fcs b W).
Qed.

Lemma ring_ok b ksi : wf_block b -> List.length ksi = b_ndim b ->
  map_coords_cylindrical b ksi = Ok (map (ring_point (b_args b) ksi) (seq 0 (b_ndim b))).
Proof.
  intros W L. unfold map_coords_cylindrical. rewrite L, Nat.eqb_refl. cbn [negb].
  destruct (w_nd b W) as [E|E]; rewrite E in *; rewrite !(get_ok _ _ 0) by lia; cbn [bind Nat.eqb seq map]; unfold ring_point; repeat (f_equal; try lra).
Qed.
(* the new point *)
Lemma place_spec b ksi : wf_block b -> List.length ksi = b_ndim b -> clear_of_sides (b_ndim b) ksi ->
  okerr (b_ring b = false /\ exists s, (s < nsides (b_ndim b))%nat /\ constrained b s /\ at_side (b_ndim b) s ksi /\ near b s (block_map b ksi)) (place b ksi)
    (fun r => List.length (snd r) = b_ndim b /\
      match fst r with
      | Some s => b_ring b = false /\ (s < nsides (b_ndim b))%nat /\ constrained b s /\ at_side (b_ndim b) s ksi /\ meets b s (snd r) /\ ~ near b s (block_map b ksi) /\ projects b s (block_map b ksi) (snd r) /\ ~ projects b s (block_map b ksi) (block_map b ksi)
      | None => snd r = block_map b ksi /\ (b_ring b = false -> forall s, (s < nsides (b_ndim b))%nat -> at_side (b_ndim b) s ksi -> meets b s (snd r) /\ ~ near b s (block_map b ksi) /\ projects b s (block_map b ksi) (snd r))
      end).
Proof.
  intros W L C. unfold place, block_map. destruct (b_ring b).
  - rewrite ring_ok by auto. simpl. split; [rewrite map_length, seq_length; auto|]. split; [auto|discriminate].
  - destruct (pad_coords_ok (b_pad b) ksi (w_pad b W) (w_ok b W)) as (x & q & E & Lx & X & _). rewrite (w_space b W) in E, Lx, X.
    rewrite E. cbn [bind fst]. assert (Ex : x = map (pos (b_pad b) ksi) (seq 0 (b_ndim b))).
    { apply nth_ext with (d := 0) (d' := 0); [rewrite map_length, seq_length; auto|]. intros i Hi. rewrite Lx in Hi.
      rewrite (nth_map_in _ _ _ 0%nat) by (rewrite seq_length; auto). rewrite seq_nth by auto. apply X; auto. }
    change (fun i => pos (b_pad b) ksi i) with (pos (b_pad b) ksi). rewrite <- Ex. destruct (has_constraints b) eqn:HC.
    + eapply okerr_mono; [apply (handle_spec b x ksi W Lx L C)| |].
      * auto.
      * intros [[s|] y] [A B]; cbn [fst snd] in *; split; auto. destruct B as [-> B]. auto.
    + simpl. split; [auto|]. split; [auto|]. intros _ s Hs _. unfold meets, near, projects.
      assert (N : ~ constrained b s).
      { intros K. assert (X' : has_constraints b = true) by (apply has_constraints_iff; eauto). congruence. }
      unfold constrained in N. destruct (b_ndim b =? 2)%nat.
      * destruct (mget Nat.eqb (b_ec b) s); [|tauto]. exfalso. apply N. discriminate.
      * destruct (mget Nat.eqb (b_fc b) s); [|tauto]. exfalso. apply N. discriminate.
Qed.
