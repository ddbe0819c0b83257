(* Construction of the grid of cells. *)
From Coq Require Import String List Arith Bool Reals ZArith Lra Lia Permutation.
From Verif Require Import Base BaseFacts Kind MeshModel MeshQuerySpec TopoModel TopoMaps TopoFeat6 GeomModel GeomSpec GeomProof GridModel GridSpec GridProof
  GridCellsModel GridCellsSpec.
Import ListNotations.
Open Scope R_scope.

Lemma zip_length {A B C} (f : A -> B -> C) l l' : List.length (zip_with f l l') = Nat.min (List.length l) (List.length l').
Proof. unfold zip_with. now rewrite map_length, combine_length. Qed.
Lemma nth_zip {A B C} (f : A -> B -> C) l : forall l' i d a b, (i < List.length l)%nat -> (i < List.length l')%nat ->
  nth i (zip_with f l l') d = f (nth i l a) (nth i l' b).
Proof.
  unfold zip_with. induction l as [|x l IH]; intros [|y l'] [|i] d a b H H'; simpl in *; try lia; auto. apply IH; lia.
Qed.
Lemma nth_map1 {A B} (f : A -> B) l i d e : (i < List.length l)%nat -> nth i (map f l) e = f (nth i l d).
Proof. intros H. rewrite (nth_indep _ e (f d)) by now rewrite map_length. apply map_nth. Qed.

Lemma ceil_spec r : 0 < r -> (1 <= ceil_usize r)%nat /\ r <= INR (ceil_usize r) < r + 1.
Proof.
  intros H. unfold ceil_usize. destruct (base_Int_part (- r)) as (A & B). set (z := Int_part (- r)) in *.
  assert (X : (z < 0)%Z) by (apply lt_IZR; lra).
  split; [lia|]. rewrite INR_IZR_INZ, Z2Nat.id by lia. rewrite opp_IZR. lra.
Qed.

(* ---- running minima and maxima ---- *)
Definition is_omin (S : list R) (o : option R) : Prop := match o with None => S = [] | Some v => In v S /\ forall x, In x S -> v <= x end.
Definition is_omax (S : list R) (o : option R) : Prop := match o with None => S = [] | Some v => In v S /\ forall x, In x S -> x <= v end.
Lemma omin_step S o x : is_omin S o -> is_omin (S ++ [x]) (omin o x).
Proof.
  destruct o as [v|]; simpl.
  - intros (I & M). split.
    + destruct (Rmin_case_strong v x (fun r => r = v \/ r = x)) as [E|E]; auto; rewrite E; apply in_or_app; simpl; auto.
    + intros y Hy. apply in_app_or in Hy as [Hy|[<-|[]]]; [specialize (M y Hy); pose proof (Rmin_l v x); lra|apply Rmin_r].
  - intros ->. simpl. split; auto. intros y [<-|[]]. lra.
Qed.
Lemma omax_step S o x : is_omax S o -> is_omax (S ++ [x]) (omax o x).
Proof.
  destruct o as [v|]; simpl.
  - intros (I & M). split.
    + destruct (Rmax_case_strong v x (fun r => r = v \/ r = x)) as [E|E]; auto; rewrite E; apply in_or_app; simpl; auto.
    + intros y Hy. apply in_app_or in Hy as [Hy|[<-|[]]]; [specialize (M y Hy); pose proof (Rmax_l v x); lra|apply Rmax_r].
  - intros ->. simpl. split; auto. intros y [<-|[]]. lra.
Qed.
Lemma omax_fold l : forall S o, is_omax S o -> is_omax (S ++ l) (fold_left omax l o).
Proof.
  induction l as [|x l IH]; intros S o H; simpl; [now rewrite app_nil_r|].
  replace (S ++ x :: l) with ((S ++ [x]) ++ l) by now rewrite <- app_assoc. apply IH. now apply omax_step.
Qed.
Lemma max_list_ok l : l <> [] -> exists v, max_list l = Ok v /\ In v l /\ forall x, In x l -> x <= v.
Proof.
  destruct l as [|x l]; [congruence|intros _]. unfold max_list. cbn.
  assert (G : forall l a, let v := fold_left Rmax l a in (v = a \/ In v l) /\ a <= v /\ forall y, In y l -> y <= v).
  { clear. induction l as [|y l IH]; intros a; simpl; [repeat split; auto; [lra|tauto]|].
    destruct (IH (Rmax a y)) as (A & B & C). pose proof (Rmax_l a y). pose proof (Rmax_r a y). split; [|split; [lra|]].
    - destruct A as [A|A]; [rewrite A; destruct (Rmax_case_strong a y (fun r => r = a \/ r = y)); auto|auto].
    - intros z [<-|Hz]; [lra|now apply C]. }
  destruct (G l x) as (A & B & C). eexists. split; [reflexivity|]. split; [destruct A as [A|A]; auto|].
  intros y [<-|Hy]; auto.
Qed.

(* ---- limits and boxes ---- *)
Section Scan.
Variable m : mesh R.
Let nd := ndim m.
Definition X (p i : nat) : R := nth i (match nth_error (points m) p with Some pt => pt_coords pt | None => [] end) 0.
Definition box_for (ps : list nat) (box : bbox) : Prop :=
  List.length box = nd /\ forall i, (i < nd)%nat ->
    (In (fst (nth i box (0,0))) (map (fun p => X p i) ps) /\ In (snd (nth i box (0,0))) (map (fun p => X p i) ps)) /\
    forall p, In p ps -> fst (nth i box (0,0)) <= X p i <= snd (nth i box (0,0)).
Definition lims (ps : list nat) (lo hi : list (option R)) : Prop :=
  List.length lo = nd /\ List.length hi = nd /\ forall i, (i < nd)%nat ->
    is_omin (map (fun p => X p i) ps) (nth i lo None) /\ is_omax (map (fun p => X p i) ps) (nth i hi None).
Hypothesis M : consistent m.
Hypothesis CC : coords_complete m.

Lemma coords_of c k : In c (cells m) -> (k < List.length (c_points c))%nat ->
  exists pt, get (c_points c) k = Ok (nth k (c_points c) 0%nat) /\ get (points m) (nth k (c_points c) 0%nat) = Ok pt /\ List.length (pt_coords pt) = nd /\
    mapM (get (pt_coords pt)) (seq 0 nd) = Ok (map (X (nth k (c_points c) 0%nat)) (seq 0 nd)).
Proof.
  intros Hc Hk. destruct M as (_ & MC). apply In_nth_error in Hc as (id & E). destruct (MC _ _ E) as (_ & _ & Q).
  assert (HP : In (nth k (c_points c) 0%nat) (c_points c)) by now apply nth_In.
  specialize (Q _ HP). destruct (nth_error (points m) (nth k (c_points c) 0%nat)) as [pt|] eqn:EP; [|apply nth_error_None in EP; lia].
  exists pt. split; [now apply get_ok|]. split; [unfold get; now rewrite EP|].
  assert (L : List.length (pt_coords pt) = nd) by (apply CC; eapply nth_error_In; eauto). split; [exact L|].
  apply mapM_total. intros i Hi. apply in_seq in Hi. unfold X. rewrite EP. apply get_ok. lia.
Qed.

Lemma scan_points c : In c (cells m) -> forall ps0 lo hi box, lims ps0 lo hi -> List.length box = nd ->
  forall k, (k <= List.length (c_points c))%nat -> exists lo' hi' box', foldM (scan_point m c) (seq 0 k) (lo, hi, box) = Ok (lo', hi', box') /\
    lims (ps0 ++ firstn k (c_points c)) lo' hi' /\ List.length box' = nd /\ ((1 <= k)%nat -> box_for (firstn k (c_points c)) box').
Proof.
  intros Hc ps0 lo hi box L B. induction k as [|k IH]; intros Hk.
  - exists lo, hi, box. cbn. rewrite app_nil_r. repeat split; auto; try apply L; auto; lia.
  - destruct IH as (lo' & hi' & box' & E & L' & B' & BB); [lia|].
    rewrite seq_S, foldM_app, E. cbn [bind]. rewrite Nat.add_0_l. cbn [foldM]. unfold scan_point at 1.
    destruct (coords_of c k Hc) as (pt & -> & E1 & E2 & E3); [lia|]. cbn [bind]. rewrite E1. cbn [bind]. fold nd. rewrite E3. cbn [bind].
    set (q := nth k (c_points c) 0%nat) in *. set (x := map (X q) (seq 0 nd)).
    assert (LX : List.length x = nd) by (unfold x; now rewrite map_length, seq_length).
    assert (NX : forall i, (i < nd)%nat -> nth i x 0 = X q i).
    { intros i Hi. unfold x. rewrite (nth_map1 _ _ _ 0%nat) by now rewrite seq_length. now rewrite seq_nth. }
    assert (FS : firstn (S k) (c_points c) = firstn k (c_points c) ++ [q]).
    { unfold q. clear -Hk. revert Hk. generalize (c_points c). clear. induction k as [|k IH]; intros [|a l] H; simpl in *; try lia; auto.
      f_equal. apply IH. lia. }
    eexists _, _, _. split; [reflexivity|]. rewrite FS. destruct L' as (L1 & L2 & L3). split; [|split].
    + split; [rewrite zip_length; lia|]. split; [rewrite zip_length; lia|]. intros i Hi. destruct (L3 i Hi) as (P & Q).
      rewrite (nth_zip _ _ _ _ _ None 0), (nth_zip _ _ _ _ _ None 0) by lia. rewrite NX by auto.
      rewrite app_assoc, map_app. cbn [map]. split; [now apply omin_step|now apply omax_step].
    + destruct (k =? 0)%nat; [now rewrite map_length|]. rewrite zip_length. lia.
    + intros _. destruct (k =? 0)%nat eqn:K0.
      * apply Nat.eqb_eq in K0. subst k. cbn [firstn app]. split; [now rewrite map_length|]. intros i Hi.
        rewrite (nth_map1 _ _ _ 0) by lia. cbn [fst snd]. rewrite NX by auto. cbn. split; [auto|]. intros p [<-|[]]. lra.
      * apply Nat.eqb_neq in K0. destruct BB as (_ & BB); [lia|]. split; [rewrite zip_length; lia|]. intros i Hi.
        rewrite (nth_zip _ _ _ _ _ (0,0) 0) by lia. cbn [fst snd]. rewrite NX by auto. destruct (BB i Hi) as ((I1 & I2) & I3).
        set (b := nth i box' (0,0)) in *. rewrite map_app. cbn [map]. split; [split|].
        -- destruct (Rmin_case_strong (fst b) (X q i) (fun r => r = fst b \/ r = X q i)) as [R|R]; auto; rewrite R; apply in_or_app; simpl; auto.
        -- destruct (Rmax_case_strong (snd b) (X q i) (fun r => r = snd b \/ r = X q i)) as [R|R]; auto; rewrite R; apply in_or_app; simpl; auto.
        -- intros p Hp. pose proof (Rmin_l (fst b) (X q i)). pose proof (Rmin_r (fst b) (X q i)). pose proof (Rmax_l (snd b) (X q i)). pose proof (Rmax_r (snd b) (X q i)).
           apply in_app_or in Hp as [Hp|[<-|[]]]; [specialize (I3 p Hp); lra|lra].
Qed.

Definition kind_pos : forall k, (1 <= kind_nnode k)%nat.
Proof. intros []; apply Nat.leb_le; reflexivity. Qed.
Lemma cell_npts c : In c (cells m) -> (1 <= List.length (c_points c))%nat.
Proof. intros Hc. apply In_nth_error in Hc as (id & E). destruct M as (_ & MC). destruct (MC _ _ E) as (_ & -> & _). apply kind_pos. Qed.

Definition scanned (cs : list MeshModel.cell) (st : list (option R) * list (option R) * bbox * list (option R) * list bbox) : Prop :=
  let '(lo, hi, box, largest, boxes) := st in
  lims (flat_map c_points cs) lo hi /\ List.length box = nd /\ List.length boxes = List.length cs /\
  (forall id c, nth_error cs id = Some c -> box_for (c_points c) (nth id boxes [])) /\
  List.length largest = nd /\ forall i, (i < nd)%nat -> is_omax (map (fun b => box_len (nth i b (0,0))) boxes) (nth i largest None).
Lemma scan_cells : forall cs st0 done, (forall c, In c cs -> In c (cells m)) -> scanned done st0 ->
  exists st, foldM (scan_cell m) cs st0 = Ok st /\ scanned (done ++ cs) st.
Proof.
  induction cs as [|c cs IH]; intros st0 done H S; cbn [foldM].
  - exists st0. rewrite app_nil_r. auto.
  - destruct st0 as [[[[lo hi] box] largest] boxes]. destruct S as (S1 & S2 & S3 & S4 & S5 & S6). unfold scan_cell at 1. cbv beta iota.
    assert (Hc : In c (cells m)) by (apply H; left; auto).
    destruct (scan_points c Hc _ _ _ _ S1 S2 _ (le_n _)) as (lo' & hi' & box' & E & L & LB & BB). rewrite E. cbn [bind].
    rewrite firstn_all in *. specialize (BB (cell_npts c Hc)).
    replace (done ++ c :: cs) with ((done ++ [c]) ++ cs) by now rewrite <- app_assoc.
    apply IH; [intros; apply H; right; auto|]. split; [rewrite flat_map_app; cbn; now rewrite app_nil_r|]. split; [auto|].
    split; [rewrite !app_length; cbn; lia|]. split.
    + intros id c' E'. destruct (Nat.lt_ge_cases id (List.length done)) as [Q|Q].
      * rewrite nth_error_app1 in E' by auto. rewrite app_nth1 by lia. auto.
      * rewrite nth_error_app2 in E' by auto. destruct (id - List.length done)%nat as [|[|z]] eqn:Z; try discriminate. injection E' as <-.
        rewrite app_nth2 by lia. rewrite S3, Z. exact BB.
    + split; [rewrite zip_length, map_length; lia|]. intros i Hi. rewrite (nth_zip _ _ _ _ _ None 0) by (rewrite ?map_length; lia).
      rewrite (nth_map1 _ _ _ (0,0)) by lia. rewrite map_app. apply omax_step. auto.
Qed.
End Scan.

(* ---- cells above the cutoff ---- *)
Lemma scan_large_ok cutoff L : forall ibs, (forall ib, In ib ibs -> snd ib <> []) ->
  exists large bl, foldM (scan_large cutoff L) ibs ([], None) = Ok (large, bl) /\
    (forall id, In id large -> In id (map fst ibs)) /\
    (forall ib, In ib ibs -> ~ In (fst ib) large -> exists v, bl = Some v /\ forall b, In b (snd ib) -> box_len b <= v) /\
    (forall v, bl = Some v -> exists ib b, In ib ibs /\ In b (snd ib) /\ v = box_len b) /\
    (bl = None -> List.length large = List.length ibs).
Proof.
  assert (G : forall ibs don large bl, (forall ib, In ib ibs -> snd ib <> []) ->
    (forall id, In id large -> In id (map fst don)) ->
    (forall ib, In ib don -> ~ In (fst ib) large -> exists v, bl = Some v /\ forall b, In b (snd ib) -> box_len b <= v) ->
    (forall v, bl = Some v -> exists ib b, In ib don /\ In b (snd ib) /\ v = box_len b) ->
    (bl = None -> List.length large = List.length don) ->
    exists large' bl', foldM (scan_large cutoff L) ibs (large, bl) = Ok (large', bl') /\
    (forall id, In id large' -> In id (map fst (don ++ ibs))) /\
    (forall ib, In ib (don ++ ibs) -> ~ In (fst ib) large' -> exists v, bl' = Some v /\ forall b, In b (snd ib) -> box_len b <= v) /\
    (forall v, bl' = Some v -> exists ib b, In ib (don ++ ibs) /\ In b (snd ib) /\ v = box_len b) /\
    (bl' = None -> List.length large' = List.length (don ++ ibs))).
  { induction ibs as [|ib ibs IH]; intros don large bl N A B C D; cbn [foldM].
    - exists large, bl. rewrite app_nil_r. auto.
    - unfold scan_large at 1. cbn [fst snd].
      destruct (max_list_ok (map box_len (snd ib))) as (l & -> & _ & _).
      { intros E. apply (N ib (or_introl eq_refl)). destruct (snd ib); [auto|discriminate]. }
      cbn [bind]. replace (don ++ ib :: ibs) with ((don ++ [ib]) ++ ibs) by now rewrite <- app_assoc.
      destruct (Rleb (cutoff * L) l).
      + cbn [bind]. apply IH.
        * intros; apply N; right; auto.
        * intros id Hid. rewrite map_app. apply in_or_app. apply in_app_or in Hid as [Hid|[<-|[]]]; [left; auto|right; left; auto].
        * intros jb Hj Nj. apply in_app_or in Hj as [Hj|[<-|[]]]; [apply B; auto; intros Q; apply Nj; apply in_or_app; auto|].
          exfalso. apply Nj. apply in_or_app. right; left; auto.
        * intros v Hv. destruct (C v Hv) as (jb & b & J1 & J2 & J3). exists jb, b. split; [apply in_or_app; auto|auto].
        * intros E. rewrite !app_length, D by auto. reflexivity.
      + cbn [bind]. set (bl' := fold_left omax (map box_len (snd ib)) bl).
        assert (P : exists v, bl' = Some v /\ (forall b, In b (snd ib) -> box_len b <= v) /\ (forall w, bl = Some w -> w <= v) /\
                   ((exists b, In b (snd ib) /\ v = box_len b) \/ bl = Some v)).
        { unfold bl'. pose proof (omax_fold (map box_len (snd ib)) (match bl with Some w => [w] | None => [] end) bl) as O.
          destruct (fold_left omax (map box_len (snd ib)) bl) as [v|] eqn:F.
          - exists v. destruct O as (O1 & O2); [destruct bl; cbn; auto; split; auto; intros x [<-|[]]; lra|]. split; auto. split.
            + intros b Hb. apply O2. apply in_or_app. right. now apply in_map.
            + split; [intros w ->; apply O2; cbn; auto|]. apply in_app_or in O1 as [O1|O1].
              * right. destruct bl as [w|]; [destruct O1 as [<-|[]]; auto|destruct O1].
              * left. apply in_map_iff in O1 as (b & <- & Hb). eauto.
          - exfalso. assert (Z : is_omax (match bl with Some w => [w] | None => [] end) bl).
            { destruct bl; cbn; auto. split; auto. intros x [<-|[]]; lra. }
            specialize (O Z). cbn in O. apply app_eq_nil in O as (_ & O). apply (N ib (or_introl eq_refl)). destruct (snd ib); [auto|discriminate]. }
        destruct P as (v & EV & P1 & P2 & P3). rewrite EV. apply IH.
        * intros; apply N; right; auto.
        * intros id Hid. rewrite map_app. apply in_or_app. auto.
        * intros jb Hj Nj. exists v. split; auto. apply in_app_or in Hj as [Hj|[<-|[]]]; auto.
          destruct (B jb Hj Nj) as (w & E & Q). intros b Hb. specialize (Q b Hb). specialize (P2 w E). lra.
        * intros v' E. injection E as <-. destruct P3 as [(b & Hb & ->)|E]; [exists ib, b; split; [apply in_or_app; right; left; auto|auto]|].
          destruct (C _ E) as (jb & b & J1 & J2 & J3). exists jb, b. split; [apply in_or_app; auto|auto].
        * discriminate. }
  intros ibs N. apply (G ibs [] [] None N); cbn; try tauto; discriminate.
Qed.

(* ---- keys ---- *)
Definition in_all (nd : nat) (side : R) (ndiv : list nat) (xmin x : list R) (cs : list nat) : Prop :=
  List.length cs = nd /\ forall i, (i < nd)%nat -> is_cell side (nth i xmin 0) (nth i ndiv 0%nat) (nth i x 0) (nth i cs 0%nat).
Definition key_at (nd : nat) (ndiv cs : list nat) : nat :=
  (nth 0 cs 0 + nth 1 cs 0 * nth 0 ndiv 0 + (if (nd =? 2) then 0 else nth 2 cs 0 * nth 0 ndiv 0 * nth 1 ndiv 0))%nat.
Lemma key_ok nd side ndiv xmin x cs : nd = 2%nat \/ nd = 3%nat -> 0 < side -> List.length ndiv = nd -> List.length xmin = nd -> List.length x = nd ->
  in_all nd side ndiv xmin x cs -> calc_container_key nd side ndiv xmin x = Ok (key_at nd ndiv cs).
Proof.
  intros D S L1 L2 L3 (L4 & C). destruct D as [->| ->].
  - apply nlen2 in L1 as (n0 & n1 & ->). apply nlen2 in L2 as (a0 & a1 & ->). apply nlen2 in L3 as (x0 & x1 & ->). apply nlen2 in L4 as (c0 & c1 & ->).
    pose proof (C 0%nat ltac:(lia)) as C0. pose proof (C 1%nat ltac:(lia)) as C1. cbn [nth] in *.
    apply cell_unique in C0, C1; auto. unfold cell, ratio in *. unfold calc_container_key, get. cbn [nth_error bind Nat.eqb].
    rewrite C0. cbn [bind]. rewrite C1. cbn [bind]. unfold key_at. cbn [nth Nat.eqb]. now rewrite Nat.add_0_r.
  - apply nlen3 in L1 as (n0 & n1 & n2 & ->). apply nlen3 in L2 as (a0 & a1 & a2 & ->). apply nlen3 in L3 as (x0 & x1 & x2 & ->). apply nlen3 in L4 as (c0 & c1 & c2 & ->).
    pose proof (C 0%nat ltac:(lia)) as C0. pose proof (C 1%nat ltac:(lia)) as C1. pose proof (C 2%nat ltac:(lia)) as C2. cbn [nth] in *.
    apply cell_unique in C0, C1, C2; auto. unfold cell, ratio in *. unfold calc_container_key, get. cbn [nth_error bind Nat.eqb].
    rewrite C0. cbn [bind]. rewrite C1. cbn [bind]. rewrite C2. cbn [bind]. unfold key_at. cbn [nth Nat.eqb]. reflexivity.
Qed.
Lemma cells_exist nd side ndiv xmin x : 0 < side -> List.length ndiv = nd ->
  (forall i, (i < nd)%nat -> (1 <= nth i ndiv 0)%nat /\ nth i xmin 0 <= nth i x 0 <= nth i xmin 0 + side * INR (nth i ndiv 0%nat)) ->
  exists cs, in_all nd side ndiv xmin x cs.
Proof.
  intros S L H. assert (G : forall k, (k <= nd)%nat -> exists cs, List.length cs = k /\ forall i, (i < k)%nat ->
    is_cell side (nth i xmin 0) (nth i ndiv 0%nat) (nth i x 0) (nth i cs 0%nat)).
  { induction k as [|k IH]; intros Hk; [exists []; split; auto; intros; lia|].
    destruct IH as (cs & LC & C); [lia|]. destruct (H k) as (H1 & H2); [lia|]. destruct (cell_exists _ _ _ _ S H1 H2) as (c & E).
    exists (cs ++ [c]). split; [rewrite app_length; cbn; lia|]. intros i Hi. destruct (Nat.eq_dec i k) as [->|Q].
    - rewrite app_nth2 by lia. rewrite LC, Nat.sub_diag. exact E.
    - rewrite app_nth1 by lia. apply C. lia. }
  destruct (G nd (le_n _)) as (cs & A & B). exists cs. split; auto.
Qed.

(* an interval shorter than the side: the cell of an inner point is the cell of an end point *)
Lemma corner_1d s lo0 n lo hi x c : 0 < s -> hi - lo < s -> lo <= x <= hi -> hi <= lo0 + s * INR n -> lo0 <= lo -> is_cell s lo0 n x c ->
  is_cell s lo0 n lo c \/ is_cell s lo0 n hi c.
Proof.
  intros S W I U V (C1 & C2 & C3). destruct (Rle_lt_dec (lo0 + INR c * s) lo) as [Q|Q].
  - left. split; auto. split; auto. destruct C3 as [C3|(C3 & C4)]; [left; lra|right; split; auto; lra].
  - right. split; auto. split; [lra|]. left. lra.
Qed.

(* ---- containers ---- *)
Definition held (cs : list (nat * list nat)) (key id : nat) : Prop := exists c, mget Nat.eqb cs key = Some c /\ In id c.
Lemma held_step cs key id key' id' :
  held (mput Nat.eqb cs key (sadd Nat.eqb (match mget Nat.eqb cs key with Some c => c | None => [] end) id)) key' id' <->
  (key' = key /\ id' = id) \/ held cs key' id'.
Proof.
  unfold held. destruct (Nat.eq_dec key key') as [<-|N].
  - rewrite mget_mput_same by exact nat_eqb_eq. split.
    + intros (c & E & I). injection E as <-. apply sadd_in in I; [|exact nat_eqb_eq]. destruct I as [->|I]; [left; auto|].
      destruct (mget Nat.eqb cs key) as [c|]; [right; eauto|destruct I].
    + intros H. eexists. split; [reflexivity|]. apply sadd_in; [exact nat_eqb_eq|].
      destruct H as [(_ & ->)|(c & E & I)]; [auto|]. rewrite E. auto.
  - rewrite mget_mput_other by (exact nat_eqb_eq || exact N). split; [auto|]. intros [(-> & _)|H]; [congruence|exact H].
Qed.

Section Insert.
Variables (nd : nat) (side : R) (ndiv : list nat) (xmin : list R) (large : list nat).
Definition corner_pt (box : bbox) (x : list R) : Prop :=
  List.length x = nd /\ forall i, (i < nd)%nat -> nth i x 0 = fst (nth i box (0,0)) \/ nth i x 0 = snd (nth i box (0,0)).
Definition good_box (box : bbox) : Prop := List.length box = nd /\ forall x, corner_pt box x -> exists k, calc_container_key nd side ndiv xmin x = Ok k.
Hypothesis ND : nd = 2%nat \/ nd = 3%nat.

Lemma in_corners r s t : (r < 2)%nat -> (s < 2)%nat -> (t < nd - 1)%nat -> In (r, s, t) (corners nd).
Proof.
  intros. unfold corners. apply in_flat_map. exists r. split; [apply in_seq; lia|]. apply in_flat_map. exists s. split; [apply in_seq; lia|].
  apply in_map_iff. exists t. split; auto. apply in_seq. lia.
Qed.
Lemma corner_ok box r s t : List.length box = nd -> exists x, corner nd box r s t = Ok x /\ corner_pt box x.
Proof.
  intros L. unfold corner, corner_pt. destruct ND as [-> | ->].
  - apply nlen2 in L as (b0 & b1 & ->). cbn. eexists. split; [reflexivity|]. split; auto. intros [|[|i]] Hi; try lia; cbn; [destruct r|destruct s]; auto.
  - apply nlen3 in L as (b0 & b1 & b2 & ->). cbn. eexists. split; [reflexivity|]. split; auto. intros [|[|[|i]]] Hi; try lia; cbn; [destruct r|destruct s|destruct t]; auto.
Qed.
Lemma corner_all box x : List.length box = nd -> corner_pt box x -> exists r s t, In (r, s, t) (corners nd) /\ corner nd box r s t = Ok x.
Proof.
  intros L (LX & C).
  assert (G : forall i, (i < nd)%nat -> exists r, (r < 2)%nat /\ nth i x 0 = pick (nth i box (0,0)) r).
  { intros i Hi. destruct (C i Hi) as [E|E]; [exists 0%nat|exists 1%nat]; split; auto. }
  destruct ND as [N|N].
  - destruct (G 0%nat) as (r & Hr & R0); [lia|]. destruct (G 1%nat) as (s & Hs & S0); [lia|]. exists r, s, 0%nat. split; [apply in_corners; lia|].
    rewrite N in *. apply nlen2 in L as (b0 & b1 & ->). apply nlen2 in LX as (x0 & x1 & ->). cbn in *. now subst.
  - destruct (G 0%nat) as (r & Hr & R0); [lia|]. destruct (G 1%nat) as (s & Hs & S0); [lia|]. destruct (G 2%nat) as (t & Ht & T0); [lia|].
    exists r, s, t. split; [apply in_corners; lia|].
    rewrite N in *. apply nlen3 in L as (b0 & b1 & b2 & ->). apply nlen3 in LX as (x0 & x1 & x2 & ->). cbn in *. now subst.
Qed.

Lemma insert_cell_ok cs id box : good_box box -> ~ In id large -> exists cs', insert_cell nd side ndiv xmin large cs (id, box) = Ok cs' /\
  forall k id', held cs' k id' <-> held cs k id' \/ (id' = id /\ exists x, corner_pt box x /\ calc_container_key nd side ndiv xmin x = Ok k).
Proof.
  intros (LB & GB) NL. unfold insert_cell. cbn [fst snd].
  destruct (existsb (Nat.eqb id) large) eqn:E; [exfalso; apply existsb_exists in E as (y & Hy & E); apply Nat.eqb_eq in E; now subst|].
  assert (G : forall rsts cs, exists cs', foldM (fun (cs : list (nat * list nat)) rst =>
    let '(r, s, t) := (rst : nat * nat * nat) in
    let! x := corner nd box r s t in
    let! key := calc_container_key nd side ndiv xmin x in
    let c := match mget Nat.eqb cs key with Some c => c | None => [] end in
    Ok (mput Nat.eqb cs key (sadd Nat.eqb c id))) rsts cs = Ok cs' /\
    forall k id', held cs' k id' <-> held cs k id' \/ (id' = id /\ exists r s t x, In (r,s,t) rsts /\ corner nd box r s t = Ok x /\ calc_container_key nd side ndiv xmin x = Ok k)).
  { induction rsts as [|[[r s] t] rsts IH]; intros cs1; cbn [foldM].
    - exists cs1. split; auto. intros k id'. split; auto. intros [H|(_ & ? & ? & ? & ? & [] & _)]; auto.
    - destruct (corner_ok box r s t LB) as (x & EX & CX). rewrite EX. cbn [bind]. destruct (GB x CX) as (k & EK). rewrite EK. cbn [bind].
      destruct (IH (mput Nat.eqb cs1 k (sadd Nat.eqb (match mget Nat.eqb cs1 k with Some c => c | None => [] end) id))) as (cs' & EE & H).
      exists cs'. split; [exact EE|]. intros k' id'. rewrite H, held_step. split.
      + intros [[(-> & ->)|Q]|(-> & r' & s' & t' & x' & Q & Q')]; auto.
        * right. split; auto. exists r, s, t, x. split; [left; auto|auto].
        * right. split; auto. exists r', s', t', x'. split; [right; auto|auto].
      + intros [Q|(-> & r' & s' & t' & x' & [Q|Q] & Q' & Q'')]; auto.
        * injection Q as <- <- <-. rewrite EX in Q'. injection Q' as <-. rewrite EK in Q''. injection Q'' as <-. auto.
        * right. split; auto. exists r', s', t', x'. auto. }
  destruct (G (corners nd) cs) as (cs' & EE & H). exists cs'. split; [exact EE|]. intros k id'. rewrite H. split.
  - intros [Q|(-> & r & s & t & x & I & EX & EK)]; auto. right. split; auto. exists x. split; auto.
    destruct (corner_ok box r s t LB) as (x' & EX' & CX). rewrite EX in EX'. injection EX' as <-. exact CX.
  - intros [Q|(-> & x & CX & EK)]; auto. right. split; auto. destruct (corner_all box x LB CX) as (r & s & t & I & EX). exists r, s, t, x. auto.
Qed.
Lemma insert_all_ok : forall ibs cs, (forall ib, In ib ibs -> good_box (snd ib)) ->
  exists cs', foldM (insert_cell nd side ndiv xmin large) ibs cs = Ok cs' /\
    forall k id, held cs' k id <-> held cs k id \/ (~ In id large /\ exists box x, In (id, box) ibs /\ corner_pt box x /\ calc_container_key nd side ndiv xmin x = Ok k).
Proof.
  induction ibs as [|[id box] ibs IH]; intros cs H; cbn [foldM].
  - exists cs. split; auto. intros k id. split; auto. intros [Q|(_ & ? & ? & [] & _)]; auto.
  - destruct (in_dec Nat.eq_dec id large) as [L|L].
    + assert (E : insert_cell nd side ndiv xmin large cs (id, box) = Ok cs).
      { unfold insert_cell. cbn [fst]. rewrite (proj2 (existsb_exists _ _)); auto. exists id. split; auto. apply Nat.eqb_refl. }
      rewrite E. cbn [bind]. destruct (IH cs) as (cs' & -> & Q); [intros; apply H; right; auto|]. exists cs'. split; auto.
      intros k id'. rewrite Q. split; intros [A|(N & b & x & I & R)]; auto; right; split; auto; exists b, x; split; auto; [right; auto|].
      destruct I as [I|I]; auto. injection I as <- <-. contradiction.
    + destruct (insert_cell_ok cs id box) as (cs1 & E & Q1); auto; [apply (H (id, box)); left; auto|].
      rewrite E. cbn [bind]. destruct (IH cs1) as (cs' & -> & Q); [intros; apply H; right; auto|]. exists cs'. split; auto.
      intros k id'. rewrite Q, Q1. split.
      * intros [[A|(-> & x & A & B)]|(N & b & x & I & R)]; auto; right; split; auto; [exists box, x; split; [left|]; auto|exists b, x; split; [right|]; auto].
      * intros [A|(N & b & x & [I|I] & R)]; auto; [injection I as <- <-; left; right; split; auto; exists x; auto|].
        right. split; auto. exists b, x. auto.
Qed.
End Insert.
