(* Statements about the grid of cells in terms of the specification; concrete meshes. *)
From Coq Require Import String List Arith Bool Reals ZArith Lra Lia Permutation.
From Verif Require Import Base BaseFacts Kind MeshModel MeshQuerySpec TopoModel TopoMaps GeomModel GeomSpec GeomProof GeomSimplex GridModel GridSpec GridProof
  GridCellsModel GridCellsSpec GridCellsProof GridCellsProof2.
Import ListNotations.
Open Scope R_scope.

Lemma extent_spans m i a b : extent m i a b <-> spans m i a b.
Proof.
  unfold extent, spans.
  assert (G : forall v, In v (map (fun p => X m p i) (flat_map c_points (cells m))) <-> exists p, used m p /\ coordinate m p i = v).
  { intros v. rewrite in_map_iff. split; intros (p & A & B); exists p.
    - apply in_flat_map in B. split; auto.
    - split; auto. apply in_flat_map. exact A. }
  rewrite !G. split; intros (A & B & C); split; auto; split; auto.
  - intros p Hp. apply C. apply G. eauto.
  - intros x Hx. apply G in Hx as (p & Hp & <-). auto.
Qed.
Lemma spans_unique m i a b a' b' : spans m i a b -> spans m i a' b' -> a' = a /\ b' = b.
Proof.
  intros ((p & U1 & <-) & (q & U2 & <-) & H) ((p' & U1' & <-) & (q' & U2' & <-) & H').
  pose proof (H _ U1'). pose proof (H _ U2'). pose proof (H' _ U1). pose proof (H' _ U2). lra.
Qed.
Lemma params_good tol border cutoff pct : params_ok tol border cutoff pct -> good_params tol border cutoff pct /\ or_default pct GRID_CELLS_LARGE_PCT < 1.
Proof. intros (A & B & C & D). split; [|apply D]. split; [exact A|]. split; [exact B|]. split; [exact C|]. split; [apply D|apply Rlt_le, D]. Qed.

Lemma flat_dec nd (lo hi : list R) : (forall i, (i < nd)%nat -> nth i lo 0 <= nth i hi 0) ->
  (exists i, (i < nd)%nat /\ nth i hi 0 = nth i lo 0) \/ (forall i, (i < nd)%nat -> nth i lo 0 < nth i hi 0).
Proof.
  induction nd as [|n IH]; intros H; [right; intros; lia|]. destruct IH as [(i & Hi & E)|Q]; [intros; apply H; lia|left; exists i; auto|].
  destruct (Rlt_dec (nth n lo 0) (nth n hi 0)) as [L|L].
  - right. intros i Hi. destruct (Nat.eq_dec i n) as [->|N]; auto. apply Q. lia.
  - left. exists n. split; auto. specialize (H n ltac:(lia)). lra.
Qed.

Lemma new_limits m tol border cutoff pct : 
  consistent m -> coords_complete m -> ndim m = 2%nat \/ ndim m = 3%nat -> cells m <> [] -> params_ok tol border cutoff pct ->
  (forall i a b, (i < ndim m)%nat -> spans m i a b -> a < b) \/ 0 < value border (/ 100) ->
  exists g, gc_new m tol border cutoff pct = Ok g /\
    List.length (gc_xmin g) = ndim m /\ List.length (gc_xmax g) = ndim m /\
    forall i a b, (i < ndim m)%nat -> spans m i a b ->
      nth i (gc_xmin g) 0 = a - value border (/ 100) /\ b + value border (/ 100) <= nth i (gc_xmax g) 0.
Proof.
  intros M CC ND NE P F. destruct (params_good _ _ _ _ P) as (GP & LP).
  destruct (gc_new_ok m tol border cutoff pct M CC ND NE GP) as (lo & hi & L1 & L2 & E & _ & H).
  destruct H as (g & EG & W & LIM); auto.
  { destruct F as [F|F]; [left|right; exact F]. intros i Hi. apply (F i); auto. apply extent_spans. auto. }
  exists g. split; auto. split; [apply (w_xmin m g W)|]. split; [apply (w_xmax m g W)|]. intros i a b Hi S.
  destruct (spans_unique m i _ _ a b (proj1 (extent_spans m i _ _) (E i Hi)) S) as (-> & ->). apply (LIM i Hi).
Qed.
Lemma new_flat m tol border cutoff pct i a :
  consistent m -> coords_complete m -> ndim m = 2%nat \/ ndim m = 3%nat -> cells m <> [] -> params_ok tol border cutoff pct ->
  value border (/ 100) = 0 -> (i < ndim m)%nat -> spans m i a a -> gc_new m tol border cutoff pct = Panic.
Proof.
  intros M CC ND NE P B0 Hi S. destruct (params_good _ _ _ _ P) as (GP & LP).
  destruct (gc_new_ok m tol border cutoff pct M CC ND NE GP) as (lo & hi & L1 & L2 & E & H & _).
  apply H; [|exact B0]. exists i. split; auto. destruct (spans_unique m i _ _ a a (proj1 (extent_spans m i _ _) (E i Hi)) S) as (-> & Q). now rewrite <- Q at 1.
Qed.

Lemma empty_panics m tol border cutoff pct g : cells m = [] -> ndim m = 2%nat \/ ndim m = 3%nat -> gc_new m tol border cutoff pct <> Ok g.
Proof.
  intros E ND. unfold gc_new. rewrite E. destruct (Rleb _ 0); [discriminate|]. destruct (Rltb _ 0); [discriminate|].
  destruct (Rltb _ 0 || _)%bool; [discriminate|]. destruct (Rltb _ 0 || _)%bool; [discriminate|].
  cbn [foldM bind]. destruct ND as [-> | ->]; cbn; discriminate.
Qed.
Lemma simplex_nd m : simplex_mesh m -> ndim m = 2%nat \/ ndim m = 3%nat. Proof. intros [(D & _)|(D & _)]; auto. Qed.

Lemma new_gwf m tol border cutoff pct g : consistent m -> coords_complete m -> ndim m = 2%nat \/ ndim m = 3%nat -> params_ok tol border cutoff pct ->
  gc_new m tol border cutoff pct = Ok g -> gwf m g.
Proof.
  intros M CC ND P E. destruct (cells m) as [|c cs] eqn:EC; [exfalso; eapply empty_panics; eauto|].
  destruct (params_good _ _ _ _ P) as (GP & LP).
  destruct (gc_new_ok m tol border cutoff pct M CC ND ltac:(congruence) GP) as (lo & hi & L1 & L2 & EX & H1 & H2).
  assert (B : {or_default border GRID_CELLS_BORDER_TOL = 0} + {0 < or_default border GRID_CELLS_BORDER_TOL}).
  { destruct (Rle_lt_dec (or_default border GRID_CELLS_BORDER_TOL) 0) as [Q|Q]; [left; destruct GP as (_ & GP & _); lra|right; auto]. }
  assert (Q : exists g, gc_new m tol border cutoff pct = Ok g /\ gwf m g).
  { destruct B as [B|B].
    - destruct (flat_dec (ndim m) lo hi) as [F|F].
      + intros i Hi. destruct (EX i Hi) as (A1 & A2 & A3). apply A3. exact A1.
      + rewrite (H1 F B) in E. discriminate.
      + destruct H2 as (g' & A & W & _); eauto.
    - destruct H2 as (g' & A & W & _); eauto. }
  destruct Q as (g' & E' & W). rewrite E in E'. injection E' as <-. exact W.
Qed.

Lemma search_spec m tol border cutoff pct g sh zeta x :
  consistent m -> coords_complete m -> simplex_mesh m -> non_degenerate m -> params_ok tol border cutoff pct ->
  gc_new m tol border cutoff pct = Ok g -> (forall l, Permutation (sh l) l) ->
  List.length zeta = 4%nat -> List.length x = ndim m ->
  (within (ndim m) (gc_xmin g) (gc_xmax g) x ->
   exists zeta' r, gc_search sh g zeta x = Ok (zeta', r) /\
     match r with
     | Some id => exists c, nth_error (cells m) id = Some c /\ convex_combination (ndim m) (corner_coords m c) x /\
                  affine_weights (ndim m) (corner_coords m c) x (firstn (ndim m + 1) zeta') /\
                  skipn (ndim m + 1) zeta' = skipn (ndim m + 1) zeta
     | None => forall id, ~ contains m id x
     end) /\
  (~ within (ndim m) (gc_xmin g) (gc_xmax g) x -> exists e, gc_search sh g zeta x = Err e).
Proof.
  intros M CC SM NDG P E SH LZ LX. pose proof (new_gwf _ _ _ _ _ _ M CC (simplex_nd m SM) P E) as W. split.
  - intros I. destruct (search_in m g M CC SM NDG W x LX sh SH zeta LZ I) as (z' & r & ES & _ & SK & A). exists z', r. split; auto.
    destruct r as [id|].
    + destruct A as (A1 & (c & EC & CV) & A3). exists c. split; auto.
    + intros id C. apply (A id); auto. apply in_seq. pose proof (contains_lt m x id C). lia.
  - intros I. exact (search_out m g W x LX sh zeta LZ I).
Qed.
Lemma search_found m tol border cutoff pct g sh zeta x id :
  consistent m -> coords_complete m -> simplex_mesh m -> non_degenerate m -> params_ok tol border cutoff pct ->
  gc_new m tol border cutoff pct = Ok g -> (forall l, Permutation (sh l) l) ->
  List.length zeta = 4%nat -> List.length x = ndim m -> contains m id x ->
  exists zeta' id', gc_search sh g zeta x = Ok (zeta', Some id') /\ contains m id' x.
Proof.
  intros M CC SM NDG P E SH LZ LX C. pose proof (new_gwf _ _ _ _ _ _ M CC (simplex_nd m SM) P E) as W.
  destruct (search_spec m tol border cutoff pct g sh zeta x) as (H & _); auto.
  destruct H as (z' & r & ES & A); [exact (contains_inside m g W x id C)|].
  destruct r as [id'|]; [|exfalso; eapply A; eauto]. destruct A as (c & EC & CV & _). exists z', id'. split; auto. exists c. auto.
Qed.
Lemma errors_ok m tol border cutoff pct sh g zeta x :
  (value tol (/ 10000) <= 0 \/ value border (/ 100) < 0 \/ value cutoff (3 / 4) < 0 \/ 1 < value cutoff (3 / 4) \/
   value pct (/ 5) < 0 \/ 1 < value pct (/ 5) -> exists e, gc_new m tol border cutoff pct = Err e) /\
  (List.length zeta <> 4%nat \/ List.length x <> ndim (gc_mesh g) -> exists e, gc_search sh g zeta x = Err e).
Proof.
  split.
  - unfold gc_new.
    change (or_default tol GRID_CELLS_TOLERANCE) with (value tol (/ 10000)). change (or_default border GRID_CELLS_BORDER_TOL) with (value border (/ 100)).
    change (or_default cutoff GRID_CELLS_LARGE_CUTOFF) with (value cutoff (3 / 4)). change (or_default pct GRID_CELLS_LARGE_PCT) with (value pct (/ 5)).
    intros H. destruct (Rleb (value tol (/ 10000)) 0) eqn:Q1; [eauto|]. destruct (Rltb (value border (/ 100)) 0) eqn:Q2; [eauto|].
    destruct (Rltb (value cutoff (3 / 4)) 0) eqn:Q3; cbn [orb]; [eauto|]. destruct (Rltb 1 (value cutoff (3 / 4))) eqn:Q4; [eauto|].
    destruct (Rltb (value pct (/ 5)) 0) eqn:Q5; cbn [orb]; [eauto|]. destruct (Rltb 1 (value pct (/ 5))) eqn:Q6; [eauto|].
    exfalso. apply Rleb_false in Q1. apply Rltb_false in Q2, Q3, Q4, Q5, Q6. lra.
  - intros H. unfold gc_search. destruct (Nat.eqb_spec (List.length zeta) 4) as [E|E]; cbn [negb]; [|eauto].
    destruct (Nat.eqb_spec (List.length x) (ndim (gc_mesh g))) as [F|F]; cbn [negb]; [|eauto]. tauto.
Qed.

(* ---- concrete meshes ---- *)
Ltac small_mesh := repeat match goal with
  | |- forall i, _ => intros i
  | H : nth_error [] ?i = Some _ |- _ => destruct i; discriminate
  | H : nth_error (_ :: _) ?i = Some _ |- _ => destruct i as [|i]; cbn in H; [injection H as <-|]
  end.
Lemma tri_iff a0 a1 b0 b1 c0 c1 x0 x1 : convex_combination 2 [[a0; a1]; [b0; b1]; [c0; c1]] [x0; x1] <->
  exists u v w, 0 <= u /\ 0 <= v /\ 0 <= w /\ u + v + w = 1 /\ u * a0 + v * b0 + w * c0 = x0 /\ u * a1 + v * b1 + w * c1 = x1.
Proof.
  split.
  - intros (l & (L & T & W) & N). destruct l as [|u [|v [|w [|]]]]; try discriminate. exists u, v, w.
    pose proof (W 0%nat ltac:(lia)) as W0. pose proof (W 1%nat ltac:(lia)) as W1. unfold total in T. cbn in *.
    pose proof (N u ltac:(auto)). pose proof (N v ltac:(auto)). pose proof (N w ltac:(auto)). lra.
  - intros (u & v & w & H1 & H2 & H3 & H4 & H5 & H6). exists [u; v; w]. split; [split; [reflexivity|]; split|].
    + unfold total. cbn. lra.
    + intros [|[|i]] Hi; cbn; lra || lia.
    + intros x [<-|[<-|[<-|[]]]]; auto.
Qed.
Lemma two_tri_ok : consistent two_tri /\ coords_complete two_tri /\ simplex_mesh two_tri /\ non_degenerate two_tri.
Proof.
  split; [split|split; [|split]].
  - intros i p H. cbn in H. small_mesh; reflexivity.
  - intros i c H. cbn in H. small_mesh; (split; [reflexivity|]; split; [reflexivity|]; cbn; intros q Hq; lia).
  - intros p Hp. cbn in Hp. destruct Hp as [<-|[<-|[<-|[<-|[]]]]]; reflexivity.
  - left. split; auto. intros c Hc. cbn in Hc. destruct Hc as [<-|[<-|[]]]; reflexivity.
  - intros c Hc. cbn in Hc. destruct Hc as [<-|[<-|[]]]; cbn; apply independent_area; unfold area2; lra.
Qed.
Lemma two_tri_ex : consistent two_tri /\ coords_complete two_tri /\ simplex_mesh two_tri /\ non_degenerate two_tri /\
  params_ok None None None None /\ params_ok (Some 1) (Some 0) (Some 0) (Some (1/2)) /\
  (exists g, gc_new two_tri None None None None = Ok g /\
     (exists z, gc_search (fun l => l) g [0; 0; 0; 7] [1/4; 1/4] = Ok (z, Some 0%nat)) /\
     (exists z, gc_search (fun l => l) g [0; 0; 0; 7] [5; 5] = Ok (z, Some 1%nat)) /\
     (exists z, gc_search (fun l => l) g [0; 0; 0; 7] [5; 1/2] = Ok (z, None)) /\
     exists e, gc_search (fun l => l) g [0; 0; 0; 7] [-1; 5] = Err e).
Proof.
  destruct two_tri_ok as (A & B & C & D). split; [exact A|]. split; [exact B|]. split; [exact C|]. split; [exact D|].
  assert (P : params_ok None None None None) by (unfold params_ok; cbn [value]; lra). split; [exact P|].
  split; [unfold params_ok; cbn [value]; lra|].
  assert (BP : 0 < value None (/ 100)) by (cbn [value]; lra).
  destruct (new_limits two_tri None None None None A B (or_introl eq_refl) ltac:(discriminate) P (or_intror BP)) as (g & E & L1 & L2 & LIM).
  exists g. split; [exact E|].
  assert (S0 : spans two_tri 0 0 10).
  { split; [exists 0%nat; split; [exists (mkCell 0 1%Z Tri3 [0; 1; 2]%nat); cbn; auto|reflexivity]|].
    split; [exists 3%nat; split; [exists (mkCell 1 1%Z Tri3 [1; 3; 2]%nat); cbn; auto|reflexivity]|].
    intros p (c & Hc & Hp). cbn in Hc. destruct Hc as [<-|[<-|[]]]; cbn in Hp; destruct Hp as [<-|[<-|[<-|[]]]]; cbn; lra. }
  assert (S1 : spans two_tri 1 0 10).
  { split; [exists 0%nat; split; [exists (mkCell 0 1%Z Tri3 [0; 1; 2]%nat); cbn; auto|reflexivity]|].
    split; [exists 3%nat; split; [exists (mkCell 1 1%Z Tri3 [1; 3; 2]%nat); cbn; auto|reflexivity]|].
    intros p (c & Hc & Hp). cbn in Hc. destruct Hc as [<-|[<-|[]]]; cbn in Hp; destruct Hp as [<-|[<-|[<-|[]]]]; cbn; lra. }
  destruct (LIM 0%nat 0 10 ltac:(cbn; lia) S0) as (M0 & N0). destruct (LIM 1%nat 0 10 ltac:(cbn; lia) S1) as (M1 & N1). cbn [value] in *.
  assert (R : forall x0 x1, 0 <= x0 <= 10 -> 0 <= x1 <= 10 -> exists z r, gc_search (fun l => l) g [0; 0; 0; 7] [x0; x1] = Ok (z, r) /\
    match r with Some id => contains two_tri id [x0; x1] | None => forall id, ~ contains two_tri id [x0; x1] end).
  { intros x0 x1 H0 H1. destruct (search_spec two_tri None None None None g (fun l => l) [0; 0; 0; 7] [x0; x1]) as (Q & _); auto.
    destruct Q as (z & r & ES & Q).
    - intros [|[|i]] Hi; cbn [nth]; [lra|lra|cbn in Hi; lia].
    - exists z, r. split; auto. destruct r as [id|]; [|exact Q]. destruct Q as (c & EC & CV & _). exists c. auto. }
  assert (C0 : forall x0 x1, contains two_tri 0 [x0; x1] <-> convex_combination 2 [[0;0];[1;0];[0;1]] [x0;x1]).
  { intros. unfold contains. split; [intros (c & EC & H); cbn in EC; injection EC as <-; exact H|intros H; eexists; split; [reflexivity|exact H]]. }
  assert (C1 : forall x0 x1, contains two_tri 1 [x0; x1] <-> convex_combination 2 [[1;0];[10;10];[0;1]] [x0;x1]).
  { intros. unfold contains. split; [intros (c & EC & H); cbn in EC; injection EC as <-; exact H|intros H; eexists; split; [reflexivity|exact H]]. }
  assert (C2 : forall id x, contains two_tri id x -> id = 0%nat \/ id = 1%nat).
  { intros [|[|id]] x (c & EC & _); auto. destruct id; discriminate. }
  split; [|split; [|split]].
  - destruct (R (1/4) (1/4)) as (z & r & ES & Q); [lra|lra|]. exists z. destruct r as [id|].
    + destruct (C2 _ _ Q) as [->| ->]; auto. apply C1, tri_iff in Q as (u & v & w & Q). lra.
    + exfalso. apply (Q 0%nat), C0, tri_iff. exists (1/2), (1/4), (1/4). lra.
  - destruct (R 5 5) as (z & r & ES & Q); [lra|lra|]. exists z. destruct r as [id|].
    + destruct (C2 _ _ Q) as [->| ->]; auto. apply C0, tri_iff in Q as (u & v & w & Q). lra.
    + exfalso. apply (Q 1%nat), C1, tri_iff. exists (5/19), (9/19), (5/19). lra.
  - destruct (R 5 (1/2)) as (z & r & ES & Q); [lra|lra|]. exists z. destruct r as [id|]; auto.
    destruct (C2 _ _ Q) as [->| ->]; [apply C0, tri_iff in Q as (u & v & w & Q); lra|apply C1, tri_iff in Q as (u & v & w & Q); lra].
  - destruct (search_spec two_tri None None None None g (fun l => l) [0; 0; 0; 7] [-1; 5]) as (_ & Q); auto.
    apply Q. intros W. specialize (W 0%nat ltac:(cbn; lia)). cbn [nth] in W. lra.
Qed.

Lemma ceil_neg r : r <= 0 -> ceil_usize r = 0%nat.
Proof.
  intros H. unfold ceil_usize. destruct (base_Int_part (- r)) as (A & B).
  assert (X : (-1 < Int_part (- r))%Z) by (apply lt_IZR; lra).
  destruct (Int_part (- r)); try reflexivity. lia.
Qed.
Lemma one_tri_refuted : exists g x,
  consistent one_tri /\ coords_complete one_tri /\ simplex_mesh one_tri /\ non_degenerate one_tri /\
  gc_new one_tri None None None (Some 1) = Ok g /\ contains one_tri 0 x /\
  forall sh zeta, List.length zeta = 4%nat -> exists e, gc_search sh g zeta x = Err e.
Proof.
  assert (MIN : f64_MIN + 2 * / 10000 < 0).
  { unfold f64_MIN. assert (Q : 2 ^ 972 <= 2 ^ 1024) by (apply Rle_pow; [lra|apply Nat.leb_le; reflexivity]).
    change (2 ^ 972) with (2 * 2 ^ 971) in Q. assert (Q' : 1 <= 2 ^ 971) by (apply pow_R1_Rle; lra).
    revert Q Q'. generalize (2 ^ 1024) (2 ^ 971). intros. lra. }
  assert (RM : forall a b, a <= b -> Rmin a b = a) by (intros; apply Rmin_left; auto). 
  assert (RM' : forall a b, b <= a -> Rmin a b = b) by (intros; apply Rmin_right; auto). 
  assert (RX : forall a b, b <= a -> Rmax a b = a) by (intros; apply Rmax_left; auto).
  assert (RX' : forall a b, a <= b -> Rmax a b = b) by (intros; apply Rmax_right; auto).
  assert (N1 : Rmin 0 1 = 0) by (apply RM; lra). assert (N0 : Rmin 0 0 = 0) by (apply RM; lra).
  assert (X1 : Rmax 0 1 = 1) by (apply RX'; lra). assert (X0 : Rmax 0 0 = 0) by (apply RX; lra). assert (X2 : Rmax 1 0 = 1) by (apply RX; lra).
  assert (T0 : Rmax (1 - 0) (1 - 0) = 1 - 0) by (apply RX; lra).
  assert (NEW : gc_new one_tri None None None (Some 1) = Ok (mkGCells one_tri [0; 0]%nat [0 - / 100; 0 - / 100]
     [0 - / 100 + (f64_MIN + 2 * / 10000) * INR 0; 0 - / 100 + (f64_MIN + 2 * / 10000) * INR 0] (f64_MIN + 2 * / 10000) [[(0, 1); (0, 1)]] [] [0%nat])).
  { unfold gc_new. cbn [or_default].
    unfold GRID_CELLS_TOLERANCE, GRID_CELLS_BORDER_TOL, GRID_CELLS_LARGE_CUTOFF.
    destruct (Rleb (/ 10000) 0) eqn:Q1; [apply Rleb_iff in Q1; lra|]. destruct (Rltb (/ 100) 0) eqn:Q2; [apply Rltb_iff in Q2; lra|].
    destruct (Rltb (3 / 4) 0) eqn:Q3; [apply Rltb_iff in Q3; lra|]. destruct (Rltb 1 (3 / 4)) eqn:Q4; [apply Rltb_iff in Q4; lra|].
    destruct (Rltb 1 0) eqn:Q5; [apply Rltb_iff in Q5; lra|]. destruct (Rltb 1 1) eqn:Q6; [apply Rltb_iff in Q6; lra|].
    cbn [orb]. unfold one_tri at 1 2 3 4 5 6 7. cbn [ndim cells].
    cbn -[Rmin Rmax Rleb Rltb f64_MIN INR ceil_usize]. repeat (rewrite N1 || rewrite N0 || rewrite X1 || rewrite X0 || rewrite X2). unfold box_len. cbn -[Rmin Rmax Rleb Rltb f64_MIN INR ceil_usize].
    rewrite ?T0. cbn -[Rmin Rmax Rleb Rltb f64_MIN INR ceil_usize].
    unfold scan_large. cbn -[Rmin Rmax Rleb Rltb f64_MIN INR ceil_usize]. rewrite ?T0.
    destruct (Rleb (3 / 4 * (1 - 0)) (1 - 0)) eqn:Q7; [|apply Rleb_false in Q7; lra]. cbn -[Rmin Rmax Rleb Rltb f64_MIN INR ceil_usize].
    destruct (Rleb (INR 1 / INR 1) 1) eqn:Q8; [|apply Rleb_false in Q8; cbn in Q8; lra].
    destruct (Rltb 0 (/ 100)) eqn:Q9; [|apply Rltb_false in Q9; lra]. cbn -[Rmin Rmax Rleb Rltb f64_MIN INR ceil_usize].
    destruct (Rltb (0 - / 100) (1 + / 100)) eqn:Q10; [|apply Rltb_false in Q10; lra]. cbn -[Rmin Rmax Rleb Rltb f64_MIN INR ceil_usize].
    rewrite !ceil_neg.
    2: { apply Rlt_le. apply Ropp_lt_cancel. rewrite Ropp_0. unfold Rdiv. rewrite Ropp_mult_distr_r, <- Rinv_opp.
         apply Rmult_lt_0_compat; [lra|]. apply Rinv_0_lt_compat. lra. }
    reflexivity. }
  eexists _, [1/4; 1/4]. 
  split; [split; [intros i p H; cbn in H; small_mesh; reflexivity|intros i c H; cbn in H; small_mesh; (split; [reflexivity|]; split; [reflexivity|]; cbn; intros q Hq; lia)]|].
  split; [intros p Hp; cbn in Hp; destruct Hp as [<-|[<-|[<-|[]]]]; reflexivity|].
  split; [left; split; auto; intros c Hc; cbn in Hc; destruct Hc as [<-|[]]; reflexivity|].
  split; [intros c Hc; cbn in Hc; destruct Hc as [<-|[]]; cbn; apply independent_area; unfold area2; lra|].
  split; [exact NEW|]. split.
  - eexists. split; [reflexivity|]. cbn. apply tri_iff. exists (1/2), (1/4), (1/4). lra.
  - intros sh zeta LZ. unfold gc_search. rewrite LZ. cbn -[Rltb f64_MIN INR].
    destruct (Rltb (1 / 4) (0 - / 100)) eqn:R1; cbn -[Rltb f64_MIN INR]; [eauto|].
    destruct (Rltb (0 - / 100 + (f64_MIN + 2 * / 10000) * INR 0) (1 / 4)) eqn:R2; cbn -[Rltb f64_MIN INR]; [eauto|].
    exfalso. apply Rltb_false in R2. change (INR 0) with 0 in R2. lra.
Qed.

Lemma shell_refuted : exists g x,
  consistent shell /\ coords_complete shell /\ (forall c, In c (cells shell) -> c_kind c = Tri3) /\
  gc_new shell None None None None = Ok g /\ List.length x = ndim shell /\ ~ contains shell 0 x /\
  forall sh zeta, (forall l, Permutation (sh l) l) -> List.length zeta = 4%nat -> exists zeta', gc_search sh g zeta x = Ok (zeta', Some 0%nat).
Proof.
  assert (A : consistent shell).
  { split; [intros i p H; cbn in H; small_mesh; reflexivity|intros i c H; cbn in H; small_mesh; (split; [reflexivity|]; split; [reflexivity|]; cbn; intros q Hq; lia)]. }
  assert (B : coords_complete shell) by (intros p Hp; cbn in Hp; destruct Hp as [<-|[<-|[<-|[]]]]; reflexivity).
  assert (P : params_ok None None None None) by (unfold params_ok; cbn [value]; lra).
  assert (ND : ndim shell = 2%nat \/ ndim shell = 3%nat) by (right; reflexivity).
  assert (BP : 0 < value None (/ 100)) by (cbn [value]; lra).
  destruct (new_limits shell None None None None A B ND ltac:(discriminate) P (or_intror BP)) as (g & E & L1 & L2 & LIM).
  pose proof (new_gwf _ _ _ _ _ _ A B ND P E) as W.
  exists g, [0; 1; 0]. split; [exact A|]. split; [exact B|]. split; [intros c [<-|[]]; reflexivity|]. split; [exact E|]. split; [reflexivity|].
  set (c := mkCell 0 1%Z Tri3 [0; 1; 2]%nat).
  split.
  { intros (c' & EC & (w & (LW & T & WS) & N)). cbn in EC. injection EC as <-. destruct w as [|u [|v [|t [|]]]]; try discriminate.
    pose proof (WS 1%nat ltac:(cbn; lia)) as W1. pose proof (WS 2%nat ltac:(cbn; lia)) as W2. cbn in W1, W2. lra. }
  intros sh zeta SH LZ.
  assert (EC : nth_error (cells shell) 0 = Some c) by reflexivity.
  destruct (w_box shell g W 0%nat c EC) as (LB & BB). cbn in LB.
  set (box := nth 0 (gc_boxes g) []) in *.
  assert (BX : forall i, (i < 3)%nat -> fst (nth i box (0,0)) = 0 /\ snd (nth i box (0,0)) = 1).
  { intros i Hi. destruct (BB i Hi) as ((I1 & I2) & I3).
    pose proof (I3 0%nat ltac:(cbn; auto)) as J0. pose proof (I3 1%nat ltac:(cbn; auto)) as J1. pose proof (I3 2%nat ltac:(cbn; auto)) as J2.
    destruct i as [|[|[|i]]]; try lia; cbn in I1, I2, J0, J1, J2; split; lra. }
  assert (BE : box = [(0,1);(0,1);(0,1)]).
  { apply nlen3 in LB as (b0 & b1 & b2 & Q). rewrite Q in BX. pose proof (BX 0%nat ltac:(lia)). pose proof (BX 1%nat ltac:(lia)). pose proof (BX 2%nat ltac:(lia)).
    cbn in *. rewrite Q. destruct b0, b1, b2; cbn in *. destruct H as (-> & ->), H0 as (-> & ->), H1 as (-> & ->). reflexivity. }
  assert (IC : forall z, List.length z = 4%nat -> exists z', in_cell g z [0;1;0] 0 = Ok (z', true)).
  { intros z Lz. unfold in_cell. rewrite (w_mesh shell g W).
    assert (HID : (0 < List.length (gc_boxes g))%nat) by (rewrite (w_boxes shell g W); cbn; lia).
    rewrite (get_ok _ _ []) by exact HID. cbn [bind]. fold box. rewrite BE.
    destruct (in_bbox_ok 3 [(0,1);(0,1);(0,1)] [0;1;0] eq_refl eq_refl) as (ib & EI & IB). cbn [ndim shell]. rewrite EI. cbn [bind].
    rewrite (proj2 IB) by (intros [|[|[|i]]] Hi; cbn; try lia; lra). cbn [negb]. cbn -[triangle_coords in_triangle].
    destruct (triangle_coords_ok z [0;0;0] [1;0;0] [0;1;1] [0;1;0]) as (w & -> & AW); cbn; try lia; [apply independent_area; unfold area2; lra|].
    cbn [bind]. destruct (in_triangle_iff w (skipn 3 z) (proj1 AW)) as (r & ER & RI). cbn [skipn] in ER. rewrite ER. cbn [bind].
    rewrite (proj2 RI); [eauto|]. destruct AW as (LW & T & WS). destruct w as [|u [|v [|t [|]]]]; try discriminate.
    pose proof (WS 0%nat ltac:(lia)) as W0. pose proof (WS 1%nat ltac:(lia)) as W1. unfold total in T. cbn in *. intros y [<-|[<-|[<-|[]]]]; lra. }
  assert (FI : forall ids z, ids <> [] -> (forall id, In id ids -> (id < 1)%nat) -> List.length z = 4%nat -> exists z', first_in g z [0;1;0] ids = Ok (z', Some 0%nat)).
  { intros [|i ids] z NE H Lz; [congruence|]. assert (i = 0%nat) by (specialize (H i (or_introl eq_refl)); lia). subst i. cbn [first_in].
    destruct (IC z Lz) as (z' & ->). cbn [bind]. eauto. }
  assert (WI : forall i, (i < ndim shell)%nat -> nth i (gc_xmin g) 0 <= nth i [0;1;0] 0 <= nth i (gc_xmax g) 0).
  { intros i Hi. cbn in Hi. assert (C' : In c (cells shell)) by (cbn; auto).
    pose proof (w_lim shell g W c 0%nat i C' ltac:(cbn; auto) Hi) as J0. pose proof (w_lim shell g W c 1%nat i C' ltac:(cbn; auto) Hi) as J1.
    pose proof (w_lim shell g W c 2%nat i C' ltac:(cbn; auto) Hi) as J2. destruct i as [|[|[|i]]]; try lia; cbn in *; lra. }
  unfold gc_search. rewrite (w_mesh shell g W), LZ. cbn [ndim shell List.length Nat.eqb negb].
  destruct (bounds_ok shell g W [0;1;0] eq_refl) as (b & EB & BI). cbn [ndim shell] in EB. rewrite EB. rewrite (proj2 BI WI). cbn [bind negb].
  destruct (gc_large g) as [|i large] eqn:EL.
  - assert (sh [] = []) as -> by (apply Permutation_nil, Permutation_sym, SH). cbn [first_in bind].
    destruct (cells_exist 3 (gc_side g) (gc_ndiv g) (gc_xmin g) [0;1;0] (w_side shell g W) (w_ndiv shell g W)) as (cs & IA).
    { intros i Hi. destruct (w_max shell g W i Hi) as (A1 & A2). split; auto. rewrite <- A2. apply (WI i Hi). }
    pose proof (key_ok 3 _ _ _ [0;1;0] cs (or_intror eq_refl) (w_side shell g W) (w_ndiv shell g W) (w_xmin shell g W) eq_refl IA) as EK.
    rewrite EK. cbn [bind].
    assert (H : held (gc_containers g) (key_at 3 (gc_ndiv g) cs) 0).
    { apply (w_held shell g W). split; [cbn; lia|]. split; [rewrite EL; auto|]. exists [0;1;0]. split; [|exact EK]. split; [reflexivity|].
      fold box. rewrite BE. intros [|[|[|i]]] Hi; cbn; auto. cbn in Hi. lia. }
    pose proof H as (l & G & I). rewrite G. apply FI; auto.
    + intros Q. pose proof (SH l) as SP. rewrite Q in SP. apply Permutation_nil in SP. subst l. destruct I.
    + intros id Hid. apply (w_held shell g W (key_at 3 (gc_ndiv g) cs) id). exists l. split; auto. eapply Permutation_in; [apply SH|exact Hid].
  - destruct (FI (sh (i :: large)) zeta) as (z' & EF); auto.
    + intros Q. pose proof (SH (i :: large)) as SP. rewrite Q in SP. apply Permutation_nil in SP. discriminate.
    + intros id Hid. apply (w_large shell g W id). rewrite EL. eapply Permutation_in; [apply SH|exact Hid].
    + rewrite EF. cbn [bind]. eauto.
Qed.
