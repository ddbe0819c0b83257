(* The tools qua2msh and hex2msh: kinds of cells; an example with two squares. *)
From Coq Require Import String Reals List Lia Lra Bool Arith NArith ZArith Permutation Sorted.
From Verif Require Import Base BaseFacts Kind GraphModel MeshModel MeshQuerySpec TopoModel TopoSpec TopoMaps TopoProof GeomModel GeomSpec GridModel GridSpec SearchModel SearchProof
  JoinModel JoinSpec PropJoin ShapesModel ShapesSpec PadModel BlockModel BlockSpec BlockProof2 PropBlock StructModel StructSpec StructProof RingSpec RingProof2 BlocksSpec BlocksProof BlocksProof2 BlocksProof3 BlocksProof4 BlocksProof5 BlocksProof6 BlocksProof7 BlocksProof8 PropBlocks
  TextModel TextSpec TextProof2 TextProof4 VtuModel VtuSpec VtuProof PropText PropVtu ToolsModel ToolsSpec ToolsProof.
Import ListNotations.
Local Open Scope string_scope.
Local Open Scope list_scope.
Local Open Scope nat_scope.

Lemma qua_unique k k' : kind_class k = CQua -> kind_class k' = CQua -> kind_nnode k = kind_nnode k' -> k = k'.
Proof. destruct k; intros H; try discriminate H; destruct k'; intros H'; try discriminate H'; intros E; try reflexivity; discriminate E. Qed.
Lemma hex_unique k k' : kind_class k = CHex -> kind_class k' = CHex -> kind_nnode k = kind_nnode k' -> k = k'.
Proof. destruct k; intros H; try discriminate H; destruct k'; intros H'; try discriminate H'; intros E; try reflexivity; discriminate E. Qed.
Lemma qua_known k : kind_class k = CQua -> In (kind_nnode k) qua_nnodes.
Proof. destruct k; intros H; try discriminate H; cbn; tauto. Qed.
Lemma hex_known k : kind_class k = CHex -> In (kind_nnode k) hex_nnodes.
Proof. destruct k; intros H; try discriminate H; cbn; tauto. Qed.

Lemma single_nothing zdet shp shuffle sh shc fmt_f nnode renumber : let r := qua2msh zdet shp shuffle sh shc fmt_f one_square nnode renumber in fst r <> Ok tt /\ snd r = [].
Proof.
  intros r. unfold r, qua2msh. destruct (qua_target nnode) as [(target & v)|e| |]; [|split; [discriminate|reflexivity]..].
  destruct (from_blocks_2d zdet shp shuffle sh shc one_square target renumber) as [m|e| |] eqn:E; [|split; [discriminate|reflexivity]..].
  exfalso. revert E. apply few_2d. cbn. lia.
Qed.

(* markers of points: those of the meshes that are joined *)
Definition unmarked (m : mesh R) : Prop := forall p, In p (points m) -> pt_marker p = 0%Z.
Lemma join_unmarked shp shuffle sh a b m : unmarked a -> unmarked b -> join_two_meshes shp shuffle sh a b = Ok m -> unmarked m.
Proof.
  intros Ua Ub H. unfold join_two_meshes in H. destruct (negb (ndim a =? ndim b)); [discriminate H|]. apply bind_ok in H as (g & _ & H). apply bind_ok in H as ((pts & ids) & Hp & H).
  apply bind_ok in H as (cs & _ & H). apply bind_ok in H as (me & _ & H). apply bind_ok in H as (mf & _ & H). injection H as <-. intros p Ip. cbn [points] in Ip.
  assert (X : forall l st st', (forall p, In p l -> pt_marker p = 0%Z) -> (forall p, In p (fst st) -> pt_marker p = 0%Z) -> foldM (join_point sh g) l st = Ok st' -> forall p, In p (fst st') -> pt_marker p = 0%Z).
  { clear. induction l as [|q l IH]; intros st st' Hl Hs E; cbn [foldM] in E; [injection E as <-; exact Hs|]. apply bind_ok in E as (s1 & E1 & E2). apply (IH s1 st'); [intros p I; apply Hl; right; exact I| |exact E2].
    unfold join_point in E1. apply bind_ok in E1 as (out & _ & E1). apply bind_ok in E1 as (found & _ & E1). destruct found as [id|]; injection E1 as <-; cbn [fst]; [exact Hs|].
    intros p I. apply in_app_iff in I as [I|[<-|[]]]; [apply Hs; exact I|]. cbn. apply Hl. left. reflexivity. }
  exact (X _ _ _ Ub (Ua : forall p, In p (fst (points a, @nil nat)) -> _) Hp p Ip).
Qed.
Lemma joins_unmarked shp shuffle sh ms m : Forall unmarked ms -> join_meshes shp shuffle sh ms = Ok m -> unmarked m.
Proof.
  intros F H. destruct ms as [|a [|b rest]]; [discriminate H|discriminate H|]. inversion F as [|? ? Ua F']; subst. inversion F' as [|? ? Ub Fr]; subst. cbn [join_meshes] in H. apply bind_ok in H as (m1 & H1 & H).
  assert (U1 : unmarked m1) by (eapply join_unmarked; [exact Ua|exact Ub|exact H1]). clear - Fr H U1. revert m1 U1 H. induction Fr as [|x l Ux _ IH]; intros m1 U1 H; cbn [foldM] in H; [injection H as <-; exact U1|].
  apply bind_ok in H as (m2 & H2 & H). apply (IH m2); [|exact H]. eapply join_unmarked; [exact U1|exact Ux|exact H2].
Qed.
Lemma blocks_unmarked zdet shp shuffle sh shc bl target m : (0 <= zdet)%R -> any_order shp shuffle sh -> (forall l, Permutation (shc l) l) -> regions_fine (tolR 2) target (regions_2d bl) ->
  kind_class target = CQua -> from_blocks_2d zdet shp shuffle sh shc bl target false = Ok m -> unmarked m.
Proof.
  intros Hz AO P2 Fine K H. unfold from_blocks_2d in H. apply bind_ok in H as (ms & H1 & H). apply bind_ok in H as (m' & H2 & H3). cbn in H3. injection H3 as <-.
  eapply joins_unmarked; [|exact H2]. apply mapM_ok in H1. apply Forall_forall. intros mi I. apply In_nth_error in I as (j & Ej).
  assert (X : forall l ms, Forall2 (fun i mi => (let! b := block_2d zdet bl i in subdivide sh shc b target) = Ok mi) l ms -> forall mi, In mi ms -> exists i, In i l /\ (let! b := block_2d zdet bl i in subdivide sh shc b target) = Ok mi).
  { clear. induction 1 as [|i x l ms E _ IH]; intros mi [].
    - subst. exists i. split; [left; reflexivity|exact E].
    - destruct (IH mi) as (i' & A & B); [assumption|]. exists i'. split; [right; exact A|exact B]. }
  destruct (X _ _ H1 mi (nth_error_In _ _ Ej)) as (i & Ii & E). apply bind_ok in E as (b & Eb & E). apply region_block_2d in Eb as (_ & _ & _ & _ & _ & O); [|exact Hz].
  assert (Ft : fits b target) by (unfold fits; rewrite (o_ndim _ _ _ _ _ _ O); exact K).
  refine (proj2 (proj2 (proj2 (C45_consistent zdet sh shc b target mi _)))).
  eapply (sub_region zdet sh shc Hz (proj2 (proj2 AO)) P2 2 _ _ (region_2d bl i) b target O); [|exact Ft|exact E].
  intros w Iw. eapply Fine; [apply in_map; exact Ii|exact Iw].
Qed.

(* numbers can be printed: a printer and a reader for finitely many numbers *)
Definition unary (n : nat) : text := repeat 49%N n.
Definition teqb (a b : text) : bool := if list_eq_dec N.eq_dec a b then true else false.
Definition printer (l : list R) (x : R) : text :=
  if Req_EM_T x 0 then txt "0.0" else unary (S ((fix go (l : list R) : nat := match l with [] => 0 | y :: r => if Req_EM_T x y then 0 else S (go r) end) l)).
Definition reader (l : list R) (t : text) : option R := if teqb t (txt "0.0") then Some 0%R else nth_error l (List.length t - 1).
Lemma digit_ok : ~ white 49%N.
Proof. intros H. cbn in H. repeat (destruct H as [H|H]; [discriminate H|]). exact H. Qed.
Lemma printed l x : In x l -> reader l (printer l x) = Some x /\ is_word (printer l x).
Proof.
  intros I. unfold printer. destruct (Req_EM_T x 0) as [->|Nx].
  - split; [unfold reader, teqb; destruct (list_eq_dec N.eq_dec (txt "0.0") (txt "0.0")); [reflexivity|congruence]|]. split; [discriminate|].
    vm_compute txt. repeat constructor; intros H; cbn in H; repeat (destruct H as [H|H]; [discriminate H|]); exact H.
  - set (n := (fix go (l : list R) : nat := match l with [] => 0 | y :: r => if Req_EM_T x y then 0 else S (go r) end) l).
    assert (E : nth_error l n = Some x).
    { unfold n. clear n Nx. induction l as [|y l IH]; [destruct I|]. destruct (Req_EM_T x y) as [->|N]; [reflexivity|]. cbn [nth_error]. apply IH. destruct I as [->|I]; [congruence|exact I]. }
    split.
    + unfold reader, teqb. destruct (list_eq_dec N.eq_dec (unary (S n)) (txt "0.0")) as [X|_]; [discriminate X|]. unfold unary. rewrite repeat_length. replace (S n - 1) with n by lia. exact E.
    + split; [discriminate|]. apply Forall_forall. intros c Ic. apply repeat_spec in Ic. subst c. exact digit_ok.
Qed.
Lemma can_print (m : mesh R) : exists fmt_f parse_f, floats fmt_f parse_f 0%R m.
Proof.
  set (l := flat_map (@pt_coords R) (points m)). exists (printer l), (reader l). split.
  - unfold reader, teqb. destruct (list_eq_dec N.eq_dec (txt "0.0") (txt "0.0")); [reflexivity|congruence].
  - intros p x Ip Ix. apply printed. apply in_flat_map. exists p. auto.
Qed.

(* the two squares of BlocksProof8 without marks *)
Definition plain_squares : blocks2d := mkBlocks2d (k2_points two_squares) (k2_regions two_squares) (k2_weights two_squares) (k2_constraints two_squares) [].
Lemma plain_done zdet shp shuffle sh shc : (0 <= zdet < / 4)%R -> any_order shp shuffle sh -> (forall l, Permutation (shc l) l) ->
  exists m, from_blocks_2d zdet shp shuffle sh shc plain_squares Qua4 false = Ok m.
Proof.
  intros Hz AO P2. destruct (meshes_2d zdet sh shc plain_squares Qua4) as (ms & E); [apply Hz|apply AO|exact P2|exact two_squares_well|reflexivity|exact two_squares_fine| |].
  { intros g I. split; [change (regions_2d plain_squares) with (regions_2d two_squares) in I; rewrite two_squares_regions in I; destruct I as [<-|[<-|[]]]; intros idx k s c _ _ []|apply square_not_flat; [apply Hz|exact I]]. }
  destruct (meshed_all zdet shp shuffle sh shc (proj1 Hz) AO P2 Qua4 2 (block_2d zdet plain_squares) (region_2d plain_squares) (fun g => marks_edge 2 (k2_medges plain_squares) g) (fun _ _ _ => False) (List.length (k2_regions plain_squares)) ms) as (_ & F);
    [exact two_squares_fine| |exact E|].
  { intros i b Eb. apply region_block_2d in Eb as (_ & _ & _ & _ & _ & X); [exact X|apply Hz]. }
  destruct (two_joined shp shuffle sh 2 Qua4 _ _ square_1 square_2 ms AO ltac:(lia || (left; split; reflexivity)) F eq_refl eq_refl) as (m & Em).
  - intros i j Hi Hj. change (kind_nnode Qua4) with 4%nat in *. rewrite !square_nodes by assumption. intros X. do 4 (destruct i as [|i]; [do 4 (destruct j as [|j]; [first [reflexivity|exfalso; cbn in X; injection X; intros; lra]|]); lia|]). lia.
  - intros a Ha. exists 0%nat, 2%nat. change (kind_nnode Qua4) with 4%nat. split; [lia|]. split; [lia|]. rewrite !square_nodes by lia. destruct a as [|[|a]]; [cbn; lra|cbn; lra|lia].
  - exists m. unfold from_blocks_2d. rewrite E. cbn [bind]. rewrite Em. reflexivity.
Qed.
Lemma flat_len (cs : list cell) k : (forall c, In c cs -> List.length (c_points c) = k) -> List.length (flat_map c_points cs) = List.length cs * k.
Proof. induction cs as [|c cs IH]; intros H; [reflexivity|]. cbn [flat_map List.length]. rewrite app_length, IH by (intros; apply H; right; assumption). rewrite (H c (or_introl eq_refl)). lia. Qed.
Lemma used_len (m : mesh R) k : all_used m -> (forall c, In c (cells m) -> List.length (c_points c) = k) -> List.length (points m) <= List.length (cells m) * k.
Proof.
  intros U L. rewrite <- (flat_len _ _ L). rewrite <- (seq_length (List.length (points m)) 0). apply NoDup_incl_length; [apply seq_NoDup|].
  intros i I. apply in_seq in I. destruct (U i) as (c & Ic & Ii); [lia|]. apply in_flat_map. exists c. auto.
Qed.

Lemma plain_squares_files : forall shp shuffle sh, any_order shp shuffle sh -> exists m fmt_f parse_f msh vtu,
  qua2msh (/ 100) shp shuffle sh (fun l => l) fmt_f plain_squares 4 false = (Ok tt, [(".msh", msh); (".vtu", vtu)]) /\
  (forall target, kind_class target = CQua -> kind_nnode target = 4 -> regions_fine (tolR 2) target (regions_2d plain_squares)) /\
  floats fmt_f parse_f 0%R m /\ fits_types m /\ List.length (cells m) = 3 /\ read_file 0%R parse_f msh = Ok m /\ shows parse_f vtu m.
Proof.
  intros shp shuffle sh AO. assert (P2 : forall l : list (nat * nat), Permutation ((fun l => l) l) l) by (intros; apply Permutation_refl). assert (Hz : (0 <= / 100 < / 4)%R) by lra.
  destruct (plain_done (/ 100) shp shuffle sh (fun l => l) Hz AO P2) as (m & E). destruct (can_print m) as (fmt & parse & Fl). exists m, fmt, parse.
  assert (Fine : regions_fine (tolR 2) Qua4 (regions_2d plain_squares)) by exact two_squares_fine.
  pose proof (blocks_unmarked _ _ _ _ _ _ _ _ (proj1 Hz) AO P2 Fine eq_refl E) as Um.
  destruct (C78_cells_2d _ _ _ _ _ _ _ _ _ (proj1 Hz) AO P2 Fine E) as (W & _ & R2 & Cm & Km & U & B).
  destruct (C78_edges_2d _ _ _ _ _ _ _ _ (proj1 Hz) AO P2 Fine E) as (Me & _ & _ & Mf).
  assert (Me' : marked_edges m = []).
  { destruct (marked_edges m) as [|[[mk x] y] l]; [reflexivity|]. destruct (Me mk x y (or_introl eq_refl)) as (_ & i & (g & e & p & q & _ & (_ & p' & q' & _ & _ & z & (_ & u & v & X & _) & _) & _) & _). destruct u; discriminate X. }
  assert (N : regions_2d plain_squares <> []) by discriminate.
  assert (Wn : forall g w, In g (regions_2d plain_squares) -> In w (g_weights g) -> w <> []) by (intros g w Ig Iw; apply sum_nonempty; apply (proj2 (proj2 W) g Ig); exact Iw).
  destruct (made_files fmt 2 _ _ _ _ true (or_introl eq_refl) Cm Km B N Wn ltac:(discriminate)) as (Nc & Kd & msh & Em & vtu & Ev & F). exists msh, vtu.
  assert (Lc : List.length (cells m) = 3) by (destruct B as (_ & L & _); rewrite L; reflexivity).
  assert (Ft : fits_types m).
  { split; [|split; [split|split]].
    - rewrite Me', Mf, Lc. pose proof (used_len m 4 U (fun c Ic => proj2 (Kd c Ic))) as Lp. rewrite Lc in Lp. cbn [List.length]. repeat (apply Forall_cons; [lia|]). apply Forall_nil.
    - intros p Ip. rewrite (Um p Ip). lia.
    - intros c Ic. apply In_nth_error in Ic as (j & Ej). assert (Hj : j < List.length (cells m)) by (apply nth_error_Some; congruence). destruct B as (_ & L & B). rewrite L in Hj.
      destruct (number_onto _ j Hj) as (i & g & idx & Eg & I & Nn). destruct (B i g idx Eg I) as (c' & Ec & _ & Mk & _). rewrite Nn in Ec. assert (c' = c) by congruence. subst c'. rewrite Mk.
      apply nth_error_In in Eg. change (regions_2d plain_squares) with (regions_2d two_squares) in Eg. rewrite two_squares_regions in Eg. destruct Eg as [<-|[<-|[]]]; cbn; lia.
    - rewrite Me'. intros mk p q [].
    - rewrite Mf. intros mk p q r o []. }
  split; [unfold qua2msh; cbn [qua_target]; rewrite E; exact F|]. split; [intros t K L; rewrite (qua_unique t Qua4 K eq_refl L); exact Fine|]. split; [exact Fl|]. split; [exact Ft|]. split; [exact Lc|].
  destruct (delivery fmt 2 _ _ _ _ true True _ (or_introl eq_refl) Cm Km B N Wn ltac:(discriminate) ltac:(tauto) (Nat.lt_0_succ 3) F) as (msh' & A1 & A2 & _). destruct (A2 I) as (t & Et & A3). injection Et as <- <-.
  split; [exact (A1 parse Fl Ft)|exact (A3 parse Fl Ft)].
Qed.
