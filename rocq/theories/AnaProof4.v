(* Closed forms: stiffness matrices and integrals over the sides of a triangle. *)
From Coquelicot Require Import Coquelicot.
From Coq Require Import Reals QArith Qreals List Arith Bool Lia Lra.
From Verif Require Import Base BaseFacts Kind Expr ExprProof ShapesModel ShapesSpec ShapesProof PadModel PadSpec PadProof PadProof2 GaussModel GaussSpec GaussProof IntegModel IntegSpec AnaData AnaModel AnaSpec AnaProof AnaProof2 AnaProof3.
Import ListNotations.
Local Open Scope R_scope.

Lemma ent_scaled c a i j : ent (scaled c a) i j = c * ent a i j.
Proof.
  unfold ent, scaled. change (@nil R) with (map (Rmult c) []) at 1. rewrite map_nth.
  replace 0 with (c * 0) at 1 by ring. now rewrite map_nth.
Qed.
Lemma ent_transposed n a i j : (i < n)%nat -> (j < List.length a)%nat -> ent (transposed n a) i j = ent a j i.
Proof.
  intros Hi Hj. unfold transposed, ent at 1. rewrite (nth_indep _ [] (col a 0)) by (rewrite map_length, seq_length; auto).
  rewrite (map_nth (col a)), seq_nth by auto. now apply nth_col.
Qed.

Lemma is_scaled nr nc c a : is_matrix nr nc a -> is_matrix nr nc (scaled c a).
Proof.
  intros [L F]. split; [unfold scaled; now rewrite map_length|]. unfold scaled. apply Forall_map. revert F. apply Forall_impl. intros; now rewrite map_length.
Qed.
Lemma is_mul n a b : is_matrix (List.length a) n (mat_mul n a b).
Proof.
  unfold mat_mul. split; [now rewrite map_length|]. apply Forall_map. apply Forall_forall. intros r _. now rewrite map_length, seq_length.
Qed.
Lemma nth_matrix nr nc a i : is_matrix nr nc a -> (i < nr)%nat -> List.length (nth i a []) = nc.
Proof. intros [L F] Hi. rewrite Forall_forall in F. apply F, nth_In. lia. Qed.

Lemma bdb_ent nd nk alpha bbe dd : (0 < nd)%nat -> is_matrix nd nk bbe -> is_matrix nd nd dd ->
  exists kk, b_d_b nd nk alpha bbe dd = Ok kk /\ is_matrix nk nk kk /\
    forall a b, (a < nk)%nat -> (b < nk)%nat ->
      ent kk a b = alpha * sum_n nd (fun l => sum_n nd (fun k => ent bbe k a * ent dd k l) * ent bbe l b).
Proof.
  intros H0 HB HD. unfold b_d_b.
  assert (NB : nrow bbe = nd /\ ncol bbe = nk /\ nrow dd = nd /\ ncol dd = nd).
  { destruct HB as [L F], HD as [L' F']. unfold nrow, ncol. repeat split; auto.
    - destruct bbe; cbn in *; [lia|]. now inversion F.
    - destruct dd; cbn in *; [lia|]. now inversion F'. }
  destruct NB as (-> & -> & -> & ->). rewrite !Nat.eqb_refl. cbn [andb].
  eexists. split; [reflexivity|].
  assert (LT : List.length (transposed nk bbe) = nk) by (unfold transposed; now rewrite map_length, seq_length).
  assert (M1 : is_matrix nk nd (scaled 1 (mat_mul nd (transposed nk bbe) dd))).
  { apply is_scaled. rewrite <- LT at 1. apply is_mul. }
  split.
  - apply is_scaled. destruct M1 as [L1 _]. rewrite <- L1 at 1. apply is_mul.
  - intros a b Ha Hb. rewrite ent_scaled. f_equal.
    rewrite (ent_mul _ _ _ _ _ nd); [|destruct M1 as [-> _]; auto|auto|now apply (nth_matrix nk)|apply HB].
    apply sum_n_ext. intros l Hl. f_equal. rewrite ent_scaled, Rmult_1_l.
    rewrite (ent_mul _ _ _ _ _ nd); [|rewrite LT; auto|auto| |apply HD].
    + apply sum_n_ext. intros k Hk. rewrite ent_transposed; auto. destruct HB as [-> _]; auto.
    + unfold transposed. rewrite (nth_indep _ [] (col bbe 0)) by (rewrite map_length, seq_length; auto).
      rewrite (map_nth (col bbe)). unfold col. rewrite map_length. apply HB.
Qed.

(* double products in Mandel components *)
Definition m_row (k : nat) : nat := nth k [0; 1; 2; 0; 1; 0]%nat 0%nat.
Definition m_col (k : nat) : nat := nth k [0; 1; 2; 1; 2; 2]%nat 0%nat.
Definition m_fac (k : nat) : R := if (k <? 3)%nat then 1 else sqrt 2.
Definition mandel (e : nat -> nat -> R) (k : nat) : R := m_fac k * e (m_row k) (m_col k).

Lemma sqrt22 : sqrt 2 * sqrt 2 = 2. Proof. apply sqrt_sqrt. lra. Qed.
Lemma half_sqrt x : x / sqrt 2 = sqrt 2 * (x / 2).
Proof. pose proof s2. replace (x / 2) with (x / (sqrt 2 * sqrt 2)) by (now rewrite sqrt22). field. auto. Qed.

Lemma double_mandel3 dd e f : (forall k l, e k l = e l k) -> (forall k l, f k l = f l k) ->
  double_dot (tensor4 dd) e f = sum_n 6 (fun l => sum_n 6 (fun k => mandel e k * ent dd k l) * mandel f l).
Proof.
  intros He Hf. unfold double_dot, tensor4, sum_n, mandel, m_fac, mandel_factor. cbn [map seq sum Nat.eqb Nat.ltb Nat.leb m_row m_col nth mandel_index].
  rewrite (He 1%nat 0%nat), (He 2%nat 0%nat), (He 2%nat 1%nat), (Hf 1%nat 0%nat), (Hf 2%nat 0%nat), (Hf 2%nat 1%nat).
  unfold Rdiv. assert (I : / sqrt 2 = sqrt 2 * / 2) by (pose proof (half_sqrt 1); lra).
  rewrite !Rinv_mult, !Rinv_1, !I. pose proof sqrt22 as Q. set (q := sqrt 2) in *.
  field [Q].
Qed.

Lemma double_mandel2 dd e f : (forall k l, e k l = e l k) -> (forall k l, f k l = f l k) ->
  (forall k, (k < 2)%nat -> e k 2%nat = 0 /\ f k 2%nat = 0) ->
  double_dot (tensor4 dd) e f = sum_n 4 (fun l => sum_n 4 (fun k => mandel e k * ent dd k l) * mandel f l).
Proof.
  intros He Hf H. rewrite double_mandel3 by auto.
  destruct (H 0%nat ltac:(lia)) as [A B], (H 1%nat ltac:(lia)) as [C D].
  unfold sum_n, mandel. cbn [map seq sum m_row m_col nth]. rewrite A, B, C, D. ring.
Qed.

Lemma sym_sym nd b m i k l : sym_grad nd b m i k l = sym_grad nd b m i l k.
Proof. unfold sym_grad. f_equal. ring. Qed.

(* the columns of the B matrix are the Mandel components of the strain of the nodal displacements *)
Lemma tri_bbe p t m i k : p_kind p = Tri3 -> tri3_new p = Ok t -> t_area t <> 0 -> (m < 3)%nat -> (i < 2)%nat -> (k < 4)%nat ->
  ent (t_bbe t) k (i + m * 2) = mandel (sym_grad 2 (t_bb t) m i) k.
Proof.
  intros K H A Hm Hi Hk. unfold tri3_new in H. rewrite K in H. injection H as <-. cbn [t_bbe t_bb t_area] in *.
  pose proof s2. assert (I : / sqrt 2 = sqrt 2 * / 2) by (pose proof (half_sqrt 1); lra).
  match type of A with ?v <> 0 => set (V := v) in * end. 
  unfold mandel, m_fac, sym_grad, ent, Rdiv. rewrite (Rinv_mult _ (sqrt 2)), I.
  cases2 Hm; cases2 Hi; cases2 Hk; cbn [nth Nat.add Nat.mul Nat.eqb Nat.ltb Nat.leb andb m_row m_col]; field; auto; lra.
Qed.
Lemma tet_bbe p t m i k : p_kind p = Tet4 -> tet4_new p = Ok t -> e_volume t <> 0 -> (m < 4)%nat -> (i < 3)%nat -> (k < 6)%nat ->
  ent (e_bbe t) k (i + m * 3) = mandel (sym_grad 3 (e_bb t) m i) k.
Proof.
  intros K H A Hm Hi Hk. unfold tet4_new in H. rewrite K in H. injection H as <-. cbn [e_bbe e_bb e_volume] in *.
  pose proof s2. assert (I : / sqrt 2 = sqrt 2 * / 2) by (pose proof (half_sqrt 1); lra).
  match type of A with ?v / 6 <> 0 => set (V := v) in * end. 
  unfold mandel, m_fac, sym_grad, ent, Rdiv. rewrite (Rinv_mult _ (sqrt 2)), I. 
  cases2 Hm; cases2 Hi; cases2 Hk; cbn [nth Nat.add Nat.mul Nat.eqb Nat.ltb Nat.leb andb m_row m_col]; ring_simplify; try lra.
Qed.

Lemma sym_ext nd b b' m i k l : (forall j, (j < nd)%nat -> ent b m j = ent b' m j) -> sym_grad nd b m i k l = sym_grad nd b' m i k l.
Proof.
  intros H. unfold sym_grad. f_equal. 
  destruct (k =? i)%nat, (l =? i)%nat; cbn [andb]; auto; destruct (l <? nd)%nat eqn:E1, (k <? nd)%nat eqn:E2; rewrite ?Nat.ltb_lt in *; rewrite ?H by auto; reflexivity.
Qed.

Lemma double_ext D e f e' f' : (forall k l, e k l = e' k l) -> (forall k l, f k l = f' k l) -> double_dot D e f = double_dot D e' f'.
Proof.
  intros A B. unfold double_dot. do 4 (apply sum_n_ext; intros ? _). now rewrite A, B.
Qed.

Lemma tri_mat_10 p t d B dd th : pad_wf p -> p_kind p = Tri3 -> p_space p = 2%nat -> tri3_new p = Ok t -> solid_element p d B ->
  is_matrix 4 4 dd -> exists kk, tri3_mat_10_bdb t dd th = Ok kk /\
  mat_integral Tri3 3 2 3 2 (fun m i n j ksi => double_dot (tensor4 dd) (sym_grad 2 (B ksi) m i) (sym_grad 2 (B ksi) n j) * th * d ksi) kk.
Proof.
  intros W K N2 HT HS HD. destruct (tri_facts p t d B W K N2 HT HS) as [HA HB].
  assert (MB : is_matrix 4 6 (t_bbe t)).
  { unfold tri3_new in HT. rewrite K in HT. injection HT as <-. cbn. split; [reflexivity|]. repeat (apply Forall_cons; [reflexivity|]). apply Forall_nil. }
  destruct (bdb_ent 4 6 (th * t_area t) (t_bbe t) dd ltac:(lia) MB HD) as (kk & E & M & V).
  exists kk. split; [exact E|]. split; [exact M|]. intros m i n j Hm Hi Hn Hj.
  apply (fit Tri3 _ _ _ _ m (double_dot (tensor4 dd) (sym_grad 2 (t_bb t) m i) (sym_grad 2 (t_bb t) n j) * th * (2 * t_area t)) z0 z0 _ _ tri_ints Hm).
  - intros ksi L. change (kind_ndim Tri3) with 2%nat in L. destruct (HB ksi L) as [-> HE].
    rewrite (double_ext _ _ _ (sym_grad 2 (t_bb t) m i) (sym_grad 2 (t_bb t) n j)) by (intros; apply sym_ext; intros; apply HE; auto).
    unfold z0, sum_n. change (kind_nnode Tri3) with 3%nat. cbn [map seq sum]. ring.
  - rewrite V by nia. rewrite double_mandel2.
    + rewrite (sum_n_ext 4 _ (fun l => sum_n 4 (fun k => mandel (sym_grad 2 (t_bb t) m i) k * ent dd k l) * mandel (sym_grad 2 (t_bb t) n j) l)).
      * unfold z0. unfold sum_n at 5 6. change (kind_nnode Tri3) with 3%nat. cbn [map seq sum]. set (x := sum_n 4 _). clearbody x. field.
      * intros l Hl. rewrite (tri_bbe p) by auto. f_equal. apply sum_n_ext. intros k Hk. now rewrite (tri_bbe p) by auto.
    + intros; apply sym_sym.
    + intros; apply sym_sym.
    + intros k Hk. unfold sym_grad. cases2 Hk; cases2 Hi; cases2 Hj; cbn [Nat.eqb Nat.ltb Nat.leb andb]; split; lra.
Qed.

Lemma tet_mat_10 p t d B dd : pad_wf p -> p_kind p = Tet4 -> tet4_new p = Ok t -> solid_element p d B ->
  is_matrix 6 6 dd -> exists kk, tet4_mat_10_bdb t dd = Ok kk /\
  mat_integral Tet4 4 3 4 3 (fun m i n j ksi => double_dot (tensor4 dd) (sym_grad 3 (B ksi) m i) (sym_grad 3 (B ksi) n j) * d ksi) kk.
Proof.
  intros W K HT HS HD. destruct (tet_facts p t d B W K HT HS) as [HA HB].
  assert (MB : is_matrix 6 12 (e_bbe t)).
  { unfold tet4_new in HT. rewrite K in HT. injection HT as <-. cbn. split; [reflexivity|]. repeat (apply Forall_cons; [reflexivity|]). apply Forall_nil. }
  destruct (bdb_ent 6 12 (e_volume t) (e_bbe t) dd ltac:(lia) MB HD) as (kk & E & M & V).
  exists kk. split; [exact E|]. split; [exact M|]. intros m i n j Hm Hi Hn Hj.
  apply (fit Tet4 _ _ _ _ m (double_dot (tensor4 dd) (sym_grad 3 (e_bb t) m i) (sym_grad 3 (e_bb t) n j) * (6 * e_volume t)) z0 z0 _ _ tet_ints Hm).
  - intros ksi L. change (kind_ndim Tet4) with 3%nat in L. destruct (HB ksi L) as [-> HE].
    rewrite (double_ext _ _ _ (sym_grad 3 (e_bb t) m i) (sym_grad 3 (e_bb t) n j)) by (intros; apply sym_ext; intros; apply HE; auto).
    unfold z0, sum_n. change (kind_nnode Tet4) with 4%nat. cbn [map seq sum]. ring.
  - rewrite V by nia. rewrite double_mandel3 by (intros; apply sym_sym).
    rewrite (sum_n_ext 6 _ (fun l => sum_n 6 (fun k => mandel (sym_grad 3 (e_bb t) m i) k * ent dd k l) * mandel (sym_grad 3 (e_bb t) n j) l)).
    * unfold z0. unfold sum_n at 5 6. change (kind_nnode Tet4) with 4%nat. cbn [map seq sum]. set (x := sum_n 6 _). clearbody x. field.
    * intros l Hl. rewrite (tet_bbe p) by auto. f_equal. apply sum_n_ext. intros k Hk. now rewrite (tet_bbe p) by auto.
Qed.
