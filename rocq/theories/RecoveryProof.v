(* Proofs about the recovery functions: the loops *)
From Coq Require Import String Reals List Arith Lia Lra Bool ZArith.
From Verif Require Import Base BaseFacts Kind ShapesModel ShapesSpec ShapesProof GeomModel PadModel PadSpec PadProof PadProof2 GaussModel GaussSpec GaussProof2 GaussProof3
  TopoModel IntegModel IntegSpec IntegProof IntegProof2 IntegProof5 ConvertProof2 RecoveryData RecoveryModel RecoverySpec.
From Verif Require BlockProof6.
Import ListNotations.
Local Open Scope list_scope.
Local Open Scope R_scope.

Lemma interp_of k g p pd : p_kind pd = k -> calc_interp k (iota4 g p) = calc_interp k (ksi_of k g p).
Proof. intros <-. exact (interp_ksi (args_new pd g) p). Qed.
Lemma interp_of' k g p : calc_interp k (iota4 g p) = calc_interp k (ksi_of k g p).
Proof. exact (interp_of k g p (mkPad k 0 [] [] [] [] [] [] false) eq_refl). Qed.
Lemma ksi_of_length k g p : List.length (ksi_of k g p) = kind_ndim k.
Proof. unfold ksi_of. now rewrite map_length, seq_length. Qed.
Lemma ksi_of_nth k g p i : (i < kind_ndim k)%nat -> nth i (ksi_of k g p) 0 = pt g p i.
Proof. intros H. unfold ksi_of. rewrite (nth_map_seq (pt g p)) by auto. reflexivity. Qed.
Lemma interp_length k ksi : List.length (calc_interp k ksi) = kind_nnode k.
Proof. unfold calc_interp. rewrite map_length. destruct k; reflexivity. Qed.
Lemma is_matrix_zeros m n : is_matrix m n (zeros m n).
Proof. split; [apply repeat_length|]. apply Forall_forall. intros r H. apply repeat_spec in H as ->. apply repeat_length. Qed.
Lemma ent_zeros m n i j : ent (zeros m n) i j = 0.
Proof.
  unfold ent, zeros. destruct (lt_dec i m) as [H|H].
  - assert (X : nth i (repeat (repeat 0 n) m) [] = repeat 0 n) by (apply (repeat_spec m), nth_In; rewrite repeat_length; auto). rewrite X. apply nth_repeat.
  - rewrite (nth_overflow (repeat (repeat 0 n) m)) by (rewrite repeat_length; lia). now destruct j.
Qed.

(** coordinates of the integration points *)
Lemma points_coords_ok pd g : pad_wf pd -> p_ok pd = true ->
  exists xs q, get_points_coords pd g = Ok (xs, q) /\ same_element pd q /\ List.length xs = npoint g /\
    forall p, (p < npoint g)%nat -> List.length (nth p xs []) = p_space pd /\
      forall i, (i < p_space pd)%nat -> nth i (nth p xs []) 0 = pos pd (ksi_of (p_kind pd) g p) i.
Proof.
  intros W O. unfold get_points_coords.
  destruct (foldM_from (fun (st : list (list R) * pad) p => let! iota := g_coords g p in let! r := pad_coords (snd st) (p_space pd) iota in Ok (fst st ++ [fst r], snd r))
    (fun n st => same_element pd (snd st) /\ List.length (fst st) = n /\ forall p, (p < n)%nat -> List.length (nth p (fst st) []) = p_space pd /\
      forall i, (i < p_space pd)%nat -> nth i (nth p (fst st) []) 0 = pos pd (ksi_of (p_kind pd) g p) i) 0 (npoint g) ([], pd)) as ([xs q] & E & S & L & X).
  - split; [apply same_refl|]. split; [reflexivity|]. intros p Hp. lia.
  - intros n [xs q] Hn (S & L & X). cbn [fst snd] in *. rewrite g_coords_ok by lia. cbn [bind]. destruct S as (K & Sp & Xx & Ok_).
    unfold pad_coords. rewrite Ok_, O, Sp, Nat.eqb_refl, K, Xx. cbn [negb]. cbn [bind fst snd]. eexists. split; [reflexivity|]. cbn [fst snd].
    split; [repeat split; auto|]. split; [rewrite app_length; simpl; lia|]. intros p Hp.
    destruct W as (_ & _ & Lx & Fx). destruct (Nat.eq_dec p n) as [->|Np].
    + rewrite app_nth2, L, Nat.sub_diag by lia. cbn [nth]. split; [unfold mat_vec; rewrite map_length; auto|]. intros i Hi.
      rewrite interp_of'. unfold mat_vec. rewrite (nth_map_in _ _ _ []) by lia. unfold pos, node_x.
      rewrite Forall_forall in Fx. rewrite (dot_sum_n _ _ (kind_nnode (p_kind pd))) by (try apply interp_length; apply Fx, nth_In; lia).
      apply sum_n_ext. intros m Hm. ring.
    + rewrite app_nth1 by lia. apply X. lia.
  - exists xs, q. auto.
Qed.
Lemma points_coords_err pd g : p_ok pd = false -> (0 < npoint g)%nat -> exists msg, get_points_coords pd g = Err msg.
Proof.
  intros O H. unfold get_points_coords. destruct (npoint g) eqn:E; [lia|]. cbn [seq foldM]. rewrite g_coords_ok by lia. cbn [bind snd fst].
  unfold pad_coords. rewrite O. cbn [negb bind]. eexists. reflexivity.
Qed.

(** the interpolation matrix *)
Lemma interp_matrix_ok pd g : exists pp q, get_interp_matrix pd g = Ok (pp, q) /\ same_element pd q /\
  is_matrix (npoint g) (kind_nnode (p_kind pd)) pp /\
  forall p m, (p < npoint g)%nat -> (m < kind_nnode (p_kind pd))%nat -> ent pp p m = nth m (calc_interp (p_kind pd) (ksi_of (p_kind pd) g p)) 0.
Proof.
  unfold get_interp_matrix. set (nv := kind_nnode (p_kind pd)).
  destruct (foldM_from (fun (st : mat * pad) p => let! iota := g_coords g p in
      let q := with_interp (snd st) (calc_interp (p_kind (snd st)) iota) in
      let! pp := mat_sets (fst st) (map (fun j => (p, j, vat (p_interp q) j)) (seq 0 nv)) in Ok (pp, q))
    (fun n st => same_element pd (snd st) /\ is_matrix (npoint g) nv (fst st) /\
      forall p m, (p < n)%nat -> (m < nv)%nat -> ent (fst st) p m = nth m (calc_interp (p_kind pd) (ksi_of (p_kind pd) g p)) 0)
    0 (npoint g) (zeros (npoint g) nv, pd)) as ([pp q] & E & S & M & V).
  - split; [apply same_refl|]. split; [apply is_matrix_zeros|]. intros p m Hp. lia.
  - intros n [pp q] Hn (S & M & V). cbn [fst snd] in *. rewrite g_coords_ok by lia. cbn [bind]. cbv zeta.
    replace (p_kind q) with (p_kind pd) by (destruct S; congruence). rewrite interp_of'. cbn [p_interp with_interp].
    set (N := calc_interp (p_kind pd) (ksi_of (p_kind pd) g n)).
    destruct (mat_sets_ok (npoint g) nv (fun _ j => vat N j) (map (fun j => (n, j, vat N j)) (seq 0 nv)) pp M) as (pp' & E & M' & V').
    { intros e He. apply in_map_iff in He as (j & <- & Hj). apply in_seq in Hj. cbn [fst snd]. repeat split; lia. }
    unfold with_interp. cbn [p_interp]. rewrite E. cbn [bind]. eexists. split; [reflexivity|]. cbn [fst snd]. split; [unfold same_element in *; cbn in *; intuition congruence|].
    split; [auto|]. intros p m Hp Hm. destruct (V' p m) as (V1 & V2). destruct (Nat.eq_dec p n) as [->|Np].
    + rewrite V1; [reflexivity|]. rewrite map_map. apply in_map_iff. exists m. split; [reflexivity|apply in_seq; lia].
    + rewrite V2; [apply V; lia|]. rewrite map_map. intros I. apply in_map_iff in I as (j & Ej & _). cbn [fst] in Ej. congruence.
  - exists pp, q. auto.
Qed.

(** the loops of the extrapolation matrix *)
Lemma prod_flat {B} (F : nat -> nat -> list B) n m :
  flat_map (fun ij => F (fst ij) (snd ij)) (list_prod (seq 0 n) (seq 0 m)) = flat_map (fun i => flat_map (fun j => F i j) (seq 0 m)) (seq 0 n).
Proof.
  generalize (seq 0 n). induction l as [|i l IH]; [reflexivity|]. cbn [list_prod flat_map]. rewrite flat_map_app, IH. f_equal.
  generalize (seq 0 m). induction l0 as [|j l0 IH0]; [reflexivity|]. cbn [map flat_map fst snd]. now rewrite IH0.
Qed.
Lemma msum_grid nv np (F : nat -> nat -> list R) k l : (k < nv)%nat -> (l < np)%nat ->
  msum k l (flat_map (fun ij => map (fun x => (fst ij, snd ij, x)) (F (fst ij) (snd ij))) (list_prod (seq 0 nv) (seq 0 np))) = sum (F k l).
Proof.
  intros Hk Hl. rewrite (prod_flat (fun i j => map (fun x => (i, j, x)) (F i j))). unfold msum. rewrite map_flat_map, sum_flat_map'.
  change (sum_n nv (fun i => sum (map (fun e : nat * nat * R => if ((fst (fst e) =? k) && (snd (fst e) =? l))%nat then snd e else 0) (flat_map (fun j => map (fun x => (i, j, x)) (F i j)) (seq 0 np)))) = sum (F k l)).
  assert (S : forall i, sum (map (fun e : nat * nat * R => if ((fst (fst e) =? k) && (snd (fst e) =? l))%nat then snd e else 0) (flat_map (fun j => map (fun x => (i, j, x)) (F i j)) (seq 0 np))) =
    sum_n np (fun j => if ((i =? k) && (j =? l))%nat then sum (F i j) else 0)).
  { intros i. rewrite map_flat_map, sum_flat_map'. unfold sum_n. f_equal. apply map_ext. intros j. rewrite map_map. cbn [fst snd].
    destruct ((i =? k) && (j =? l))%nat; [now rewrite map_id|]. induction (F i j); cbn [map sum]; lra. }
  rewrite (sum_n_single nv _ k Hk).
  - rewrite S. rewrite (sum_n_single np _ l Hl); [now rewrite !Nat.eqb_refl|]. intros j _ N. apply Nat.eqb_neq in N. now rewrite N, andb_false_r.
  - intros i _ N. rewrite S. apply sum_n_zero. intros j _. apply Nat.eqb_neq in N. now rewrite N.
Qed.
Lemma adds_grid nv np (F : nat -> nat -> list R) a : is_matrix nv np a ->
  exists a', foldM (fun (ee : mat) (ij : nat * nat) => let '(i, j) := ij in mat_adds ee (map (fun x => (i, j, x)) (F i j))) (list_prod (seq 0 nv) (seq 0 np)) a = Ok a' /\
    is_matrix nv np a' /\ forall k l, (k < nv)%nat -> (l < np)%nat -> ent a' k l = ent a k l + sum (F k l).
Proof.
  intros M. destruct (mat_adds_ok nv np (flat_map (fun ij => map (fun x => (fst ij, snd ij, x)) (F (fst ij) (snd ij))) (list_prod (seq 0 nv) (seq 0 np))) a M) as (a' & E & M' & V).
  { intros e He. apply in_flat_map in He as ([i j] & Hij & He). apply in_prod_iff in Hij as [Hi Hj]. apply in_seq in Hi. apply in_seq in Hj.
    apply in_map_iff in He as (x & <- & _). cbn [fst snd]. lia. }
  exists a'. split; [|split; [auto|]].
  - rewrite <- E. unfold mat_adds. rewrite BlockProof6.foldM_flat_map. apply BlockProof6.foldM_ext. intros s [i j] _. reflexivity.
  - intros k l Hk Hl. rewrite V, msum_grid; auto.
Qed.
Definition hx (geo : nat) (ksi : nat -> R) (b : list R) : R := sum_n geo (fun k => ksi k * vat b k) + vat b geo.
Lemma extrap_aa_ok geo g bbt np : np = npoint g -> List.length bbt = np -> (geo <= 3)%nat ->
  exists aa, extrap_aa geo g bbt np = Ok aa /\ is_matrix np np aa /\
    forall i j, (i < np)%nat -> (j < np)%nat -> ent aa i j = delta i j - hx geo (pt g i) (nth j bbt []).
Proof.
  intros Hn L G3. unfold extrap_aa.
  destruct (foldM_list (fun (aa : mat) (ij : nat * nat) => let '(i, j) := ij in
      let! iota := g_coords g i in let! b := get bbt j in
      let sum := fold_left (fun sum k => sum + vat iota k * vat b k) (seq 0 geo) 0 in
      let sum := sum + 1 * vat b geo in
      let d := if (i =? j)%nat then 1 else 0 in mat_set_at aa i j (d - sum))
    (fun done aa => is_matrix np np aa /\ forall i j, In (i, j) done -> ent aa i j = delta i j - hx geo (pt g i) (nth j bbt []))
    (list_prod (seq 0 np) (seq 0 np)) [] (zeros np np)) as (aa & E & M & V).
  - split; [apply is_matrix_zeros|]. intros i j [].
  - intros pre [i j] post s Es (M & V). assert (I : In (i, j) (list_prod (seq 0 np) (seq 0 np))) by (simpl in Es; rewrite Es; apply in_elt).
    apply in_prod_iff in I as [Hi Hj]. apply in_seq in Hi. apply in_seq in Hj. rewrite g_coords_ok by lia. cbn [bind].
    rewrite (get_ok bbt j []) by lia. cbn [bind]. cbv zeta.
    match goal with |- context [mat_set_at s i j ?x] => set (v := x) end.
    destruct (mat_set_at_ok np np s i j v M ltac:(lia) ltac:(lia)) as (s' & Es' & M' & V'). exists s'. split; [exact Es'|]. split; [auto|].
    intros k l Hkl. rewrite V'. destruct (Nat.eqb_spec i k) as [->|Ni]; cbn [andb].
    + destruct (Nat.eqb_spec j l) as [->|Nj]; cbn [andb].
      * unfold v, hx, delta. rewrite (fold_sum_n (fun k0 => vat (iota4 g k) k0 * vat (nth l bbt []) k0)). rewrite Rmult_1_l. f_equal. f_equal.
        apply sum_n_ext. intros m Hm. f_equal. assert (m = 0 \/ m = 1 \/ m = 2)%nat as [-> | [-> | ->]] by lia; reflexivity.
      * apply V. apply in_app_or in Hkl as [I|[I|[]]]; [auto|congruence].
    + apply V. apply in_app_or in Hkl as [I|[I|[]]]; [auto|congruence].
  - exists aa. split; [exact E|]. split; [auto|]. intros i j Hi Hj. apply V. simpl. apply in_prod; apply in_seq; lia.
Qed.
Lemma extrap_xi_ok k bbt np ee : List.length bbt = np -> is_matrix (kind_nnode k) np ee ->
  exists e, extrap_xi k bbt np ee = Ok e /\ is_matrix (kind_nnode k) np e /\
    forall i j, (i < kind_nnode k)%nat -> (j < np)%nat -> ent e i j = ent ee i j + hx (kind_ndim k) (vat (ref_coords k i)) (nth j bbt []).
Proof.
  intros L M. unfold extrap_xi.
  destruct (adds_grid (kind_nnode k) np (fun i j => map (fun l => vat (ref_coords k i) l * vat (nth j bbt []) l) (seq 0 (kind_ndim k)) ++ [1 * vat (nth j bbt []) (kind_ndim k)]) ee M) as (e & E & M' & V).
  exists e. split; [|split; [auto|]].
  - rewrite <- E. apply BlockProof6.foldM_ext. intros s [i j] I. apply in_prod_iff in I as [Hi Hj]. apply in_seq in Hj.
    rewrite (get_ok bbt j []) by lia. cbn [bind]. rewrite map_app, map_map. reflexivity.
  - intros i j Hi Hj. rewrite (V i j Hi Hj). unfold hx. rewrite PadProof.sum_app. cbn [sum]. unfold sum_n. lra.
Qed.
Lemma extrap_corr_ok nv np ppi aa ee : is_matrix nv np ee ->
  exists e, extrap_corr nv np ppi aa ee = Ok e /\ is_matrix nv np e /\
    forall i j, (i < nv)%nat -> (j < np)%nat -> ent e i j = ent ee i j + sum_n np (fun l => ent ppi i l * ent aa l j).
Proof.
  intros M. unfold extrap_corr. destruct (adds_grid nv np (fun i j => map (fun l => ent ppi i l * ent aa l j) (seq 0 np)) ee M) as (e & E & M' & V).
  exists e. split; [|split; [auto|]].
  - rewrite <- E. apply BlockProof6.foldM_ext. intros s [i j] I. rewrite map_map. reflexivity.
  - intros i j Hi Hj. now rewrite V.
Qed.
