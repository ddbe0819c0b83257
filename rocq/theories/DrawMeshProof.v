(* Arrows and labels of the picture of a mesh. *)
From Coq Require Import String Reals QArith Qreals List Lia Lra Bool Arith ZArith Permutation.
From Verif Require Import Base BaseFacts Expr ExprProof ShapesData Kind MeshModel GraphModel MeshQuerySpec TopoModel TopoSpec TopoProof TopoFeat3 TopoFeat6 TopoFinal
  ShapesModel ShapesSpec ShapesProof ShapesShared GeomModel GeomProof PadModel PadSpec PadProof PadProof2 PadProof3 PadProof4 GaussSpec
  NormalModel NormalSpec NormalProof NormalProof2 NormalProof3 NormalProof4 NormalProof5 TriSurfModel DrawModel DrawSpec DrawProof DrawMeshModel DrawMeshSpec.
Import ListNotations.
Local Open Scope list_scope.
Local Open Scope R_scope.

Lemma deriv_trim k xi eta : (forall j, (j < kind_ndim k)%nat -> nth j xi 0 = nth j eta 0) -> calc_deriv k xi = calc_deriv k eta.
Proof.
  intros H. unfold calc_deriv. apply map_ext_in. intros r Hr. apply map_ext_in. intros e He. apply (eval_below (kind_ndim k)).
  - intros j Hj. unfold env. auto.
  - pose proof (kind_deriv_below k) as B. rewrite forallb_forall in B. specialize (B _ Hr). rewrite forallb_forall in B. auto.
Qed.
Lemma interp_trim k xi eta : (forall j, (j < kind_ndim k)%nat -> nth j xi 0 = nth j eta 0) -> calc_interp k xi = calc_interp k eta.
Proof.
  intros H. unfold calc_interp. apply map_ext_in. intros e He. apply (eval_below (kind_ndim k)).
  - intros j Hj. unfold env. auto.
  - pose proof (kind_interp_below k) as B. rewrite forallb_forall in B. auto.
Qed.
Lemma shown_ok n x : (n = 2 \/ n = 3)%nat -> List.length x = n -> shown n x = Ok x.
Proof.
  intros [-> | ->] L; destruct x as [|a [|b [|c [|d x]]]]; try discriminate L; reflexivity.
Qed.
Lemma mapM_seq {A} (f : nat -> res A) (d : A) (g : nat -> A) n : (forall i, (i < n)%nat -> f i = Ok (g i)) ->
  exists l, mapM f (seq 0 n) = Ok l /\ List.length l = n /\ forall i, (i < n)%nat -> nth i l d = g i.
Proof.
  intros H. exists (map g (seq 0 n)). split; [|split; [now rewrite map_length, seq_length|]].
  - assert (G : forall l, (forall i, In i l -> f i = Ok (g i)) -> mapM f l = Ok (map g l)).
    { induction l as [|i l IH]; intros E; [reflexivity|]. cbn [mapM map]. rewrite E by now left. cbn [bind]. rewrite IH by (intros; apply E; now right). reflexivity. }
    apply G. intros i Hi. apply in_seq in Hi. apply H. lia.
  - intros i Hi. rewrite (PadProof.nth_map_in _ _ _ 0%nat) by now rewrite seq_length. now rewrite seq_nth.
Qed.
Lemma tip_ok n s x u : (n = 2 \/ n = 3)%nat -> List.length x = n -> List.length u = n ->
  exists y, tip n s x u = Ok y /\ List.length y = n /\ forall i, (i < n)%nat -> nth i y 0 = nth i x 0 + s * nth i u 0.
Proof.
  intros Dn Lx Lu. unfold tip.
  destruct (mapM_seq (fun i => let! a := get x i in let! b := get u i in Ok (a + s * b)) 0 (fun i => nth i x 0 + s * nth i u 0) n) as (y & E & L & H).
  { intros i Hi. rewrite (get_ok _ _ 0) by lia. cbn [bind]. rewrite (get_ok _ _ 0) by lia. reflexivity. }
  exists y. rewrite E. cbn [bind]. rewrite shown_ok by auto. auto.
Qed.

(* the pad, the position and the normal vector of a side *)
Lemma side_at m kd ps ksi xi : coords_complete m -> (ndim m = 2 \/ ndim m = 3)%nat -> sound_side m kd ps ->
  List.length xi = kind_ndim kd -> (forall j, (j < kind_ndim kd)%nat -> nth j ksi 0 = nth j xi 0) ->
  exists sd mag un q x, pad_of_side m kd ps sd /\ element_of m (mkCell 0 0%Z kd ps) sd /\
    calc_normal_vector sd (ndim m) xi = Ok (mag, un, q) /\ normal_at m kd ps ksi = Ok (x, un) /\
    List.length x = ndim m /\ List.length un = ndim m /\ (forall i, (i < ndim m)%nat -> nth i x 0 = pos sd xi i) /\
    (0 < mag -> unit_vector (ndim m) un).
Proof.
  intros K Dm (Dk & L & R) Lx Hx.
  destruct (pad_new_ok (ndim m) kd Dm ltac:(lia)) as (p0 & E0 & W0 & K0 & S0 & _).
  destruct (mesh_set_pad_points m (mkCell 0 0%Z kd ps) p0 K L R W0 K0 S0) as (sd & Es & Hs & Os). cbn [c_points] in Es.
  pose proof Hs as (Ws & Ks & Ss & _). cbn [c_kind] in Ks.
  assert (Eq : forall n, calc_normal_vector sd n ksi = calc_normal_vector sd n xi).
  { intros n. unfold calc_normal_vector. rewrite Ks. rewrite (deriv_trim kd ksi xi) by auto. reflexivity. }
  destruct (normal_total sd xi Ws ltac:(rewrite Ks, Ss; lia)) as (mag & un & q & N). rewrite Ss in N.
  assert (X : same_element sd q /\ List.length un = ndim m /\ (0 < mag -> unit_vector (ndim m) un)).
  { destruct Dm as [D|D]; rewrite D in N, Ss |- *.
    - destruct (normal_2d sd 2 xi mag un q Ws Ss ltac:(congruence) N) as (_ & _ & Se & _ & Lu & _ & _ & _ & U & _).
      split; auto. split; auto. intros P. unfold unit_vector, sum_n. cbn [seq map sum]. rewrite <- (U P). ring.
    - destruct (normal_3d sd 3 xi mag un q Ws Ss ltac:(congruence) N) as (_ & _ & Se & _ & Lu & _ & _ & _ & _ & U & _). auto. }
  destruct X as (Se & Lu & U).
  assert (Oq : p_ok q = true /\ p_space q = ndim m /\ p_kind q = kd /\ p_xxt q = p_xxt sd).
  { unfold same_element in Se. destruct Se as (A & B & C & D). rewrite A, B, C, D. auto. }
  destruct Oq as (Oq & Sq & Kq & Xq).
  assert (Lxx : List.length (p_xxt sd) = ndim m) by (rewrite <- Ss; apply Ws).
  exists sd, mag, un, q, (mat_vec (p_xxt sd) (calc_interp kd xi)).
  split; [exists p0; auto|]. split; [exact Hs|]. split; [exact N|]. split; [|split; [|split; [exact Lu|split; [|exact U]]]].
  - unfold normal_at. rewrite E0. cbn [bind]. rewrite Es. cbn [bind]. rewrite Eq, N. cbn [bind fst snd].
    unfold pad_coords. rewrite Oq, Sq, Nat.eqb_refl. cbn [negb bind fst]. rewrite Kq, Xq, (interp_trim kd ksi xi) by auto. reflexivity.
  - rewrite mat_vec_length. exact Lxx.
  - intros i Hi. unfold mat_vec. rewrite (PadProof.nth_map_in _ _ _ []) by lia. rewrite pos_dot by (auto; lia). rewrite Ks. reflexivity.
Qed.

Lemma draw_arrow_ok m kd ps ksi xi s : coords_complete m -> (ndim m = 2 \/ ndim m = 3)%nat -> sound_side m kd ps ->
  List.length xi = kind_ndim kd -> (forall j, (j < kind_ndim kd)%nat -> nth j ksi 0 = nth j xi 0) ->
  exists sd mag un q ar, pad_of_side m kd ps sd /\ element_of m (mkCell 0 0%Z kd ps) sd /\ calc_normal_vector sd (ndim m) xi = Ok (mag, un, q) /\
    (0 < mag -> unit_vector (ndim m) un) /\ draw_arrow m kd ps ksi s = Ok ar /\ arrow_at sd xi s un ar.
Proof.
  intros K Dm Sd Lx Hx. destruct (side_at m kd ps ksi xi K Dm Sd Lx Hx) as (sd & mag & un & q & x & Pd & El & N & E & L & Lu & X & U).
  destruct (tip_ok (ndim m) s x un Dm L Lu) as (y & Ey & Ly & Y).
  exists sd, mag, un, q, (x, y). do 4 (split; [assumption|]). pose proof El as (_ & _ & Ss & _). split.
  - unfold draw_arrow. rewrite E. cbn [bind fst snd]. rewrite (shown_ok _ x) by auto. cbn [bind]. rewrite Ey. reflexivity.
  - unfold arrow_at. cbn [fst snd]. rewrite Ss. do 3 (split; [assumption|]). intros i Hi. rewrite Y, X by auto. auto.
Qed.
