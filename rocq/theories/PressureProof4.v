(* The loads exist: default rules, vectors of zeros *)
From Coquelicot Require Import Coquelicot.
From Coq Require Import String Reals List Lia Lra Bool Arith ZArith Permutation.
From Verif Require Import Base BaseFacts Kind MeshModel GraphModel MeshQuerySpec TopoModel TopoSpec TopoMaps TopoProof TopoFeat3 TopoFinal
  ShapesModel ShapesSpec PadModel PadSpec PadProof PadProof2 PadProof3 PadProof4 GaussModel GaussSpec GaussProof3 IntegModel IntegSpec PropInteg PropGauss
  NormalSpec NormalProof NormalProof2 NormalProof3 NormalModel NormalProof4 NormalProof5 PropNormal BalanceSpec BalanceProof BalanceProof2 BalanceProof3 BalanceProof4 PressureSpec PressureProof PressureProof2 PressureProof3.
Import ListNotations.
Local Open Scope list_scope.
Local Open Scope R_scope.

Lemma load_exists m kd ps pr : coords_complete m -> (MeshModel.ndim m = 2 \/ MeshModel.ndim m = 3)%nat -> sound_side m kd ps ->
  exists A b b' q, pad_of_side m kd ps (a_pad A) /\ a_axi A = false /\ a_alpha A = 1 /\ a_gauss A = gauss_new kd /\ gauss_new_sized (kind_class kd) (default_size kd) = Ok (a_gauss A) /\
    vec_02_nv_bry A b (pressure pr) = Ok (b', q).
Proof.
  intros K Dm Sd. destruct (side_exists m kd ps K Dm Sd) as (s & Hs). destruct (side_x m kd ps s K Dm Sd Hs) as (W & Ek & Es & _). destruct Sd as (Dk & _).
  set (A := args_new s (gauss_new kd)). exists A, (repeat 0 (a_nnode A * p_space s)).
  destruct (C67_vec_02_bry A (repeat 0 (a_nnode A * p_space s)) (pressure pr) W) as (T & _).
  destruct (proj2 (T (fun p un nn => ex_intro _ _ eq_refl))) as ((b' & q) & E).
  - split; [cbn; rewrite Es, Ek; lia|]. rewrite repeat_length. cbn. lia.
  - exists b', q. split; [exact Hs|]. split; [reflexivity|]. split; [reflexivity|]. split; [reflexivity|]. split; [apply C50_default|exact E].
Qed.

(* functions on the keys of a map *)
Lemma choose {K V X} (eqb : K -> K -> bool) (Heq : forall a b, eqb a b = true <-> a = b) (l : list (K * V)) (P : K -> V -> X -> Prop) (x0 : X) :
  NoDup (map fst l) -> (forall k v, In (k, v) l -> exists x, P k v x) -> exists f, forall k v, In (k, v) l -> P k v (f k).
Proof.
  induction l as [|[k v] l IH]; intros N H; [exists (fun _ => x0); intros k v []|]. inversion N as [|? ? Nk N']; subst.
  destruct (IH N' (fun k' v' I => H k' v' (or_intror I))) as (f & Hf). destruct (H k v (or_introl eq_refl)) as (x & Hx).
  exists (fun k' => if eqb k' k then x else f k'). intros k' v' [E | I].
  - injection E as <- <-. now rewrite (proj2 (Heq k k) eq_refl).
  - destruct (eqb k' k) eqn:E; [|now apply Hf]. apply Heq in E. subst k'. exfalso. apply Nk. apply in_map_iff. exists (k, v'). auto.
Qed.

Section Exist.
Variables (leb : R -> R -> bool) (shuffle : emap -> emap).
Hypothesis Sh : forall l, Permutation (shuffle l) l.
Lemma loads_2d m ft pr : consistent m -> coords_complete m -> MeshModel.ndim m = 2%nat -> features_new leb shuffle m false = Ok ft ->
  exists A n b b' q, forall k ed, In (k, ed) (ft_edges ft) ->
    (pad_of_side m (e_kind ed) (e_points ed) (a_pad (A k)) /\ a_axi (A k) = false /\ a_alpha (A k) = 1 /\
     gauss_new_sized CLin (n k) = Ok (a_gauss (A k)) /\ vec_02_nv_bry (A k) (b k) (pressure pr) = Ok (b' k, q k)) /\
    a_gauss (A k) = gauss_new (e_kind ed) /\ (kind_nnode (e_kind ed) <= n k + 1)%nat.
Proof.
  intros C K D F. destruct (edges_2d leb shuffle Sh m false ft C D F) as (ND & _).
  destruct (choose ekey_eqb ekey_eqb_eq (ft_edges ft) (fun k ed (x : args * nat * list R * list R * pad) => let '(A, n, b, b', q) := x in
    (pad_of_side m (e_kind ed) (e_points ed) (a_pad A) /\ a_axi A = false /\ a_alpha A = 1 /\
     gauss_new_sized CLin n = Ok (a_gauss A) /\ vec_02_nv_bry A b (pressure pr) = Ok (b', q)) /\ a_gauss A = gauss_new (e_kind ed) /\ (kind_nnode (e_kind ed) <= n + 1)%nat)
    (args_new (mkPad Lin2 0%nat [] [] [] [] [] [] false) (gauss_new Lin2), 0%nat, [], [], mkPad Lin2 0%nat [] [] [] [] [] [] false) ND) as (f & Hf).
  - intros k ed I. pose proof (listed_sound leb shuffle Sh m ft C D F k ed I) as Sd.
    destruct (load_exists m (e_kind ed) (e_points ed) pr K (or_introl D) Sd) as (A & b & b' & q & H1 & H2 & H3 & H4 & H5 & H6).
    destruct Sd as (Dk & _). rewrite D in Dk. assert (D1 : kind_ndim (e_kind ed) = 1%nat) by lia.
    exists (A, default_size (e_kind ed), b, b', q). split; [|split; [exact H4|destruct (e_kind ed); try discriminate D1; vm_compute; lia]].
    split; [exact H1|]. split; [exact H2|]. split; [exact H3|]. split; [|exact H6]. destruct (e_kind ed); try discriminate D1; exact H5.
  - exists (fun k => fst (fst (fst (fst (f k))))), (fun k => snd (fst (fst (fst (f k))))), (fun k => snd (fst (fst (f k)))), (fun k => snd (fst (f k))), (fun k => snd (f k)).
    intros k ed I. specialize (Hf k ed I). destruct (f k) as ((((A & n) & b) & b') & q). exact Hf.
Qed.
Lemma loads_3d m ft pr : consistent m -> coords_complete m -> MeshModel.ndim m = 3%nat -> (forall c, In c (of_dim 3 m) -> c_kind c = Tet4 \/ c_kind c = Hex8) ->
  features_new leb shuffle m false = Ok ft ->
  exists A n b b' q, forall k fc, In (k, fc) (ft_faces ft) ->
    (pad_of_side m (f_kind fc) (f_points fc) (a_pad (A k)) /\ a_axi (A k) = false /\ a_alpha (A k) = 1 /\
     gauss_new_sized (kind_class (f_kind fc)) (n k) = Ok (a_gauss (A k)) /\ vec_02_nv_bry (A k) (b k) (pressure pr) = Ok (b' k, q k)) /\ a_gauss (A k) = gauss_new (f_kind fc) /\ (f_kind fc = Qua4 -> (4 <= n k)%nat).
Proof.
  intros C K D L F. destruct (faces_3d leb shuffle m false ft C D F) as (ND & _).
  destruct (choose fkey_eqb fkey_eqb_eq (ft_faces ft) (fun k fc (x : args * nat * list R * list R * pad) => let '(A, n, b, b', q) := x in
    (pad_of_side m (f_kind fc) (f_points fc) (a_pad A) /\ a_axi A = false /\ a_alpha A = 1 /\
     gauss_new_sized (kind_class (f_kind fc)) n = Ok (a_gauss A) /\ vec_02_nv_bry A b (pressure pr) = Ok (b', q)) /\ a_gauss A = gauss_new (f_kind fc) /\ (f_kind fc = Qua4 -> (4 <= n)%nat))
    (args_new (mkPad Lin2 0%nat [] [] [] [] [] [] false) (gauss_new Lin2), 0%nat, [], [], mkPad Lin2 0%nat [] [] [] [] [] [] false) ND) as (f & Hf).
  - intros k fc I. destruct (listed_faces_sound leb shuffle m ft C D F L k fc I) as (Sd & _).
    destruct (load_exists m (f_kind fc) (f_points fc) pr K (or_intror D) Sd) as (A & b & b' & q & H1 & H2 & H3 & H4 & H5 & H6).
    exists (A, default_size (f_kind fc), b, b', q). assert (N : f_kind fc = Qua4 -> (4 <= default_size (f_kind fc))%nat) by (intros ->; vm_compute; lia). auto 10.
  - exists (fun k => fst (fst (fst (fst (f k))))), (fun k => snd (fst (fst (fst (f k))))), (fun k => snd (fst (fst (f k)))), (fun k => snd (fst (f k))), (fun k => snd (f k)).
    intros k fc I. specialize (Hf k fc I). destruct (f k) as ((((A & n) & b) & b') & q). exact Hf.
Qed.
End Exist.
