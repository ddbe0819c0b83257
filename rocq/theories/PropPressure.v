(* C99: uniform pressure on the boundary is in equilibrium *)
From Coquelicot Require Import Coquelicot.
From Coq Require Import String Reals List Lia Lra Bool Arith ZArith Permutation.
From Verif Require Import Base BaseFacts Kind MeshModel GraphModel MeshQuerySpec TopoModel TopoSpec TopoFeat3 TopoFinal
  ShapesModel ShapesSpec GeomModel PadModel PadSpec GaussModel GaussSpec IntegModel IntegSpec NormalSpec NormalModel
  BalanceSpec BalanceProof BalanceProof2 BalanceProof3 BalanceProof4 PropBalance PressureSpec PressureProof PressureProof2 PressureProof3 PressureProof4 PressureProof5.
Import ListNotations.
Local Open Scope list_scope.
Local Open Scope R_scope.

Section Glue.
Variables (leb : R -> R -> bool) (shuffle : emap -> emap).
Hypothesis Sh : forall l, Permutation (shuffle l) l.
Lemma line_loads (m : mesh R) ft pr th n A b b' q : consistent m -> MeshModel.ndim m = 2%nat -> features_new leb shuffle m false = Ok ft ->
  (forall k ed, In (k, ed) (ft_edges ft) -> loaded m (e_kind ed) (e_points ed) pr th (n k) (A k) (b k) (b' k) (q k)) ->
  forall k ed, In (k, ed) (ft_edges ft) -> pad_of_side m (e_kind ed) (e_points ed) (a_pad (A k)) /\ a_axi (A k) = false /\ a_alpha (A k) = th /\
    gauss_new_sized CLin (n k) = Ok (a_gauss (A k)) /\ vec_02_nv_bry (A k) (b k) (pressure pr) = Ok (b' k, q k).
Proof.
  intros C D F S k ed I. destruct (S k ed I) as (P & Ax & Al & G & H). destruct (listed_sound leb shuffle Sh m ft C D F k ed I) as (Dk & _). rewrite D in Dk.
  repeat (split; auto). destruct (e_kind ed); try discriminate Dk; exact G.
Qed.
End Glue.

(** one edge: the forces add up to pressure times the edge turned by 90 degrees (whatever the shape of the edge between its
    ends), their moments to pressure times half the difference of the squared distances; up to the rounding of the tables *)
Theorem C99_edge : forall A n pr b b' q, pad_wf (a_pad A) -> kind_ndim (p_kind (a_pad A)) = 1%nat -> p_space (a_pad A) = 2%nat -> a_axi A = false ->
  gauss_new_sized CLin n = Ok (a_gauss A) -> vec_02_nv_bry A b (pressure pr) = Ok (b', q) ->
  let x i m := node_x (a_pad A) i m in let p := pr * a_alpha A in
  ((a_nnode A <= 2 * n + 1)%nat ->
    Rabs (net_force A b b' 0 - p * (x 1%nat 0%nat - x 1%nat 1%nat)) <= 26 * table_eps * Rabs p * extent (a_pad A) 1 /\
    Rabs (net_force A b b' 1 - p * (x 0%nat 1%nat - x 0%nat 0%nat)) <= 26 * table_eps * Rabs p * extent (a_pad A) 0) /\
  ((a_nnode A <= n + 1)%nat ->
    Rabs (net_moment A b b' - p * ((x 0%nat 1%nat ^ 2 + x 1%nat 1%nat ^ 2) / 2 - (x 0%nat 0%nat ^ 2 + x 1%nat 0%nat ^ 2) / 2))
    <= 260 * table_eps * Rabs p * (extent (a_pad A) 0 ^ 2 + extent (a_pad A) 1 ^ 2)).
Proof.
  intros A n pr b b' q W D S Ax G H x p. split.
  - intros L. pose proof (edge_force A n pr b b' q W D S Ax G H 0 L ltac:(lia)) as F0. pose proof (edge_force A n pr b b' q W D S Ax G H 1 L ltac:(lia)) as F1.
    unfold net_force. rewrite S. unfold component in F0, F1. fold p in F0, F1. cbn [Nat.sub] in *. split; [|exact F1].
    replace (p * (x 1%nat 0%nat - x 1%nat 1%nat)) with (p * - (node_x (a_pad A) 1 1 - node_x (a_pad A) 1 0)) by (unfold x; ring). exact F0.
  - intros L. exact (edge_torque A n pr b b' q W D S Ax G H L).
Qed.
Print Assumptions C99_edge.

(** one face: pressure times area vector *)
Theorem C99_face : forall A n pr b b' q i, pad_wf (a_pad A) -> p_kind (a_pad A) = Tri3 \/ p_kind (a_pad A) = Qua4 -> p_space (a_pad A) = 3%nat -> a_axi A = false ->
  gauss_new_sized (kind_class (p_kind (a_pad A))) n = Ok (a_gauss A) -> vec_02_nv_bry A b (pressure pr) = Ok (b', q) -> (i < 3)%nat ->
  let x i m := node_x (a_pad A) i m in let p := pr * a_alpha A in
  let from_to a c j := x j c - x j a in
  Rabs (net_force A b b' i - p * match p_kind (a_pad A) with
      | Tri3 => vector_product i (from_to 0%nat 1%nat) (from_to 0%nat 2%nat) / 2
      | _ => vector_product i (from_to 0%nat 2%nat) (from_to 1%nat 3%nat) / 2
      end) <= 2 * table_eps * Rabs p * (extent (a_pad A) (nxt i) * extent (a_pad A) (nxt (nxt i))).
Proof.
  intros A n pr b b' q i W Fl S Ax G H Hi x p from_to. pose proof (face_force A n pr b b' q W Fl S Ax G H i Hi) as B. fold p in B.
  match goal with |- Rabs (_ - p * ?y) <= _ => match type of B with Rabs (_ - p * ?y') <= _ => replace y with y'; [exact B|] end end.
  destruct Fl as [E | E]; rewrite E; unfold half_product, vector_product, from_to, x; destruct i as [|[|[|i]]]; try lia; cbn [nxt]; field.
Qed.
Print Assumptions C99_face.

(** the whole boundary *)
Theorem C99_force_2d : forall (leb : R -> R -> bool) (shuffle : emap -> emap), (forall l, Permutation (shuffle l) l) ->
  forall (m : mesh R) ft pr th n A b b' q, consistent m -> coords_complete m -> MeshModel.ndim m = 2%nat -> directed m -> features_new leb shuffle m false = Ok ft ->
  (forall k ed, In (k, ed) (ft_edges ft) -> loaded m (e_kind ed) (e_points ed) pr th (n k) (A k) (b k) (b' k) (q k)) ->
  ((forall k ed, In (k, ed) (ft_edges ft) -> (kind_nnode (e_kind ed) <= 2 * n k + 1)%nat) ->
   forall i, (i < 2)%nat ->
     Rabs (sum_over (fun ke => net_force (A (fst ke)) (b (fst ke)) (b' (fst ke)) i) (ft_edges ft))
     <= 26 * table_eps * Rabs (pr * th) * sum_over (fun ke => extent (a_pad (A (fst ke))) (1 - i)) (ft_edges ft)) /\
  ((forall k ed, In (k, ed) (ft_edges ft) -> (kind_nnode (e_kind ed) <= n k + 1)%nat) ->
     Rabs (sum_over (fun ke => net_moment (A (fst ke)) (b (fst ke)) (b' (fst ke))) (ft_edges ft))
     <= 260 * table_eps * Rabs (pr * th) * sum_over (fun ke => extent (a_pad (A (fst ke))) 0 ^ 2 + extent (a_pad (A (fst ke))) 1 ^ 2) (ft_edges ft)).
Proof.
  intros leb shuffle Sh m ft pr th n A b b' q C K D O F S. pose proof (line_loads leb shuffle Sh m ft pr th n A b b' q C D F S) as L. split.
  - intros N i Hi. exact (force_sum leb shuffle Sh m ft pr th A n b b' q C K D O F L i N Hi).
  - intros N. exact (moment_sum leb shuffle Sh m ft pr th A n b b' q C K D O F L N).
Qed.
Print Assumptions C99_force_2d.

Theorem C99_force_3d : forall (leb : R -> R -> bool) (shuffle : emap -> emap) (m : mesh R) ft pr th n A b b' q,
  consistent m -> coords_complete m -> MeshModel.ndim m = 3%nat -> (forall c, In c (of_dim 3 m) -> c_kind c = Tet4 \/ c_kind c = Hex8) ->
  directed_faces m -> features_new leb shuffle m false = Ok ft ->
  (forall k fc, In (k, fc) (ft_faces ft) -> loaded m (f_kind fc) (f_points fc) pr th (n k) (A k) (b k) (b' k) (q k)) ->
  forall i, (i < 3)%nat ->
    Rabs (sum_over (fun kf => net_force (A (fst kf)) (b (fst kf)) (b' (fst kf)) i) (ft_faces ft))
    <= 2 * table_eps * Rabs (pr * th) * sum_over (fun kf => extent (a_pad (A (fst kf))) (nxt i) * extent (a_pad (A (fst kf))) (nxt (nxt i))) (ft_faces ft).
Proof.
  intros leb shuffle m ft pr th n A b b' q C K D L O F S i Hi. exact (force_sum_3d leb shuffle m ft pr th A n b b' q C K D L O F S i Hi).
Qed.
Print Assumptions C99_force_3d.

(** the moments about axis i: of one face they add up to pressure times the line integral of -|x|^2/2 along its circuit,
    over the whole boundary to zero *)
Theorem C99_face_moment : forall A n pr b b' q i, pad_wf (a_pad A) -> p_kind (a_pad A) = Tri3 \/ p_kind (a_pad A) = Qua4 -> p_space (a_pad A) = 3%nat -> a_axi A = false ->
  gauss_new_sized (kind_class (p_kind (a_pad A))) n = Ok (a_gauss A) -> vec_02_nv_bry A b (pressure pr) = Ok (b', q) -> (i < 3)%nat ->
  (p_kind (a_pad A) = Qua4 -> (4 <= n)%nat) ->
  let s := a_pad A in let p := pr * a_alpha A in
  Rabs (net_moment_3d A b b' i - p * round_moment i (map (fun m j => node_x s j m) (seq 0 (a_nnode A))))
  <= 6 * table_eps * Rabs p * (extent s i * (extent s (nxt i) ^ 2 + extent s (nxt (nxt i)) ^ 2)).
Proof. intros A n pr b b' q i W Fl S Ax G H Hi N s p. exact (face_moment A n pr b b' q W Fl S Ax G H i N Hi). Qed.
Print Assumptions C99_face_moment.

Theorem C99_moment_3d : forall (leb : R -> R -> bool) (shuffle : emap -> emap) (m : mesh R) ft pr th n A b b' q,
  consistent m -> coords_complete m -> MeshModel.ndim m = 3%nat -> (forall c, In c (of_dim 3 m) -> c_kind c = Tet4 \/ c_kind c = Hex8) ->
  directed_faces m -> features_new leb shuffle m false = Ok ft ->
  (forall k fc, In (k, fc) (ft_faces ft) -> loaded m (f_kind fc) (f_points fc) pr th (n k) (A k) (b k) (b' k) (q k)) ->
  (forall k fc, In (k, fc) (ft_faces ft) -> f_kind fc = Qua4 -> (4 <= n k)%nat) ->
  forall i, (i < 3)%nat ->
    Rabs (sum_over (fun kf => net_moment_3d (A (fst kf)) (b (fst kf)) (b' (fst kf)) i) (ft_faces ft))
    <= 6 * table_eps * Rabs (pr * th) * sum_over (fun kf => let s := a_pad (A (fst kf)) in extent s i * (extent s (nxt i) ^ 2 + extent s (nxt (nxt i)) ^ 2)) (ft_faces ft).
Proof.
  intros leb shuffle m ft pr th n A b b' q C K D L O F S N i Hi. exact (moment_sum_3d leb shuffle m ft pr th A n b b' q C K D L O F S i N Hi).
Qed.
Print Assumptions C99_moment_3d.

(** the loads exist for all meshes, with the default rules (which have enough points) *)
Theorem C99_loads_exist : forall (leb : R -> R -> bool) (shuffle : emap -> emap), (forall l, Permutation (shuffle l) l) ->
  forall (m : mesh R) ft pr, consistent m -> coords_complete m -> features_new leb shuffle m false = Ok ft ->
  (MeshModel.ndim m = 2%nat -> exists n A b b' q, forall k ed, In (k, ed) (ft_edges ft) ->
     loaded m (e_kind ed) (e_points ed) pr 1 (n k) (A k) (b k) (b' k) (q k) /\ a_gauss (A k) = gauss_new (e_kind ed) /\ (kind_nnode (e_kind ed) <= n k + 1)%nat) /\
  (MeshModel.ndim m = 3%nat -> (forall c, In c (of_dim 3 m) -> c_kind c = Tet4 \/ c_kind c = Hex8) ->
   exists n A b b' q, forall k fc, In (k, fc) (ft_faces ft) ->
     loaded m (f_kind fc) (f_points fc) pr 1 (n k) (A k) (b k) (b' k) (q k) /\ a_gauss (A k) = gauss_new (f_kind fc) /\ (f_kind fc = Qua4 -> (4 <= n k)%nat)).
Proof.
  intros leb shuffle Sh m ft pr C K F. split.
  - intros D. destruct (loads_2d leb shuffle Sh m ft pr C K D F) as (A & n & b & b' & q & H). exists n, A, b, b', q. intros k ed I.
    destruct (H k ed I) as ((P & Ax & Al & G & E) & Dg & N). destruct (listed_sound leb shuffle Sh m ft C D F k ed I) as (Dk & _). rewrite D in Dk.
    split; [|auto]. repeat (split; auto). destruct (e_kind ed); try discriminate Dk; exact G.
  - intros D L. destruct (loads_3d leb shuffle m ft pr C K D L F) as (A & n & b & b' & q & H). exists n, A, b, b', q. exact H.
Qed.
Print Assumptions C99_loads_exist.
Example C99_ex : (consistent halves /\ coords_complete halves /\ directed halves /\ (exists ft, features_new Rleb (fun l => l) halves false = Ok ft)) /\
  (consistent two_tets /\ coords_complete two_tets /\ directed_faces two_tets /\ (exists ft, features_new Rleb (fun l => l) two_tets false = Ok ft)) /\
  (forall c, In c (of_dim 3 two_tets) -> c_kind c = Tet4 \/ c_kind c = Hex8).
Proof.
  destruct C96_ex as (A1 & A2 & A3 & A4 & _). destruct C97_ex_volume as (B1 & B2 & B3 & B4 & _). repeat (split; auto).
  intros c [<-|[<-|[]]]; left; reflexivity.
Qed.
