(* Two squares and two cubes that fit together exactly. *)
From Coq Require Import String Reals List Lia Lra Bool Arith ZArith Permutation Sorted.
From Verif Require Import Base BaseFacts Kind GraphModel MeshModel MeshQuerySpec TopoModel TopoSpec TopoMaps TopoProof TopoFeat3 TopoFinal GeomModel GeomSpec GeomProof GridModel GridSpec GridProof SearchModel SearchSpec SearchProof SearchProof2
  JoinModel JoinSpec JoinProof JoinProof2 JoinProof3 PropJoin Expr ShapesModel ShapesSpec PadModel PadSpec PadProof PadProof2 PadProof3 BlockModel BlockSpec BlockProof BlockProof2 BlockProof3 BlockProof10 PropBlock StructModel StructSpec StructProof StructProof4 RingSpec RingProof2 BlocksSpec BlocksProof BlocksProof2 BlocksProof3 BlocksProof4 BlocksProof5 BlocksProof6 BlocksProof7 BlocksProof8 BlocksProof9 ExactSpec ExactProof DiskModel DiskSpec DiskProof DiskProof2 DiskProof3 ShapesProof DiskProof4 PosSpec ExactProof2 StructProof6 DiskProof5 DiskProof6 DiskProof7 DiskProof8 DiskProof9 DiskProof10 DiskProof11.
Import ListNotations.
Local Open Scope list_scope.
Local Open Scope R_scope.

Definition halves (z : list Z) : list R := map (fun z => IZR z / 2) z.
Lemma halves_inj z z' : halves z = halves z' -> z = z'.
Proof.
  revert z'. induction z as [|a z IH]; intros [|b z'] E; try discriminate E; [reflexivity|]. cbn in E. injection E as E0 E1. f_equal; [|apply IH; exact E1]. apply eq_IZR. lra.
Qed.
Lemma halves_far nd e z z' : (nd = 2 \/ nd = 3)%nat -> List.length z = nd -> List.length z' = nd -> e < / 2 -> halves z = halves z' \/ e < GeomSpec.euclid (halves z) (halves z').
Proof.
  intros Hnd L L' He. destruct (list_eq_dec Z.eq_dec z z') as [->|N]; [left; reflexivity|right].
  assert (exists a, (a < 3)%nat /\ nth a z 0%Z <> nth a z' 0%Z) as (a & La & Na).
  { destruct (Z.eq_dec (nth 0 z 0%Z) (nth 0 z' 0%Z)) as [E0|E0]; [|exists 0%nat; auto]. destruct (Z.eq_dec (nth 1 z 0%Z) (nth 1 z' 0%Z)) as [E1|E1]; [|exists 1%nat; auto].
    destruct (Z.eq_dec (nth 2 z 0%Z) (nth 2 z' 0%Z)) as [E2|E2]; [|exists 2%nat; auto]. exfalso. apply N. apply (nth_ext _ _ 0%Z 0%Z); [congruence|]. intros i Li. assert (Li3 : (i < 3)%nat) by lia. destruct i as [|[|[|i]]]; [exact E0|exact E1|exact E2|lia]. }
  eapply Rlt_le_trans; [exact He|]. eapply Rle_trans; [|apply (coord_euclid a); unfold halves; rewrite ?map_length; [congruence|exact La|lia]].
  assert (Nh : forall l, nth a (halves l) 0 = IZR (nth a l 0%Z) / 2). { intros l. unfold halves. pose proof (map_nth (fun z => IZR z / 2) l 0%Z a) as M. cbv beta in M. rewrite <- M. f_equal. lra. }
  rewrite !Nh. replace (IZR (nth a z 0%Z) / 2 - IZR (nth a z' 0%Z) / 2) with (IZR (nth a z 0%Z - nth a z' 0%Z) / 2) by (rewrite minus_IZR; lra).
  set (u := (nth a z 0 - nth a z' 0)%Z). assert (U : (u <= -1 \/ 1 <= u)%Z) by (unfold u; lia). destruct U as [U|U]; apply IZR_le in U; [rewrite Rabs_left by lra|rewrite Rabs_right by lra]; lra.
Qed.
(* the places in halves of the unit *)
Definition spots (m : Z) (L : list nat) : list Z :=
  match L with [] => [] | i :: r => (if (m =? 7)%Z then 2 * Z.of_nat i else 2 + Z.of_nat i)%Z :: map (fun j => (2 * Z.of_nat j)%Z) r end.
Lemma spots_inj m L L' : spots m L = spots m L' -> L = L'.
Proof.
  destruct L as [|i L], L' as [|i' L']; intros E; try discriminate E; [reflexivity|]. cbn [spots] in E. pose proof (f_equal (hd 0%Z) E) as E0. pose proof (f_equal (@tl Z) E) as E1. cbn [hd tl] in E0, E1. f_equal; [destruct (m =? 7)%Z; lia|]. clear E E0.
  revert L' E1. induction L as [|a L IH]; intros [|b L'] E1; try discriminate E1; [reflexivity|]. cbn [map] in E1. pose proof (f_equal (hd 0%Z) E1) as E2. pose proof (f_equal (@tl Z) E1) as E3. cbn [hd tl] in E2, E3. f_equal; [lia|apply IH; exact E3].
Qed.
Lemma spots_len m L : List.length (spots m L) = List.length L.
Proof. destruct L; cbn [spots List.length]; rewrite ?map_length; reflexivity. Qed.
Ltac lat := match goal with |- context [lattice ?t ?i ?k] => let L := eval vm_compute in (lattice t i k) in change (lattice t i k) with L end.
Lemma square_at g idx k y : In g [square_1; square_2] -> is_node 2 Qua4 g idx k y -> y = halves (spots (g_marker g) (lattice Qua4 idx k)) /\ List.length idx = 2%nat.
Proof.
  intros Ig (Ix & Hk & Ly & At). change (kind_nnode Qua4) with 4%nat in Hk.
  assert (Er : y = region_node 2 g Qua4 idx k) by (destruct Ig as [<-|[<-|[]]]; exact At). rewrite Er. clear Er At Ly.
  unfold in_region, divs in Ix. destruct Ig as [<-|[<-|[]]]; cbn [g_weights square_1 square_2 map List.length] in Ix; inversion Ix as [|i0 ? ? ? I0 Ix1]; subst; inversion Ix1 as [|i1 ? ? ? I1 Ix2]; subst; inversion Ix2; subst; (split; [|reflexivity]).
  - assert (i0 = 0%nat) by lia. assert (i1 = 0%nat) by lia. subst. rewrite square_nodes by exact Hk. do 4 (destruct k as [|k]; [lat; unfold halves, spots; cbn; leq|]). lia.
  - assert (i1 = 0%nat) by lia. subst. unfold region_node, region_map, spread, blend, region_ksi. cbn [g_weights g_nodes square_2 List.length seq map linear_kind corners Nat.eqb].
    assert (Ei : (i0 = 0 \/ i0 = 1)%nat) by lia. destruct Ei as [-> | ->]; do 4 (destruct k as [|k]; [lat; rewrite !ref_qua4 by lia; unfold cut, stretch, halves, spots; cbn; leq|]); lia.
Qed.
Lemma cube_at_node g idx k y : In g [cube_1; cube_2] -> is_node 3 Hex8 g idx k y -> y = halves (spots (g_marker g) (lattice Hex8 idx k)) /\ List.length idx = 3%nat.
Proof.
  intros Ig (Ix & Hk & Ly & At). change (kind_nnode Hex8) with 8%nat in Hk.
  assert (Er : y = region_node 3 g Hex8 idx k) by (destruct Ig as [<-|[<-|[]]]; exact At). rewrite Er. clear Er At Ly.
  unfold in_region, divs in Ix. destruct Ig as [<-|[<-|[]]]; cbn [g_weights cube_1 cube_2 map List.length] in Ix; inversion Ix as [|i0 ? ? ? I0 Ix1]; subst; inversion Ix1 as [|i1 ? ? ? I1 Ix2]; subst; inversion Ix2 as [|i2 ? ? ? I2 Ix3]; subst; inversion Ix3; subst; (split; [|reflexivity]).
  - assert (i0 = 0%nat) by lia. assert (i1 = 0%nat) by lia. assert (i2 = 0%nat) by lia. subst. rewrite cube_1_nodes by exact Hk. do 8 (destruct k as [|k]; [lat; unfold halves, spots; cbn; leq|]). lia.
  - assert (i1 = 0%nat) by lia. assert (i2 = 0%nat) by lia. subst. assert (K : region_ksi cube_2 Hex8 [i0; 0; 0]%nat k = [(nth 0 (ref_coords Hex8 k) 0 + (if (i0 =? 0)%nat then -1 else 1)) / 2; nth 1 (ref_coords Hex8 k) 0; nth 2 (ref_coords Hex8 k) 0]).
    { unfold region_ksi. cbn [g_weights cube_2 List.length seq map]. rewrite ref_hex8 by exact Hk. assert (Ei : (i0 = 0 \/ i0 = 1)%nat) by lia. destruct Ei as [-> | ->]; do 8 (destruct k as [|k]; [unfold cut, stretch; cbn; leq|]); lia. }
    unfold region_node, region_map, spread, blend. rewrite K. clear K. cbn [g_nodes cube_2 List.length seq map linear_kind corners Nat.eqb]. rewrite !ref_hex8 by lia.
    assert (Ei : (i0 = 0 \/ i0 = 1)%nat) by lia. destruct Ei as [-> | ->]; do 8 (destruct k as [|k]; [lat; unfold halves, spots; cbn; leq|]); lia.
Qed.

Section Fit.
Variables (nd : nat) (target : geokind) (g1 g2 : region).
Hypothesis Hnd : (nd = 2 \/ nd = 3)%nat.
Hypothesis At : forall g idx k y, In g [g1; g2] -> is_node nd target g idx k y -> y = halves (spots (g_marker g) (lattice target idx k)) /\ List.length idx = nd.
Lemma fit_separated : separated nd (tolR nd) target [g1; g2].
Proof.
  intros g g' idx k y idx' k' y' I I' N N'. destruct (At g idx k y I N) as (-> & L). destruct (At g' idx' k' y' I' N') as (-> & L').
  apply (halves_far nd); [exact Hnd|rewrite spots_len; unfold lattice; rewrite map_length, seq_length; assumption..|]. pose proof (tol_small nd Hnd). lra.
Qed.
Lemma fit_one_to_one : one_to_one nd target [g1; g2].
Proof.
  intros g idx k idx' k' y I N N'. destruct (At g idx k y I N) as (E & _). destruct (At g idx' k' y I N') as (E' & _). rewrite E in E'. apply halves_inj, spots_inj in E'. exact E'.
Qed.
(* the first block: one cell, the unit square (cube) *)
Hypothesis M1 : g_marker g1 = 7%Z.
Hypothesis D1 : divs g1 = repeat 1%nat nd.
Hypothesis Kt : target = lin nd.
Lemma one_cell idx : in_region g1 idx -> idx = repeat 0%nat nd.
Proof. unfold in_region. rewrite D1. clear. revert idx. induction nd as [|n IH]; intros idx I; inversion I; subst; [reflexivity|]. cbn [repeat]. f_equal; [lia|apply IH; assumption]. Qed.
Lemma one_in : in_region g1 (repeat 0%nat nd).
Proof. unfold in_region. rewrite D1. clear. induction nd as [|n IH]; constructor; [lia|exact IH]. Qed.
Lemma unit_cell a : (a < nd)%nat -> (forall k, (k < corners nd)%nat -> (nth a (lattice target (repeat 0%nat nd) k) 0 <= 1)%nat) /\ nth a (lattice target (repeat 0%nat nd) 0) 0%nat = 0%nat /\
  nth a (lattice target (repeat 0%nat nd) (if (nd =? 2)%nat then 2 else 6)%nat) 0%nat = 1%nat.
Proof.
  clear - Hnd Kt. intros Ha. rewrite Kt. unfold lin. destruct Hnd as [E|E]; rewrite E in *; cbn [Nat.eqb corners].
  - split; [|destruct a as [|[|a]]; [vm_compute; auto|vm_compute; auto|lia]]. intros k Hk. destruct a as [|[|a]]; [| |lia]; (do 4 (destruct k as [|k]; [vm_compute; lia|])); lia.
  - split; [|destruct a as [|[|[|a]]]; [vm_compute; auto|vm_compute; auto|vm_compute; auto|lia]]. intros k Hk. destruct a as [|[|[|a]]]; [| | |lia]; (do 8 (destruct k as [|k]; [vm_compute; lia|])); lia.
Qed.
Lemma unit_inj k k' : (k < corners nd)%nat -> (k' < corners nd)%nat -> lattice target (repeat 0%nat nd) k = lattice target (repeat 0%nat nd) k' -> k = k'.
Proof.
  clear - Hnd Kt. rewrite Kt. unfold lin. destruct Hnd as [E|E]; rewrite E in *; cbn [Nat.eqb corners]; intros Hk Hk'.
  - do 4 (destruct k as [|k]; [do 4 (destruct k' as [|k']; [vm_compute; intros X; first [reflexivity|discriminate X]|]); lia|]). lia.
  - do 8 (destruct k as [|k]; [do 8 (destruct k' as [|k']; [vm_compute; intros X; first [reflexivity|discriminate X]|]); lia|]). lia.
Qed.
Lemma nn : kind_nnode target = corners nd.
Proof. rewrite Kt. unfold lin. destruct Hnd as [E|E]; rewrite E; reflexivity. Qed.
Lemma at_unit idx k y a : is_node nd target g1 idx k y -> (a < nd)%nat -> nth a y 0 = INR (nth a (lattice target (repeat 0%nat nd) k) 0%nat).
Proof.
  intros N Ha. destruct (At g1 idx k y (or_introl eq_refl) N) as (-> & L). rewrite (one_cell idx (proj1 N)). rewrite M1.
  assert (LL : List.length (lattice target (repeat 0%nat nd) k) = nd) by (unfold lattice; rewrite map_length, seq_length, repeat_length; reflexivity).
  set (l := lattice target (repeat 0%nat nd) k) in *. assert (S : spots 7 l = map (fun j => (2 * Z.of_nat j)%Z) l) by (destruct l; reflexivity). rewrite S. unfold halves. rewrite map_map.
  rewrite (nth_indep _ 0 ((fun j => IZR (2 * Z.of_nat j) / 2) 0%nat)) by (rewrite map_length; lia). rewrite (map_nth (fun j => IZR (2 * Z.of_nat j) / 2) l 0%nat a). rewrite mult_IZR, INR_IZR_INZ. lra.
Qed.
Lemma fit_outermost s a k : (a < nd)%nat -> (k < corners nd)%nat -> (forall k', (k' < corners nd)%nat -> s * INR (nth a (lattice target (repeat 0%nat nd) k) 0%nat) <= s * INR (nth a (lattice target (repeat 0%nat nd) k') 0%nat)) -> outermost nd target [g1] s a.
Proof.
  intros Ha Hk H. exists 0%nat, g1, (repeat 0%nat nd), k. split.
  - split; [reflexivity|]. split; [apply one_in|]. split; [exact Hk|]. intros i' g' idx' k' y Eg Hk' N N'. destruct i' as [|i']; [|destruct i'; discriminate Eg]. cbn in Eg. injection Eg as <-. split; [reflexivity|].
    pose proof (one_cell idx' (proj1 N')) as E. split; [exact E|]. destruct (At g1 _ _ _ (or_introl eq_refl) N) as (Y & _). destruct (At g1 _ _ _ (or_introl eq_refl) N') as (Y' & _). rewrite Y in Y'. apply halves_inj, spots_inj in Y'. rewrite E in Y'. symmetry. apply unit_inj; assumption.
  - intros y g' idx' k' y' N [<-|[]] N'. rewrite (at_unit _ _ _ a N Ha), (at_unit _ _ _ a N' Ha). apply H. rewrite <- nn. apply N'.
Qed.
Lemma fit_enclosing : enclosing nd target [g1; g2].
Proof.
  intros n a Hn Ha. cbn [List.length] in Hn. assert (E : n = 1%nat) by lia. subst n. cbn [firstn]. destruct (unit_cell a Ha) as (B & Z & O). set (k1 := if (nd =? 2)%nat then 2%nat else 6%nat) in *.
  assert (H0 : (0 < corners nd)%nat) by (destruct Hnd as [E|E]; rewrite E; cbn; lia). assert (H1 : (k1 < corners nd)%nat) by (unfold k1; destruct Hnd as [E|E]; rewrite E; cbn; lia).
  assert (BR : forall k', (k' < corners nd)%nat -> 0 <= INR (nth a (lattice target (repeat 0%nat nd) k') 0%nat) <= 1) by (intros k' Hk'; split; [apply pos_INR|change 1 with (INR 1); apply le_INR, B, Hk']).
  split; [apply (fit_outermost 1 a 0); try assumption; intros k' Hk'; rewrite Z; cbn [INR]; specialize (BR k' Hk'); lra|]. split; [apply (fit_outermost (-1) a k1); try assumption; intros k' Hk'; rewrite O; cbn [INR]; specialize (BR k' Hk'); lra|].
  exists g1, (repeat 0%nat nd), 0%nat, g1, (repeat 0%nat nd), k1. do 2 (split; [left; reflexivity|]). do 2 (split; [apply one_in|]). rewrite nn. do 2 (split; [assumption|]). intros y y' N N'. rewrite (at_unit _ _ _ a N Ha), (at_unit _ _ _ a N' Ha), Z, O. cbn [INR]. lra.
Qed.
End Fit.
