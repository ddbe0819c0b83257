(* Features of joined meshes *)
From Coq Require Import String Reals List Arith Bool Lia Lra ZArith Permutation Sorted.
From Verif Require Import Base BaseFacts Kind MeshModel GraphModel MeshQuerySpec MeshQueryProof TopoModel TopoSpec TopoMaps TopoProof TopoFeat3 TopoFeat5 TopoFeat6 TopoFinal
  GeomSpec GeomProof GridSpec JoinSpec BalanceSpec JoinFeatSpec.
Import ListNotations.
Local Open Scope list_scope.
Local Open Scope nat_scope.

Lemma cell_number {T} (k : mesh T) cl c : consistent k -> (In cl (cells k) /\ c_id cl = c <-> nth_error (cells k) c = Some cl).
Proof.
  intros (_ & C). split.
  - intros (I & E). apply In_nth_error in I as (i & I). destruct (C i cl I) as (Ei & _). congruence.
  - intros E. split; [eapply nth_error_In, E|]. apply (C c cl E).
Qed.
Lemma points_of_cell {T} (k : mesh T) c cl p : consistent k -> nth_error (cells k) c = Some cl -> In p (c_points cl) -> p < List.length (points k).
Proof. intros (_ & C) E I. exact (proj2 (proj2 (C c cl E)) p I). Qed.

(* the union of two disjoint sets *)
Lemma wanted_union ea (P A B : nat * nat -> Prop) : (forall z, P z <-> A z \/ B z) -> (forall z, A z -> B z -> False) ->
  (wanted ea P <-> if ea then wanted true A \/ wanted true B else (wanted false A /\ forall z, ~ B z) \/ (wanted false B /\ forall z, ~ A z)).
Proof.
  intros U D. destruct ea; cbn [wanted]; split.
  - intros (z & H). apply U in H as [H|H]; eauto.
  - intros [(z & H)|(z & H)]; exists z; apply U; auto.
  - intros (z & H & Un). apply U in H as [H|H].
    + left. split; [exists z; split; [exact H|intros w Hw; apply Un, U; auto]|]. intros w Hw. assert (z = w) by (apply Un, U; auto). subst w. exact (D z H Hw).
    + right. split; [exists z; split; [exact H|intros w Hw; apply Un, U; auto]|]. intros w Hw. assert (z = w) by (apply Un, U; auto). subst w. exact (D z Hw H).
  - intros [((z & H & Un) & N)|((z & H & Un) & N)]; exists z; (split; [apply U; auto|]); intros w Hw; apply U in Hw as [Hw|Hw]; auto; exfalso; exact (N w Hw).
Qed.
(* images of a set *)
Lemma wanted_image ea (P Q : nat * nat -> Prop) (g : nat * nat -> nat * nat) : (forall z, P z <-> exists w, z = g w /\ Q w) -> (forall w w', g w = g w' -> w = w') -> (wanted ea P <-> wanted ea Q).
Proof.
  intros E I. destruct ea; cbn [wanted]; split.
  - intros (z & H). apply E in H as (w & _ & H). eauto.
  - intros (w & H). exists (g w). apply E. eauto.
  - intros (z & H & U). apply E in H as (w & -> & H). exists w. split; [exact H|]. intros w' H'. apply I, U, E. eauto.
  - intros (w & H & U). exists (g w). split; [apply E; eauto|]. intros z Hz. apply E in Hz as (w' & -> & H'). f_equal. now apply U.
Qed.

Section Joined.
Variables (a b m : mesh R) (f : nat -> nat).
Hypothesis Ca : consistent a.
Hypothesis Cb : consistent b.
Hypothesis Cm : consistent m.
Hypothesis Ka : forall i c, nth_error (cells a) i = Some c -> nth_error (cells m) i = Some c.
Hypothesis Ln : List.length (cells m) = List.length (cells a) + List.length (cells b).
Hypothesis Kb : carries_cells (List.length (cells a)) b m f.
Let na := List.length (cells a).
Lemma cell_back c cl : nth_error (cells m) c = Some cl -> (nth_error (cells a) c = Some cl) \/
  exists c0 cb, c = na + c0 /\ nth_error (cells b) c0 = Some cb /\ c_kind cl = c_kind cb /\ c_points cl = map f (c_points cb).
Proof.
  intros E. destruct (nth_error (cells a) c) as [ca|] eqn:A; [left; specialize (Ka c ca A); congruence|]. apply nth_error_None in A. fold na in A.
  assert (L : c < List.length (cells m)) by (apply nth_error_Some; congruence). rewrite Ln in L. fold na in L. right. exists (c - na).
  destruct (nth_error (cells b) (c - na)) as [cb|] eqn:B; [|apply nth_error_None in B; lia]. exists cb. destruct (Kb _ _ B) as (c' & E' & K & _ & P). fold na in E'.
  replace (na + (c - na)) with c in E' by lia. assert (c' = cl) by congruence. subst c'. repeat (split; [lia || auto|]). auto.
Qed.
Lemma nth_moved l i p : nth_error (map f l) i = Some p <-> exists q, nth_error l i = Some q /\ p = f q.
Proof.
  rewrite nth_error_map. destruct (nth_error l i); cbn; split; [intros E; injection E as <-; eauto|intros (q & E & ->); now injection E as <-|discriminate|intros (q & E & _); discriminate].
Qed.
Lemma edge_join c e p q : edge_of m c e p q <-> edge_of a c e p q \/ exists c0 p0 q0, c = na + c0 /\ p = f p0 /\ q = f q0 /\ edge_of b c0 e p0 q0.
Proof.
  split.
  - intros (cl & I & Ec & Dk & He & P & Q). pose proof (proj1 (cell_number m cl c Cm) (conj I Ec)) as E. destruct (cell_back c cl E) as [A|(c0 & cb & -> & B & K & Pt)].
    + left. apply (cell_number a cl c Ca) in A as (Ia & Ea). exists cl. auto 8.
    + right. rewrite K in *. rewrite Pt in *. apply nth_moved in P as (p0 & P & ->). apply nth_moved in Q as (q0 & Q & ->). exists c0, p0, q0. repeat (split; [reflexivity|]).
      apply (cell_number b cb c0 Cb) in B as (Ib & Eb). exists cb. auto 8.
  - intros [(cl & I & Ec & Dk & He & P & Q)|(c0 & p0 & q0 & -> & -> & -> & (cb & I & Ec & Dk & He & P & Q))].
    + pose proof (Ka c cl (proj1 (cell_number a cl c Ca) (conj I Ec))) as E. apply (cell_number m cl c Cm) in E as (Im & Em). exists cl. auto 8.
    + destruct (Kb c0 cb (proj1 (cell_number b cb c0 Cb) (conj I Ec))) as (c' & E & K & _ & Pt). apply (cell_number m c' _ Cm) in E as (Im & Em). exists c'. rewrite K, Pt.
      split; [exact Im|]. split; [exact Em|]. split; [exact Dk|]. split; [exact He|]. split; apply nth_moved; eauto.
Qed.
Lemma somes_moved (g : nat -> nat) l is ps : map (fun i => nth_error (map f l) (g i)) is = map Some ps <-> exists qs, map (fun i => nth_error l (g i)) is = map Some qs /\ ps = map f qs.
Proof.
  revert ps. induction is as [|i is IH]; intros ps; cbn [map].
  - split; [intros E; destruct ps; [|discriminate]; exists []; auto|]. intros (qs & E & ->). destruct qs; [reflexivity|discriminate].
  - split.
    + intros E. destruct ps as [|p ps]; [discriminate|]. injection E as E1 E2. apply nth_moved in E1 as (q & E1 & ->). apply IH in E2 as (qs & E2 & ->). exists (q :: qs). cbn. now rewrite E1, E2.
    + intros (qs & E & ->). destruct qs as [|q qs]; [discriminate|]. injection E as E1 E2. cbn [map]. f_equal; [apply nth_moved; eauto|]. apply IH. eauto.
Qed.
Lemma face_join c e ps : face_of m c e ps <-> face_of a c e ps \/ exists c0 qs, c = na + c0 /\ ps = map f qs /\ face_of b c0 e qs.
Proof.
  split.
  - intros (cl & I & Ec & Dk & He & P). pose proof (proj1 (cell_number m cl c Cm) (conj I Ec)) as E. destruct (cell_back c cl E) as [A|(c0 & cb & -> & B & K & Pt)].
    + left. apply (cell_number a cl c Ca) in A as (Ia & Ea). exists cl. auto 8.
    + right. rewrite K in *. rewrite Pt in *. apply somes_moved in P as (qs & P & ->). exists c0, qs. repeat (split; [reflexivity|]).
      apply (cell_number b cb c0 Cb) in B as (Ib & Eb). exists cb. auto 8.
  - intros [(cl & I & Ec & Dk & He & P)|(c0 & qs & -> & -> & (cb & I & Ec & Dk & He & P))].
    + pose proof (Ka c cl (proj1 (cell_number a cl c Ca) (conj I Ec))) as E. apply (cell_number m cl c Cm) in E as (Im & Em). exists cl. auto 8.
    + destruct (Kb c0 cb (proj1 (cell_number b cb c0 Cb) (conj I Ec))) as (c' & E & K & _ & Pt). apply (cell_number m c' _ Cm) in E as (Im & Em). exists c'. rewrite K, Pt.
      split; [exact Im|]. split; [exact Em|]. split; [exact Dk|]. split; [exact He|]. apply somes_moved. eauto.
Qed.
Lemma edge_a_lt c e p q : edge_of a c e p q -> c < na.
Proof. intros (cl & I & Ec & _). pose proof (proj1 (cell_number a cl c Ca) (conj I Ec)) as E. apply nth_error_Some. congruence. Qed.
Lemma face_a_lt c e ps : face_of a c e ps -> c < na.
Proof. intros (cl & I & Ec & _). pose proof (proj1 (cell_number a cl c Ca) (conj I Ec)) as E. apply nth_error_Some. congruence. Qed.
Lemma edge_b_points c e p q : edge_of b c e p q -> p < List.length (points b) /\ q < List.length (points b).
Proof.
  intros (cl & I & Ec & _ & _ & P & Q). pose proof (proj1 (cell_number b cl c Cb) (conj I Ec)) as E. split; eapply points_of_cell; eauto using nth_error_In.
Qed.
Lemma face_b_points c e ps : face_of b c e ps -> forall p, In p ps -> p < List.length (points b).
Proof.
  intros (cl & I & Ec & _ & _ & P) p Hp. pose proof (proj1 (cell_number b cl c Cb) (conj I Ec)) as E. 
  assert (X : In (Some p) (map Some ps)) by now apply in_map. rewrite <- P in X. apply in_map_iff in X as (i & X & _). eapply points_of_cell; eauto using nth_error_In.
Qed.

Definition moved_hits (x y : nat) (z : nat * nat) : Prop := exists c0 p q, fst z = na + c0 /\ edge_of b c0 (snd z) p q /\ same_pair x y (f p) (f q).
Lemma has_edge_join x y z : has_edge m x y z <-> has_edge a x y z \/ moved_hits x y z.
Proof.
  split.
  - intros (p & q & E & S). apply edge_join in E as [E|(c0 & p0 & q0 & Ec & -> & -> & E)]; [left; exists p, q; auto|right]. exists c0, p0, q0. auto.
  - intros [(p & q & E & S)|(c0 & p & q & Ec & E & S)].
    + exists p, q. split; [apply edge_join; auto|exact S].
    + exists (f p), (f q). split; [apply edge_join; right; exists c0, p, q; auto|exact S].
Qed.
Lemma hits_disjoint x y z : has_edge a x y z -> moved_hits x y z -> False.
Proof. intros (p & q & E & _) (c0 & _ & _ & Ec & _). apply edge_a_lt in E. lia. Qed.
Hypothesis Inj : forall p q, p < List.length (points b) -> q < List.length (points b) -> f p = f q -> p = q.
Lemma pair_back x y p q : p < List.length (points b) -> q < List.length (points b) -> x < List.length (points b) -> y < List.length (points b) -> (same_pair (f x) (f y) (f p) (f q) <-> same_pair x y p q).
Proof.
  intros P Q X Y. unfold same_pair. split; [|intros [(-> & ->)|(-> & ->)]; auto]. intros [(E1 & E2)|(E1 & E2)]; apply Inj in E1, E2; auto.
Qed.
Lemma moved_wanted ea p q x y : p < List.length (points b) -> q < List.length (points b) -> same_pair x y (f p) (f q) -> (wanted ea (moved_hits x y) <-> wanted ea (has_edge b p q)).
Proof.
  intros P Q S. apply (wanted_image ea _ _ (fun w => (na + fst w, snd w))); [|intros [c e] [c' e'] E; cbn in E; injection E as E1 E2; f_equal; lia].
  intros [c e]. unfold moved_hits. cbn [fst snd]. split.
  - intros (c0 & p0 & q0 & -> & E & S0). exists (c0, e). split; [reflexivity|]. exists p0, q0. split; [exact E|]. destruct (edge_b_points _ _ _ _ E) as (Lp & Lq).
    apply (pair_back p q p0 q0); auto. unfold same_pair in *. lia.
  - intros ([c0 e0] & E & (p0 & q0 & E0 & S0)). cbn [fst snd] in *. injection E as -> ->. exists c0, p0, q0. split; [reflexivity|]. split; [exact E0|].
    destruct (edge_b_points _ _ _ _ E0) as (Lp & Lq). apply (pair_back p q p0 q0) in S0; auto. unfold same_pair in *. lia.
Qed.
Lemma wanted_some ea (P : nat * nat -> Prop) : wanted ea P -> exists z, P z.
Proof. destruct ea; [auto|]. intros (z & H & _). eauto. Qed.
Lemma edges_wanted ea x y : wanted ea (has_edge m x y) <->
  if ea then wanted true (has_edge a x y) \/ moved_edge f b x y
  else (wanted false (has_edge a x y) /\ ~ moved_edge f b x y) \/
       ((exists p q, p < List.length (points b) /\ q < List.length (points b) /\ same_pair x y (f p) (f q) /\ wanted false (has_edge b p q)) /\ forall z, ~ has_edge a x y z).
Proof.
  rewrite (wanted_union ea _ _ _ (has_edge_join x y) (hits_disjoint x y)).
  assert (M : (exists z, moved_hits x y z) <-> moved_edge f b x y).
  { split; [intros ([c e] & c0 & p & q & _ & E & S); exists c0, e, p, q; auto|]. intros (c & e & p & q & E & S). exists (na + c, e), c, p, q. auto. }
  destruct ea; [cbn [wanted]; rewrite M; reflexivity|].
  assert (N : (forall z, ~ moved_hits x y z) <-> ~ moved_edge f b x y) by (rewrite <- M; split; [intros H (z & Z); exact (H z Z)|intros H z Z; apply H; eauto]). rewrite N.
  assert (W : wanted false (moved_hits x y) <-> exists p q, p < List.length (points b) /\ q < List.length (points b) /\ same_pair x y (f p) (f q) /\ wanted false (has_edge b p q)).
  { split.
    - intros W. destruct (wanted_some false _ W) as (z & c0 & p & q & _ & E & S). destruct (edge_b_points _ _ _ _ E) as (Lp & Lq). exists p, q. split; [exact Lp|]. split; [exact Lq|]. split; [exact S|]. apply (moved_wanted false p q x y); auto.
    - intros (p & q & Lp & Lq & S & W). apply (moved_wanted false p q x y); auto. }
  rewrite W. reflexivity.
Qed.

Definition moved_fhits (ks : list nat) (z : nat * nat) : Prop := exists c0 ps, fst z = na + c0 /\ face_of b c0 (snd z) ps /\ Permutation ks (map f ps).
Lemma has_face_join ks z : has_face m ks z <-> has_face a ks z \/ moved_fhits ks z.
Proof.
  split.
  - intros (ps & E & S). apply face_join in E as [E|(c0 & qs & Ec & -> & E)]; [left; exists ps; auto|right]. exists c0, qs. auto.
  - intros [(ps & E & S)|(c0 & ps & Ec & E & S)].
    + exists ps. split; [apply face_join; auto|exact S].
    + exists (map f ps). split; [apply face_join; right; exists c0, ps; auto|exact S].
Qed.
Lemma fhits_disjoint ks z : has_face a ks z -> moved_fhits ks z -> False.
Proof. intros (ps & E & _) (c0 & _ & Ec & _). apply face_a_lt in E. lia. Qed.
Lemma map_inj : forall l l', (forall p, In p l -> p < List.length (points b)) -> (forall p, In p l' -> p < List.length (points b)) -> map f l = map f l' -> l = l'.
Proof.
  induction l as [|x l IH]; intros [|y l'] A B E; try discriminate; [reflexivity|]. cbn in E. injection E as E1 E2. f_equal; [apply Inj; auto with datatypes|apply IH; auto with datatypes].
Qed.
Lemma perm_back l l' : (forall p, In p l -> p < List.length (points b)) -> (forall p, In p l' -> p < List.length (points b)) -> (Permutation (map f l) (map f l') <-> Permutation l l').
Proof.
  intros A B. split; [|apply Permutation_map]. intros P. apply Permutation_map_inv in P as (l3 & E & P). apply map_inj in E; [|auto|intros p Hp; apply B; apply (Permutation_in _ (Permutation_sym P) Hp)]. subst l3. now apply Permutation_sym.
Qed.
Lemma moved_fwanted ea ps ks : (forall p, In p ps -> p < List.length (points b)) -> Permutation ks (map f ps) -> (wanted ea (moved_fhits ks) <-> wanted ea (has_face b ps)).
Proof.
  intros P S. apply (wanted_image ea _ _ (fun w => (na + fst w, snd w))); [|intros [c e] [c' e'] E; cbn in E; injection E as E1 E2; f_equal; lia].
  intros [c e]. unfold moved_fhits. cbn [fst snd]. split.
  - intros (c0 & qs & -> & E & S0). exists (c0, e). split; [reflexivity|]. exists qs. split; [exact E|]. apply (perm_back ps qs P (face_b_points _ _ _ E)).
    apply (Permutation_trans (Permutation_sym S) S0).
  - intros ([c0 e0] & E & (qs & E0 & S0)). cbn [fst snd] in *. injection E as -> ->. exists c0, qs. split; [reflexivity|]. split; [exact E0|].
    apply (Permutation_trans S). now apply Permutation_map.
Qed.
Lemma faces_wanted ea ks : wanted ea (has_face m ks) <->
  if ea then wanted true (has_face a ks) \/ moved_face f b ks
  else (wanted false (has_face a ks) /\ ~ moved_face f b ks) \/
       ((exists ps, (forall p, In p ps -> p < List.length (points b)) /\ Permutation ks (map f ps) /\ wanted false (has_face b ps)) /\ forall z, ~ has_face a ks z).
Proof.
  rewrite (wanted_union ea _ _ _ (has_face_join ks) (fhits_disjoint ks)).
  assert (M : (exists z, moved_fhits ks z) <-> moved_face f b ks).
  { split; [intros ([c e] & c0 & ps & _ & E & S); exists c0, e, ps; auto|]. intros (c & e & ps & E & S). exists (na + c, e), c, ps. auto. }
  destruct ea; [cbn [wanted]; rewrite M; reflexivity|].
  assert (N : (forall z, ~ moved_fhits ks z) <-> ~ moved_face f b ks) by (rewrite <- M; split; [intros H (z & Z); exact (H z Z)|intros H z Z; apply H; eauto]). rewrite N.
  assert (W : wanted false (moved_fhits ks) <-> exists ps, (forall p, In p ps -> p < List.length (points b)) /\ Permutation ks (map f ps) /\ wanted false (has_face b ps)).
  { split.
    - intros W. destruct (wanted_some false _ W) as (z & c0 & ps & _ & E & S). pose proof (face_b_points _ _ _ E) as Lp. exists ps. split; [exact Lp|]. split; [exact S|]. apply (moved_fwanted false ps ks); auto.
    - intros (ps & Lp & S & W). apply (moved_fwanted false ps ks); auto. }
  rewrite W. reflexivity.
Qed.
Lemma directed_join : directed a -> directed b ->
  (forall c e c' e' p q, edge_of a c e (f p) (f q) -> edge_of b c' e' p q -> False) -> directed m.
Proof.
  intros A B N c e c' e' p q E E'. apply edge_join in E as [E|(c0 & p0 & q0 & -> & -> & -> & E)]; apply edge_join in E' as [E'|(c1 & p1 & q1 & -> & Ep & Eq & E')].
  - exact (A _ _ _ _ _ _ E E').
  - subst. exfalso. exact (N _ _ _ _ _ _ E E').
  - exfalso. exact (N _ _ _ _ _ _ E' E).
  - destruct (edge_b_points _ _ _ _ E). destruct (edge_b_points _ _ _ _ E'). apply Inj in Ep, Eq; auto. subst p1 q1. specialize (B _ _ _ _ _ _ E E'). injection B as -> ->. reflexivity.
Qed.
Lemma fits_join : ndim m = ndim a -> ndim b = ndim a -> fits a -> fits b -> fits m.
Proof.
  intros Dm Db Fa Fb c I. apply In_nth_error in I as (i & I). destruct (cell_back i c I) as [A|(c0 & cb & _ & B & K & _)]; rewrite Dm; [apply Fa; eapply nth_error_In, A|].
  rewrite K, <- Db. apply Fb. eapply nth_error_In, B.
Qed.
Lemma tets_join : no_quadratic_tets a -> no_quadratic_tets b -> no_quadratic_tets m.
Proof.
  intros Fa Fb c I. apply In_nth_error in I as (i & I). destruct (cell_back i c I) as [A|(c0 & cb & _ & B & K & _)]; [apply Fa; eapply nth_error_In, A|].
  rewrite K. apply Fb. eapply nth_error_In, B.
Qed.
(* neighbours *)
Definition next_to (k : mesh R) (c e n ne : nat) : Prop := n <> c /\ exists x y, has_edge k x y (c, e) /\ has_edge k x y (n, ne).
Lemma next_a c e n ne : c < na -> n < na -> (next_to m c e n ne <-> next_to a c e n ne).
Proof.
  intros Lc Lk. split; intros (N & x & y & H1 & H2); (split; [exact N|]); exists x, y.
  - apply has_edge_join in H1 as [H1|(c0 & _ & _ & E & _)]; [|cbn in E; lia]. apply has_edge_join in H2 as [H2|(c0 & _ & _ & E & _)]; [|cbn in E; lia]. auto.
  - split; apply has_edge_join; auto.
Qed.
Lemma next_b c e n ne : next_to m (na + c) e (na + n) ne <-> next_to b c e n ne.
Proof.
  split; intros (N & x & y & H1 & H2).
  - split; [lia|]. apply has_edge_join in H1 as [(p & q & H1 & _)|(c0 & p & q & E & H1 & S)]; [apply edge_a_lt in H1; cbn in H1; lia|].
    apply has_edge_join in H2 as [(p2 & q2 & H2 & _)|(n0 & p2 & q2 & E2 & H2 & S2)]; [apply edge_a_lt in H2; cbn in H2; lia|]. cbn [fst snd] in *.
    assert (c0 = c) by lia. assert (n0 = n) by lia. subst. destruct (edge_b_points _ _ _ _ H1). destruct (edge_b_points _ _ _ _ H2). exists p, q. split; [exists p, q; split; [exact H1|left; auto]|].
    exists p2, q2. split; [exact H2|]. apply (pair_back p q p2 q2); auto. unfold same_pair in *. lia.
  - split; [lia|]. destruct H1 as (p & q & H1 & S1). destruct H2 as (p2 & q2 & H2 & S2). exists (f p), (f q). split; apply has_edge_join; right; [exists c, p, q|exists n, p2, q2]; cbn [fst snd] in *; (split; [reflexivity|]); (split; [assumption|]).
    + left; auto.
    + unfold same_pair in *. assert (same_pair p q p2 q2) as X by (unfold same_pair; lia). unfold same_pair in X. destruct X as [(-> & ->)|(-> & ->)]; auto.
Qed.
Lemma next_ab c e n ne : c < na -> (next_to m c e (na + n) ne <-> exists x y p q, has_edge a x y (c, e) /\ edge_of b n ne p q /\ same_pair x y (f p) (f q)).
Proof.
  intros Lc. split.
  - intros (N & x & y & H1 & H2). apply has_edge_join in H1 as [H1|(c0 & _ & _ & E & _)]; [|cbn in E; lia].
    apply has_edge_join in H2 as [(p2 & q2 & H2 & _)|(n0 & p2 & q2 & E2 & H2 & S2)]; [apply edge_a_lt in H2; cbn in H2; lia|]. cbn [fst snd] in *. assert (n0 = n) by lia. subst. exists x, y, p2, q2. auto.
  - intros (x & y & p & q & H1 & H2 & S). split; [lia|]. exists x, y. split; apply has_edge_join; [auto|right]. exists n, p, q. auto.
Qed.
End Joined.

(* points far from each other stay different *)
Lemma placed_inj tol e near a b m f : apart (2 * tol) b -> coords_complete b -> coords_complete m -> ndim m = ndim b -> (forall p, p < List.length (points b) -> f p < List.length (points m)) ->
  keeps_points a m -> merged tol e near a b m f -> forall p q, p < List.length (points b) -> q < List.length (points b) -> f p = f q -> p = q.
Proof.
  intros Ap Kb Km Dm Lf Kp M p q P Q E. destruct (nth_error (points b) p) as [x|] eqn:X; [|apply nth_error_None in X; lia]. destruct (nth_error (points b) q) as [y|] eqn:Y; [|apply nth_error_None in Y; lia].
  destruct (Nat.eq_dec p q) as [|Ne]; [assumption|exfalso]. destruct (M p x X) as [(u & U & Du)|(_ & _ & _ & U)]; [|apply Ne; symmetry; now apply U].
  destruct (M q y Y) as [(v & V & Dv)|(_ & _ & _ & V)]; [|apply Ne; now apply V]. rewrite E in U. assert (u = v) by congruence. subst v.
  specialize (Ap p q x y X Y Ne). pose proof (Kp _ _ U) as Um.
  assert (Lx : List.length (pt_coords x) = ndim b) by (apply Kb; eapply nth_error_In, X). assert (Ly : List.length (pt_coords y) = ndim b) by (apply Kb; eapply nth_error_In, Y).
  assert (Lu : List.length (pt_coords u) = ndim m) by (apply Km; eapply nth_error_In, Um).
  pose proof (euclid_tri (pt_coords x) (pt_coords u) (pt_coords y) ltac:(congruence) ltac:(congruence)) as T. rewrite (euclid_sym (pt_coords x) (pt_coords u)) in T. lra.
Qed.
(* a point of b at the position of a point of a becomes this point *)
Lemma merged_same tol e near a b m f p x i y : (0 <= e)%R -> apart tol a -> merged tol e near a b m f -> nth_error (points b) p = Some x -> nth_error (points a) i = Some y -> near (pt_coords y) ->
  pt_coords x = pt_coords y -> f p = i.
Proof.
  intros E0 Ap M X Y Nr C. destruct (M p x X) as [(u & U & Du)|(_ & _ & N & _)].
  - destruct (Nat.eq_dec (f p) i) as [|Ne]; [assumption|exfalso]. specialize (Ap _ _ _ _ U Y Ne). rewrite <- C in Ap. lra.
  - exfalso. apply (N i y Y Nr). rewrite C. split; [reflexivity|]. intros j _. rewrite Rminus_diag_eq, Rabs_R0 by reflexivity. exact E0.
Qed.
Lemma sorted_exists : forall l : list nat, exists s, Permutation l s /\ StronglySorted le s.
Proof.
  induction l as [|x l (s & P & S)]; [exists []; split; constructor|].
  assert (I : exists s', Permutation (x :: s) s' /\ StronglySorted le s').
  { clear P. induction S as [|y s S IH F]; [exists [x]; split; [apply Permutation_refl|repeat constructor]|]. destruct (le_lt_dec x y) as [L|L].
    - exists (x :: y :: s). split; [apply Permutation_refl|]. constructor; [constructor; assumption|]. constructor; [exact L|]. eapply Forall_impl; [|exact F]. cbn. intros z. lia.
    - destruct IH as (s' & P & S'). exists (y :: s'). split; [eapply Permutation_trans; [apply perm_swap|now constructor]|]. constructor; [exact S'|]. apply (Permutation_Forall P). constructor; [lia|exact F]. }
  destruct I as (s' & P' & S'). exists s'. split; [|exact S']. eapply Permutation_trans; [apply perm_skip, P|exact P'].
Qed.
