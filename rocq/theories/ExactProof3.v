(* Exact meshes of several blocks, renumbered or not. *)
From Coq Require Import String Reals List Lia Lra Bool Arith ZArith Permutation Sorted.
From Verif Require Import Base BaseFacts Kind GraphModel GraphVocab PropGraph MeshModel MeshQuerySpec TopoModel TopoSpec TopoMaps TopoProof TopoFeat3 TopoFinal GeomModel GeomSpec GeomProof GridModel GridSpec GridProof SearchModel SearchSpec SearchProof SearchProof2
  JoinModel JoinSpec JoinProof JoinProof2 JoinProof3 PropJoin ShapesModel ShapesSpec PadModel PadSpec PadProof PadProof2 PadProof3 BlockModel BlockSpec BlockProof BlockProof2 BlockProof3 BlockProof10 PropBlock StructModel StructSpec StructProof StructProof4 RingSpec RingProof2 BlocksSpec BlocksProof BlocksProof2 BlocksProof3 BlocksProof4 BlocksProof5 BlocksProof6 BlocksProof7 BlocksProof8 BlocksProof9 ExactSpec ExactProof ExactProof2.
Import ListNotations.
Local Open Scope list_scope.
Local Open Scope R_scope.

Lemma good_exact nd target gs m : (nd = 2 \/ nd = 3)%nat -> good nd target gs m -> exact_mesh nd target gs m.
Proof.
  intros Hnd G. pose proof G as ((C & Cc & _) & _ & D & U & _). split; [exact C|]. split; [exact Cc|]. split; [exact U|]. split; [exact D|]. apply good_built; assumption.
Qed.
Lemma renumber_exact nd target gs m m' : exact_mesh nd target gs m -> renumber_mesh m false = Ok m' -> exact_mesh nd target gs m'.
Proof.
  intros (C1 & C2 & A & D & B) H. destruct (renumber_built nd 0 target gs m m' C1 C2 A B H) as (C1' & C2' & A' & B'). split; [exact C1'|]. split; [exact C2'|]. split; [exact A'|]. split; [|exact B'].
  assert (W : well_formed m). { split; [|exact C2]. intros c p Ic Ip. apply In_nth_error in Ic as (i & Ic). destruct C1 as (_ & C1). apply (proj2 (proj2 (C1 i c Ic))). exact Ip. }
  destruct (C08_renumber_mesh R m m' false W H) as (o & P & (R1 & R2 & R3 & R4) & _).
  assert (Fw : forall p x, coords_of m p x -> coords_of m' (nth p o 0%nat) x). { intros p x (pt & X & <-). eexists. split; [apply R3; exact X|reflexivity]. }
  assert (Bw : forall q x, coords_of m' q x -> exists p, nth p o 0%nat = q /\ coords_of m p x).
  { intros q x X. destruct (perm_onto _ _ P q) as (p & Lp & E). { rewrite <- R2. eapply coords_range. exact X. }
    exists p. split; [exact E|]. destruct (coords_get m p Lp) as (y & Y). pose proof (Fw p y Y) as Z. rewrite E in Z. rewrite (StructProof.coords_inj _ _ _ _ X Z). exact Y. }
  intros i j x X Y. destruct (Bw i x X) as (p & <- & X0). destruct (Bw j x Y) as (p' & <- & Y0). rewrite (D p p' x X0 Y0). reflexivity.
Qed.
Lemma made_both nd target gs run : (nd = 2 \/ nd = 3)%nat -> (exists m, good nd target gs m /\ forall renumber, run renumber = maybe_renumber renumber m) -> made_exact nd target gs run.
Proof.
  intros Hnd (m & G & E). pose proof (good_exact nd target gs m Hnd G) as X. exists m. split; [rewrite E; reflexivity|]. split; [exact X|]. split; [rewrite E; reflexivity|]. intros m' H. rewrite E in H. exact (renumber_exact nd target gs m m' X H).
Qed.
