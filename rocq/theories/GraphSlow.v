(* The graph of GraphWitness.v defeats the search for a pseudo-peripheral vertex. *)
From Coq Require Import String List Arith Bool Lia.
From Verif Require Import Base MeshModel GraphModel GraphSpec GraphVocab GraphProof5 GraphWitness.
Import ListNotations.

Lemma range_by_check edges n :
  forallb (fun e => (fst e <? n) && (snd e <? n)) edges = true ->
  forallb (fun u => existsb (fun e => (u =? fst e) || (u =? snd e)) edges) (seq 0 n) = true ->
  (forall e, In e edges -> fst e < n /\ snd e < n) /\
  (forall u, u < n -> exists e, In e edges /\ (u = fst e \/ u = snd e)).
Proof.
  intros A B. rewrite forallb_forall in A, B. split.
  - intros e He. specialize (A e He). apply andb_true_iff in A. rewrite !Nat.ltb_lt in A. exact A.
  - intros u Hu. specialize (B u). rewrite in_seq in B. specialize (B ltac:(lia)). apply existsb_exists in B.
    destruct B as (e & He & Hb). exists e. split; auto. apply orb_true_iff in Hb. rewrite !Nat.eqb_eq in Hb. exact Hb.
Qed.

Lemma slow_range : (forall e, In e slow_edges -> fst e < 235 /\ snd e < 235) /\
  (forall u, u < 235 -> exists e, In e slow_edges /\ (u = fst e \/ u = snd e)).
Proof. apply range_by_check; vm_compute; reflexivity. Qed.

Lemma slow_runs : match from_edges slow_edges true true with
  | Ok g => match pseudo_peripheral g None, cuthill_mckee g None with
            | Err a, Err b => a = "INTERNAL ERROR: iterations did not converge"%string /\ b = a | _, _ => False end
  | _ => False end.
Proof. vm_compute. auto. Qed.

Lemma slow_graph : exists edges g,
  from_edges edges true true = Ok g /\ ready g /\ connected (edge g) (nv g) /\
  pseudo_peripheral g None = Err "INTERNAL ERROR: iterations did not converge" /\
  cuthill_mckee g None = Err "INTERNAL ERROR: iterations did not converge".
Proof.
  pose proof slow_runs as S. destruct (from_edges slow_edges true true) as [g| | |] eqn:Eg; try contradiction.
  exists slow_edges, g. destruct (from_edges_ready slow_edges 235 true true g (proj1 slow_range) (proj2 slow_range) Eg) as (A & _ & B & C & _).
  split; [exact Eg|]. split; [auto|]. split; [rewrite A; auto|].
  destruct (pseudo_peripheral g None); try contradiction. destruct (cuthill_mckee g None); try contradiction.
  destruct S as [-> ->]. auto.
Qed.
