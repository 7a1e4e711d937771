(** DFS.  The proofs are in PropDfs.v, with concrete cases. *)
From Verif Require Import SpecScan SpecDfs ReadDfs PropMap PropRead PropDfs Refute.
From stdpp Require Import list.
Local Open Scope nat_scope.
Local Open Scope list_scope.


(** C67 on non-empty tame histories, if the stored keys go on in at most 12 ways after every prefix: DFS visits no node
    twice, and the leaves of the nodes it visits hold what the iterator yields, in this order: every stored pair once. *)
Theorem C67_partial : forall {V} `{GoZero V} (os : list (op V)) d h t rs,
  tame os d -> (N.of_nat (length os) < 2 ^ 64)%N -> build os h t rs -> ref_ops os ∅ <> ∅ -> narrow (ref_ops os ∅) ->
  exists ns, dfsNode (walk_fuel h) h (r_root t) = Ok ns /\ NoDup ns /\ iterates h (r_root t) [] (shown h ns) /\ shown h ns ≡ₚ map_to_list (ref_ops os ∅) /\
    (orderly (ref_ops os ∅) -> ascending (shown h ns)).
Proof. exact @C67_partial_proof. Qed.
Print Assumptions C67_partial.

(** C67 on all non-empty tame histories: DFS does not panic, visits no node twice, and the leaves of the nodes it visits
    hold stored pairs only, none twice. *)
Theorem C67_stored_partial : forall {V} `{GoZero V} (os : list (op V)) d h t rs,
  tame os d -> (N.of_nat (length os) < 2 ^ 64)%N -> build os h t rs -> ref_ops os ∅ <> ∅ ->
  exists ns, dfsNode (walk_fuel h) h (r_root t) = Ok ns /\ NoDup ns /\ NoDup (shown h ns).*1 /\
    forall k v, (k, v) ∈ shown h ns -> ref_ops os ∅ !! k = Some v.
Proof. exact @C67_stored_partial_proof. Qed.
Print Assumptions C67_stored_partial.

(** C67 on histories of insertions of valid keys, if the stored keys go on in at most 37 ways after every prefix: DFS visits no node
    twice, and the leaves of the nodes it visits hold every stored pair once. *)
Theorem C67_inserts_partial : forall {V} `{GoZero V} (os : list (op V)) h t rs,
  Forall (fun o => is_insert o /\ valid_key (op_key o)) os -> (N.of_nat (length os) < 2 ^ 64)%N -> build os h t rs -> ref_ops os ∅ <> ∅ -> ways 37 (ref_ops os ∅) ->
  exists ns, dfsNode (walk_fuel h) h (r_root t) = Ok ns /\ NoDup ns /\ shown h ns ≡ₚ map_to_list (ref_ops os ∅).
Proof. exact @C67_inserts_partial_proof. Qed.
Print Assumptions C67_inserts_partial.

(** C67 with 49 one-byte keys: DFS shows none of them (it reads the children of a Node256 by their position from 0 up
    to numChildren, but they stand at their bytes, tree.go:409). *)
Theorem C67_refuted : exists (os : list (op nat)) h t rs ns,
  Forall (fun o => is_insert o /\ valid_key (op_key o) /\ highbytes (op_key o) /\ length (op_key o) <= 1) os /\ build os h t rs /\
  size (ref_ops os ∅) = 49 /\ dfsNode (walk_fuel h) h (r_root t) = Ok ns /\ shown h ns = [].
Proof. exact C67_refuted_proof. Qed.
Print Assumptions C67_refuted.

(** C67 after a Delete, with 16 stored one-byte keys: DFS misses one (the children of a Node48 have a gap). *)
Theorem C67_gap_refuted : exists (os : list (op nat)) h t rs ns k,
  Forall (fun o => valid_key (op_key o) /\ highbytes (op_key o) /\ length (op_key o) <= 1) os /\ build os h t rs /\
  size (ref_ops os ∅) = 16 /\ is_Some (ref_ops os ∅ !! k) /\ dfsNode (walk_fuel h) h (r_root t) = Ok ns /\ k ∉ (shown h ns).*1.
Proof. exact C67_gap_refuted_proof. Qed.
Print Assumptions C67_gap_refuted.

(** C67 on the new tree: DFS shows a pair with the empty key. *)
Theorem C67_empty_refuted : exists (h : heap nat) t rs ns,
  build [] h t rs /\ dfsNode (walk_fuel h) h (r_root t) = Ok ns /\ shown h ns = [([], 0)].
Proof. exact C67_empty_refuted_proof. Qed.
Print Assumptions C67_empty_refuted.
