(** C04: what Delete of an absent key does to a tree.  The proofs are in PropAbsDel.v, with a concrete case. *)
From Verif Require Import PropAbsDel.
From stdpp Require Import list.
Local Open Scope nat_scope.
Local Open Scope list_scope.


(** C04 after tame histories: if Delete of an absent key returns, it returns (zero, false) and leaves Len
    alone; it removes exactly the keys that start with some byte string q, and nothing else; and when no
    stored key agrees with k on ten bytes, q is a prefix of k and its terminator, so that only keys sharing
    that prefix with k can disappear.  Missing from C04: that nothing disappears (C04_refuted), that the
    call returns (C04_panic_refuted). *)
Theorem C04_partial : forall {V} `{GoZero V} (os : list (op V)) d h t rs k h' t' r,
  tame os d -> (N.of_nat (length os) < 2 ^ 64)%N -> build os h t rs ->
  valid_key k -> ref_ops os ∅ !! k = None -> roomy (ref_ops os ∅) ->
  treeDelete t k h = (Ok (t', r), h') ->
  r = (go_zero, false) /\ treeLen t' = treeLen t /\ exists q,
    (forall k', is_bytes k' -> q `prefix_of` (k' ++ [dollar]) -> treeGet h' t' k' = Ok (go_zero, false)) /\
    (forall k', is_bytes k' -> ~ q `prefix_of` (k' ++ [dollar]) -> treeGet h' t' k' = treeGet h t k') /\
    (near (ref_ops os ∅) k -> q `prefix_of` (k ++ [dollar])).
Proof. exact @C04_partial_proof. Qed.
Print Assumptions C04_partial.

(** C04, C24: Delete of an absent key panics with keys free of '$': ten bytes agree, the compressed path
    is longer, the key is too short (txn.go:330). *)
Theorem C04_panic_refuted : exists (os : list (op nat)) h t rs k,
  tame os 0 /\ build os h t rs /\ valid_key k /\ ref_ops os ∅ !! k = None /\ (treeDelete t k h).1 = Panic.
Proof. exact C04_panic_refuted_proof. Qed.
Print Assumptions C04_panic_refuted.
