(** C64: Delete of a key that is not stored, exactly.  The proofs are in PropAbsent.v, with concrete cases. *)
From Verif Require Import AbsDel2 PropMap Refute SpecLossy SpecAbsent PropAbsDel PropAbsent.
From stdpp Require Import list.
Local Open Scope nat_scope.
Local Open Scope list_scope.


(** C64: after a tame history, Delete of a key that is not stored and that leaves the stored keys after q, where
    at least two stored keys have q and no stored key agrees with it on ten bytes: the call returns (zero, false) and
    leaves Len alone; if two stored keys go on differently after q, exactly the keys that start with q are lost; if
    not, nothing changes.  (Excluded: q at which a shadowed key was deleted.) *)
Theorem C64 : forall {V} `{GoZero V} (os : list (op V)) d h t rs k q,
  tame os d -> (N.of_nat (length os) < 2 ^ 64)%N -> build os h t rs ->
  valid_key k -> ref_ops os ∅ !! k = None -> roomy (ref_ops os ∅) -> near (ref_ops os ∅) k ->
  leaves_at (ref_ops os ∅) k q -> ~ hollow os q ->
  exists h' t', treeDelete t k h = (Ok (t', (go_zero, false)), h') /\ treeLen t' = treeLen t /\
    (parts (ref_ops os ∅) q -> forall k', is_bytes k' -> treeGet h' t' k' = Ok (ref_get (cut q (ref_ops os ∅)) k')) /\
    (~ parts (ref_ops os ∅) q -> forall k', is_bytes k' -> treeGet h' t' k' = Ok (ref_get (ref_ops os ∅) k')).
Proof. exact @C64_proof. Qed.
Print Assumptions C64.

(** C64 where one stored key alone has the beginning of k: what is lost depends on the order in which the keys
    came.  The same two keys, inserted in the two orders; the same absent key deleted; the one tree loses the key it
    shares its first byte with, the other does not. *)
Theorem C64_order_refuted : exists (os1 os2 : list (op nat)) h1 t1 rs1 h2 t2 rs2 k k' h1' t1' h2' t2',
  tame os1 0 /\ tame os2 0 /\ ref_ops os1 ∅ = ref_ops os2 (∅ : gmap (list nat) nat) /\ build os1 h1 t1 rs1 /\ build os2 h2 t2 rs2 /\
  valid_key k /\ ref_ops os1 ∅ !! k = None /\ near (ref_ops os1 ∅) k /\
  treeDelete t1 k h1 = (Ok (t1', (0, false)), h1') /\ treeDelete t2 k h2 = (Ok (t2', (0, false)), h2') /\
  treeGet h1' t1' k' <> treeGet h2' t2' k'.
Proof. exact C64_order_refuted_proof. Qed.
Print Assumptions C64_order_refuted.
