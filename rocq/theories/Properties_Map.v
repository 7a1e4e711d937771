(** Map behaviour on histories of one line of trees.  The proofs are in PropMap.v, with concrete cases. *)
From Verif Require Import PropMap Refute.
From stdpp Require Import list.
Local Open Scope nat_scope.
Local Open Scope list_scope.

(** C01 on keys without '$': after any number of Inserts, no call has panicked and Get agrees with the
    finite map on every byte string. *)
Theorem C01_partial : forall {V} `{GoZero V} (os : list (op V)),
  Forall (fun o => is_insert o /\ valid_key (op_key o)) os -> (N.of_nat (length os) < 2 ^ 64)%N ->
  exists h t rs, build os h t rs /\ forall k, is_bytes k -> treeGet h t k = Ok (ref_get (ref_ops os ∅) k).
Proof. exact @C01_partial_proof. Qed.
Print Assumptions C01_partial.

(** C02, C36, C24 on tame histories: Inserts and Deletes never panic and Get agrees with the map. *)
Theorem C02_partial : forall {V} `{GoZero V} (os : list (op V)) d, tame os d -> (N.of_nat (length os) < 2 ^ 64)%N ->
  exists h t rs, build os h t rs /\ forall k, is_bytes k -> treeGet h t k = Ok (ref_get (ref_ops os ∅) k).
Proof. exact @C02_partial_proof. Qed.
Print Assumptions C02_partial.

(** C03 on tame histories: Delete of a stored key. *)
Theorem C03_partial : forall {V} `{GoZero V} (os : list (op V)) d h t rs k v,
  tame os d -> (N.of_nat (S (length os)) < 2 ^ 64)%N -> build os h t rs ->
  ref_ops os ∅ !! k = Some v -> deletable (ref_ops os ∅) k -> (d = 0 \/ delete k (ref_ops os ∅) <> ∅) ->
  exists h' t', treeDelete t k h = (Ok (t', (v, true)), h') /\ treeLen t' = (treeLen t - 1)%N /\ treeLen t <> 0%N /\
    treeGet h' t' k = Ok (go_zero, false) /\ forall k', is_bytes k' -> k' <> k -> treeGet h' t' k' = treeGet h t k'.
Proof. exact @C03_partial_proof. Qed.
Print Assumptions C03_partial.

(** C05, C03 on tame histories: every update reports the previous value; only the overwrite of a
    shadowed key may report (zero, false) instead. *)
Theorem C05_partial : forall {V} `{GoZero V} (os : list (op V)) d h t rs,
  tame os d -> (N.of_nat (length os) < 2 ^ 64)%N -> build os h t rs -> results_ok ∅ os rs.
Proof. exact @C05_partial_proof. Qed.
Print Assumptions C05_partial.

(** C06 on tame histories: Len is between the number of keys and that number plus the number of
    overwrites of shadowed keys; so it is exact when there were none. *)
Theorem C06_partial : forall {V} `{GoZero V} (os : list (op V)) d h t rs,
  tame os d -> (N.of_nat (length os) < 2 ^ 64)%N -> build os h t rs ->
  (N.of_nat (size (ref_ops os ∅)) <= treeLen t <= N.of_nat (size (ref_ops os ∅) + d))%N.
Proof. exact @C06_partial_proof. Qed.
Print Assumptions C06_partial.

(** C06: Len is zero exactly for the empty map, on all tame histories. *)
Theorem C06_empty : forall {V} `{GoZero V} (os : list (op V)) d h t rs,
  tame os d -> (N.of_nat (length os) < 2 ^ 64)%N -> build os h t rs -> (treeLen t = 0%N <-> ref_ops os ∅ = ∅).
Proof. exact @C06_empty_proof. Qed.
Print Assumptions C06_empty.

(** C09: batches of updates, each in one committed transaction, do not panic, return what the single
    updates should return, and end with the contents that the updates have one by one. *)
Theorem C09_batches : forall {V} `{GoZero V} (oss : list (list (op V))) d, tame_txns oss d -> (N.of_nat (length (concat oss)) < 2 ^ 64)%N ->
  exists h t rs, build_txns oss h t rs /\ results_ok ∅ (concat oss) rs /\
    (N.of_nat (size (ref_ops (concat oss) ∅)) <= treeLen t <= N.of_nat (size (ref_ops (concat oss) ∅) + d))%N /\
    forall k, is_bytes k -> treeGet h t k = Ok (ref_get (ref_ops (concat oss) ∅) k).
Proof. exact @C09_batches_proof. Qed.
Print Assumptions C09_batches.

(** C39 for Get: trees with the same contents answer every lookup alike, whatever their histories. *)
Theorem C39_get_partial : forall {V} `{GoZero V} (os os' : list (op V)) d d' h t rs h' t' rs',
  tame os d -> tame os' d' -> (N.of_nat (length os) < 2 ^ 64)%N -> (N.of_nat (length os') < 2 ^ 64)%N ->
  build os h t rs -> build os' h' t' rs' -> ref_ops os ∅ = ref_ops os' ∅ ->
  forall k, is_bytes k -> treeGet h t k = treeGet h' t' k.
Proof. exact @C39_get_partial_proof. Qed.
Print Assumptions C39_get_partial.
