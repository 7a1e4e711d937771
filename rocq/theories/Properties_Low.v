(** SeekLowerBound: the keys below the bound, when it returns, when it is exact, and that it depends on the history.  The proofs are in PropLow.v, with concrete
    cases. *)
From Verif Require Import ReadTop PropMap PropSeek PropLow Refute.
From stdpp Require Import list.
Local Open Scope nat_scope.
Local Open Scope list_scope.


(** C58, the pairs below the bound: on tame histories without deletes of keys that have stored extensions, whose
    stored keys are prefix-free and go on in at most 12 ways after every prefix, for a bound k where neither a stored key
    goes on with a byte below '$' after k nor k after a stored key: if
    SeekLowerBound(k) returns, Next yields stored pairs in ascending order, all those whose key is not below k, and of
    those below k only hidden ones. *)
Theorem C58_extra : forall {V} `{GoZero V} (os : list (op V)) d h t rs k it,
  tame os d -> (N.of_nat (length os) < 2 ^ 64)%N -> build os h t rs -> (forall w, ~ hollow os w) ->
  ref_ops os ∅ <> ∅ -> prefix_free (ref_ops os ∅) -> narrow (ref_ops os ∅) -> neat (ref_ops os ∅) k ->
  seekLowerBound h (newLowerIter (r_root t)) k = Ok it ->
  exists l, yields (lowerNext h) it l /\ ascending l /\ (forall k' v, (k', v) ∈ l -> ref_ops os ∅ !! k' = Some v) /\
    (forall k' v, ref_ops os ∅ !! k' = Some v -> ~ klt k' k -> (k', v) ∈ l) /\
    (forall k' v, (k', v) ∈ l -> klt k' k -> hidden (ref_ops os ∅) k k').
Proof. exact @C58_extra_proof. Qed.
Print Assumptions C58_extra.

(** C58, when it returns: on such histories SeekLowerBound(k) does not panic, for any k, if two stored keys differ in
    their first byte and the stored keys have no common run of more than 10 bytes. *)
Theorem C58_returns : forall {V} `{GoZero V} (os : list (op V)) d h t rs k,
  tame os d -> (N.of_nat (length os) < 2 ^ 64)%N -> build os h t rs -> (forall w, ~ hollow os w) ->
  prefix_free (ref_ops os ∅) -> narrow (ref_ops os ∅) -> forked (ref_ops os ∅) -> short_runs (ref_ops os ∅) ->
  exists it, seekLowerBound h (newLowerIter (r_root t)) k = Ok it.
Proof. exact @C58_returns_proof. Qed.
Print Assumptions C58_returns.

(** C58: on such histories, if no stored key below k is hidden, SeekLowerBound(k) returns and Next yields exactly the
    stored pairs whose key is not below k, in ascending order. *)
Theorem C58_exact : forall {V} `{GoZero V} (os : list (op V)) d h t rs k,
  tame os d -> (N.of_nat (length os) < 2 ^ 64)%N -> build os h t rs -> (forall w, ~ hollow os w) ->
  prefix_free (ref_ops os ∅) -> narrow (ref_ops os ∅) -> forked (ref_ops os ∅) -> short_runs (ref_ops os ∅) ->
  neat (ref_ops os ∅) k -> (forall k', is_Some (ref_ops os ∅ !! k') -> klt k' k -> ~ hidden (ref_ops os ∅) k k') ->
  exists it l, seekLowerBound h (newLowerIter (r_root t)) k = Ok it /\ yields (lowerNext h) it l /\ ascending l /\
    forall k' v, (k', v) ∈ l <-> (ref_ops os ∅ !! k' = Some v /\ ~ klt k' k).
Proof. exact @C58_exact_proof. Qed.
Print Assumptions C58_exact.

(** C58: the same where the stored keys branch at every byte along k. *)
Theorem C58_branching : forall {V} `{GoZero V} (os : list (op V)) d h t rs k,
  tame os d -> (N.of_nat (length os) < 2 ^ 64)%N -> build os h t rs -> (forall w, ~ hollow os w) ->
  prefix_free (ref_ops os ∅) -> narrow (ref_ops os ∅) -> forked (ref_ops os ∅) -> short_runs (ref_ops os ∅) ->
  neat (ref_ops os ∅) k -> (forall q b i, (q ++ [b]) `prefix_of` k -> is_Some (ref_ops os ∅ !! i) -> (q ++ [b]) `prefix_of` i ->
    exists j, is_Some (ref_ops os ∅ !! j) /\ q `prefix_of` j /\ ~ (q ++ [b]) `prefix_of` j) ->
  exists it l, seekLowerBound h (newLowerIter (r_root t)) k = Ok it /\ yields (lowerNext h) it l /\ ascending l /\
    forall k' v, (k', v) ∈ l <-> (ref_ops os ∅ !! k' = Some v /\ ~ klt k' k).
Proof. exact @C58_branching_proof. Qed.
Print Assumptions C58_branching.

(** C59, where the contents do determine the result: two such histories with the same contents, and a bound with no
    stored key hidden below it, yield the same sequence. *)
Theorem C59_partial : forall {V} `{GoZero V} (os os' : list (op V)) d d' h t rs h' t' rs' k,
  tame os d -> tame os' d' -> (N.of_nat (length os) < 2 ^ 64)%N -> (N.of_nat (length os') < 2 ^ 64)%N ->
  build os h t rs -> build os' h' t' rs' -> (forall w, ~ hollow os w) -> (forall w, ~ hollow os' w) -> ref_ops os ∅ = ref_ops os' ∅ ->
  prefix_free (ref_ops os ∅) -> narrow (ref_ops os ∅) -> forked (ref_ops os ∅) -> short_runs (ref_ops os ∅) ->
  neat (ref_ops os ∅) k -> (forall k', is_Some (ref_ops os ∅ !! k') -> klt k' k -> ~ hidden (ref_ops os ∅) k k') ->
  exists it it' l, seekLowerBound h (newLowerIter (r_root t)) k = Ok it /\ seekLowerBound h' (newLowerIter (r_root t')) k = Ok it' /\
    yields (lowerNext h) it l /\ yields (lowerNext h') it' l.
Proof. exact @C59_partial_proof. Qed.
Print Assumptions C59_partial.

(** C59: what SeekLowerBound yields depends on the history, not only on the contents: two histories end with the
    same contents, SeekLowerBound("xabz") returns on both trees, and only one of them yields "xabcde", which is below the bound. *)
Theorem C59_refuted : exists (os os' : list (op nat)) h t rs h' t' rs' k it it' l l', tame os 0 /\ tame os' 0 /\
  build os h t rs /\ build os' h' t' rs' /\ ref_ops os ∅ = ref_ops os' (∅ : gmap (list nat) nat) /\
  seekLowerBound h (newLowerIter (r_root t)) k = Ok it /\ seekLowerBound h' (newLowerIter (r_root t')) k = Ok it' /\
  yields (lowerNext h) it l /\ yields (lowerNext h') it' l' /\ l <> l'.
Proof. exact C59_refuted_proof. Qed.
Print Assumptions C59_refuted.
