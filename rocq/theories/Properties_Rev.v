(** SeekReverseLowerBound: when it returns, when it panics, and what the capacity of a slice and deletes do to it.  The proofs
    are in PropRev.v, with concrete cases. *)
From Verif Require Import ReadTop PropMap PropSeek PropRev Refute.
From stdpp Require Import list.
Local Open Scope nat_scope.
Local Open Scope list_scope.
Local Open Scope string_scope.


(** C65, when it returns: after insertions of keys without '$' whose stored keys go on in at most 12 ways after every
    prefix and have no common run of more than 10 bytes, SeekReverseLowerBound(k) does not panic, for any k, if the slice
    that holds the searched path has 10 spare bytes (or as many as k has). *)
Theorem C65_returns : forall {V} `{GoZero V} (os : list (op V)) h t rs k spare,
  Forall (fun o => is_insert o /\ valid_key (op_key o)) os -> (N.of_nat (length os) < 2 ^ 64)%N -> build os h t rs ->
  ref_ops os ∅ <> ∅ -> narrow (ref_ops os ∅) -> short_runs (ref_ops os ∅) -> 10 `min` length k <= length spare ->
  exists ri, seekReverseLowerBound h (newRevIter (r_root t)) k spare = Ok ri.
Proof. exact @C65_returns_proof. Qed.
Print Assumptions C65_returns.

(** C65: if moreover neither a stored key nor k goes on with a byte below '$' after another stored key or k (and no
    stored key with '$' after k), Previous then yields exactly the stored pairs whose key is not above k, in descending
    order. *)
Theorem C65_exact : forall {V} `{GoZero V} (os : list (op V)) h t rs k spare,
  Forall (fun o => is_insert o /\ valid_key (op_key o)) os -> (N.of_nat (length os) < 2 ^ 64)%N -> build os h t rs ->
  ref_ops os ∅ <> ∅ -> orderly (ref_ops os ∅) -> neat (ref_ops os ∅) k -> narrow (ref_ops os ∅) -> short_runs (ref_ops os ∅) -> 10 `min` length k <= length spare ->
  exists ri l, seekReverseLowerBound h (newRevIter (r_root t)) k spare = Ok ri /\ yields (prev h) ri l /\ descending l /\
    (forall k' v, (k', v) ∈ l <-> ref_ops os ∅ !! k' = Some v /\ ~ klt k k').
Proof. exact @C65_exact_proof. Qed.
Print Assumptions C65_exact.

(** C65, when it panics: on tame histories without deletes of keys that have stored extensions, if two keys are stored
    and all stored keys start with the same 11 bytes, SeekReverseLowerBound panics for every bound. *)
Theorem C65_panics : forall {V} `{GoZero V} (os : list (op V)) d h t rs w k spare,
  tame os d -> (N.of_nat (length os) < 2 ^ 64)%N -> build os h t rs -> (forall x, ~ hollow os x) ->
  length w = 11 -> (forall k', is_Some (ref_ops os ∅ !! k') -> w `prefix_of` k') ->
  (exists k1 k2, k1 <> k2 /\ is_Some (ref_ops os ∅ !! k1) /\ is_Some (ref_ops os ∅ !! k2)) ->
  seekReverseLowerBound h (newRevIter (r_root t)) k spare = Panic.
Proof. exact @C65_panics_proof. Qed.
Print Assumptions C65_panics.

(** C65, the spare bytes matter: a tree and a bound (of 15 bytes, so that its path fills 16) for which
    SeekReverseLowerBound panics without spare bytes and returns with two. *)
Theorem C65_capacity_refuted : exists (os : list (op nat)) h t rs k ri,
  Forall (fun o => is_insert o /\ valid_key (op_key o)) os /\ build os h t rs /\ highmap (ref_ops os ∅) /\ narrow (ref_ops os ∅) /\ short_runs (ref_ops os ∅) /\
  highbytes k /\ length k = 15 /\ seekReverseLowerBound h (newRevIter (r_root t)) k [] = Panic /\ seekReverseLowerBound h (newRevIter (r_root t)) k [0; 0] = Ok ri.
Proof. exact C65_capacity_refuted_proof. Qed.
Print Assumptions C65_capacity_refuted.

(** C65, deletes matter: after Insert "a", Insert "b", Delete "a" every SeekReverseLowerBound panics (removeChild4
    adds up the partialLens, the one of a fresh leaf node being 10). *)
Theorem C65_delete_refuted : exists (os : list (op nat)) h t rs,
  tame os 0 /\ (forall w, ~ hollow os w) /\ build os h t rs /\ ref_ops os ∅ = {[ B "b" := 2 ]} /\
  forall k spare, seekReverseLowerBound h (newRevIter (r_root t)) k spare = Panic.
Proof. exact C65_delete_refuted_proof. Qed.
Print Assumptions C65_delete_refuted.
