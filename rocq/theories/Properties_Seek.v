(** The lower-bound and reverse iterators on tame histories.  The proofs are in PropSeek.v, with concrete
    cases. *)
From Verif Require Import ReadTop PropMap PropSeek Refute.
From stdpp Require Import list.
Local Open Scope nat_scope.
Local Open Scope list_scope.


(** C22 on tame histories whose stored keys are prefix-free and go on in at most 12 ways after every prefix, where
    stored keys go on after the bound with bytes above '$' only, and the bound after no stored key with a byte below '$': if SeekLowerBound(k) returns, Next yields stored pairs in ascending order, among them
    every pair whose key is not below k. *)
Theorem C22_partial : forall {V} `{GoZero V} (os : list (op V)) d h t rs k it,
  tame os d -> (N.of_nat (length os) < 2 ^ 64)%N -> build os h t rs ->
  ref_ops os ∅ <> ∅ -> neat (ref_ops os ∅) k -> prefix_free (ref_ops os ∅) -> narrow (ref_ops os ∅) ->
  seekLowerBound h (newLowerIter (r_root t)) k = Ok it ->
  exists l, yields (lowerNext h) it l /\ ascending l /\ (forall k' v, (k', v) ∈ l -> ref_ops os ∅ !! k' = Some v) /\
    (forall k' v, ref_ops os ∅ !! k' = Some v -> ~ klt k' k -> (k', v) ∈ l).
Proof. exact @C22_partial_proof. Qed.
Print Assumptions C22_partial.

(** C22 for the empty bound on tame histories: SeekLowerBound("") returns, and Next yields all stored pairs, each
    once; in ascending order if no stored key goes on with a byte below '$' after another one. *)
Theorem C22_empty_partial : forall {V} `{GoZero V} (os : list (op V)) d h t rs,
  tame os d -> (N.of_nat (length os) < 2 ^ 64)%N -> build os h t rs -> ref_ops os ∅ <> ∅ ->
  exists it l, seekLowerBound h (newLowerIter (r_root t)) [] = Ok it /\ yields (lowerNext h) it l /\
    l ≡ₚ map_to_list (ref_ops os ∅) /\ (orderly (ref_ops os ∅) -> ascending l).
Proof. exact @C22_empty_partial_proof. Qed.
Print Assumptions C22_empty_partial.

(** C23 on tame histories where the empty key is not stored, for an iterator without seek: Previous yields all stored
    pairs, each once; in descending order if the stored keys are prefix-free. *)
Theorem C23_partial : forall {V} `{GoZero V} (os : list (op V)) d h t rs,
  tame os d -> (N.of_nat (length os) < 2 ^ 64)%N -> build os h t rs -> ref_ops os ∅ !! [] = None -> ref_ops os ∅ <> ∅ ->
  exists l, yields (prev h) (newRevIter (r_root t)) l /\ l ≡ₚ map_to_list (ref_ops os ∅) /\
    (prefix_free (ref_ops os ∅) -> descending l).
Proof. exact @C23_partial_proof. Qed.
Print Assumptions C23_partial.

(** C23 on tame histories where the empty key is not stored, after SeekPrefix(p) for a prefix p of some stored key:
    Previous yields the stored pairs whose key has the prefix p, each once; in descending order if the stored keys are
    prefix-free. *)
Theorem C23_prefix_partial : forall {V} `{GoZero V} (os : list (op V)) d h t rs p,
  tame os d -> (N.of_nat (length os) < 2 ^ 64)%N -> build os h t rs -> ref_ops os ∅ !! [] = None ->
  is_bytes p -> last p <> Some dollar -> (exists k, is_Some (ref_ops os ∅ !! k) /\ p `prefix_of` k) ->
  exists ri l, revSeekPrefix h (newRevIter (r_root t)) p = Ok ri /\ yields (prev h) ri l /\ pairs_with (ref_ops os ∅) p l /\
    (prefix_free (ref_ops os ∅) -> descending l).
Proof. exact @C23_prefix_partial_proof. Qed.
Print Assumptions C23_prefix_partial.

(** C50 On tame histories whose stored keys go on in at most 12 ways after every prefix, and where neither a stored key
    nor the bound goes on with a byte below '$' after another stored key or the bound (and no stored key with '$' after the
    bound): whenever SeekReverseLowerBound(k) returns, Previous yields exactly the stored pairs whose key is not above k,
    in descending order.  [spare] are the bytes behind the searched path in memory. *)
Theorem C50 : forall {V} `{GoZero V} (os : list (op V)) d h t rs k spare ri,
  tame os d -> (N.of_nat (length os) < 2 ^ 64)%N -> build os h t rs ->
  ref_ops os ∅ <> ∅ -> orderly (ref_ops os ∅) -> neat (ref_ops os ∅) k -> narrow (ref_ops os ∅) ->
  seekReverseLowerBound h (newRevIter (r_root t)) k spare = Ok ri ->
  exists l, yields (prev h) ri l /\ descending l /\ (forall k' v, (k', v) ∈ l <-> ref_ops os ∅ !! k' = Some v /\ ~ klt k k').
Proof. exact @C50_proof. Qed.
Print Assumptions C50.

(** C22 with a node of kind 256, all keys single bytes above '$': SeekLowerBound of a stored key yields this key only,
    and not the keys above it (the children are counted from numChildren instead of 255, lower_bound_iterator.go:328). *)
Theorem C22_wide_refuted : exists (os : list (op nat)) h t rs k it k' v',
  Forall single os /\ build os h t rs /\ seekLowerBound h (newLowerIter (r_root t)) [k] = Ok it /\
  ref_ops os ∅ !! [k'] = Some v' /\ k < k' /\ yields (lowerNext h) it [([k], 25)].
Proof. exact C22_wide_refuted_proof. Qed.
Print Assumptions C22_wide_refuted.

(** C22, C23 with a node of kind 48, all keys single bytes above '$': SeekLowerBound and SeekReverseLowerBound panic
    when no key starts with the byte of the bound (node_48.go:185). *)
Theorem C22_node48_refuted : exists (os : list (op nat)) h t rs k,
  Forall single os /\ build os h t rs /\ dollar < k < 256 /\ seekLowerBound h (newLowerIter (r_root t)) [k] = Panic /\
  seekReverseLowerBound h (newRevIter (r_root t)) [k] [] = Panic.
Proof. exact C22_node48_refuted_proof. Qed.
Print Assumptions C22_node48_refuted.

(** C23 with a node of kind 48: keys are yielded in the order in which they were inserted. *)
Theorem C23_node48_refuted : exists (os : list (op nat)) h t rs k ri,
  Forall single os /\ build os h t rs /\ seekReverseLowerBound h (newRevIter (r_root t)) [k] [] = Ok ri /\
  yields (prev h) ri [([100], 0); ([106], 3); ([104], 2); ([102], 1)].
Proof. exact C23_node48_refuted_proof. Qed.
Print Assumptions C23_node48_refuted.

(** C23 with a node of kind 256: SeekReverseLowerBound of a stored key yields nothing. *)
Theorem C23_wide_refuted : exists (os : list (op nat)) h t rs k v ri,
  Forall single os /\ build os h t rs /\ ref_ops os ∅ !! [k] = Some v /\ seekReverseLowerBound h (newRevIter (r_root t)) [k] [] = Ok ri /\
  yields (prev h) ri [].
Proof. exact C23_wide_refuted_proof. Qed.
Print Assumptions C23_wide_refuted.
