(** C62: iterators that are used again.  The proofs are in PropReuse.v, with concrete cases. *)
From Verif Require Import ReadTop PropWorld PropMap Refute PropRead SpecReuse PropReuse.
From stdpp Require Import list.
Local Open Scope nat_scope.
Local Open Scope list_scope.


(** C62: Next on an iterator that has not been sought yields nothing (on any heap). *)
Theorem C62_unsought : forall {V} `{GoZero V} (h : heap V) (root : addr),
  yields (iterNext h) (newIter root) [] /\ yields (lowerNext h) (newLowerIter root) [].
Proof. exact @C62_unsought_proof. Qed.
Print Assumptions C62_unsought.

(** C62, forward iterator: after any use of an iterator of the tree - seeks with any byte strings, Next, iterators obtained
    from the nodes that seeks returned - a further SeekPrefix(p) does not panic, and Next then yields only stored
    pairs whose key starts with p, none twice.  Missing: all of them (false, see C62_refuted). *)
Theorem C62_partial : forall {V} `{GoZero V} (os : list (op V)) d h t rs it p,
  tame os d -> (N.of_nat (length os) < 2 ^ 64)%N -> build os h t rs -> used h (newIter (r_root t)) it ->
  is_bytes p -> last p <> Some dollar -> (ref_ops os ∅ = ∅ -> p <> []) ->
  exists it' l, seekPrefix h it p = Ok it' /\ yields (iterNext h) it' l /\ some_pairs_with (ref_ops os ∅) p l.
Proof. exact @C62_partial_proof. Qed.
Print Assumptions C62_partial.

(** C62: as long as all seeks so far had the empty prefix, the next SeekPrefix(p) works as on a new iterator. *)
Theorem C62_rewound : forall {V} `{GoZero V} (h : heap V) (root : addr) it p,
  rewound h (newIter root) it -> seekPrefix h it p = seekPrefix h (newIter root) p.
Proof. exact @C62_rewound_proof. Qed.
Print Assumptions C62_rewound.

(** C62, lower bound iterator, on any heap: after any use, either every further SeekLowerBound works as on a new iterator, or
    every further one finds nothing. *)
Theorem C62_lower : forall {V} `{GoZero V} (h : heap V) (root : addr) it, lused h (newLowerIter root) it ->
  (forall k, seekLowerBound h it k = seekLowerBound h (newLowerIter root) k) \/
  (forall k, exists it', seekLowerBound h it k = Ok it' /\ yields (lowerNext h) it' []).
Proof. exact @C62_lower_proof. Qed.
Print Assumptions C62_lower.

(** C62, reverse iterator, on any heap: SeekReverseLowerBound can be called once.  After it, and after any further use, another
    SeekReverseLowerBound finds nothing and SeekPrefix panics. *)
Theorem C62_reverse : forall {V} `{GoZero V} (h : heap V) (root : addr) it k spare it1 it2,
  rused h (newRevIter root) it -> seekReverseLowerBound h it k spare = Ok it1 -> rused h it1 it2 ->
  (forall k' spare', exists it3, seekReverseLowerBound h it2 k' spare' = Ok it3 /\ yields (prev h) it3 []) /\
  (forall p, revSeekPrefix h it2 p = Panic).
Proof. exact @C62_reverse_proof. Qed.
Print Assumptions C62_reverse.

(** C62 is false in general: seeking the same prefix twice loses a key. *)
Theorem C62_refuted : exists (os : list (op nat)) h t rs p it1 it2 l k v,
  Forall (fun o => valid_key (op_key o) /\ is_insert o) os /\ build os h t rs /\ valid_key p /\
  seekPrefix h (newIter (r_root t)) p = Ok it1 /\ seekPrefix h it1 p = Ok it2 /\ yields (iterNext h) it2 l /\
  ref_ops os ∅ !! k = Some v /\ has_prefix k p = true /\ ~ (k, v) ∈ l.
Proof. exact C62_refuted_proof. Qed.
Print Assumptions C62_refuted.

(** C62, lower bound iterator: a seek beyond the last key leaves an iterator that finds nothing any more. *)
Theorem C62_lower_refuted : exists (os : list (op nat)) h t rs k1 k2 it1 it2 it l,
  Forall (fun o => valid_key (op_key o) /\ is_insert o) os /\ build os h t rs /\ valid_key k1 /\ valid_key k2 /\
  seekLowerBound h (newLowerIter (r_root t)) k1 = Ok it1 /\ seekLowerBound h it1 k2 = Ok it2 /\ yields (lowerNext h) it2 [] /\
  seekLowerBound h (newLowerIter (r_root t)) k2 = Ok it /\ yields (lowerNext h) it l /\ l <> [].
Proof. exact C62_lower_refuted_proof. Qed.
Print Assumptions C62_lower_refuted.
