(** Refinement of arbitrary covered histories: many trees and transactions at once.  The proofs are in
    PropWorldRef.v, with concrete cases. *)
From Verif Require Import ReadTop Observe PropWorld PropWorldRef WorldRef.
From stdpp Require Import list.
Local Open Scope nat_scope.
Local Open Scope list_scope.


(** C47: in a covered history (any number of trees and transactions, interleaved in any way, no transaction
    updated after it was committed or cloned) no call panics and every call returns what the reference maps say. *)
Theorem C47 : forall {V} `{GoZero V} (cs : list (call V)) g,
  covered cs g -> disciplined cs -> (N.of_nat (length cs) < 2 ^ 64)%N ->
  exists rs w, exec cs w_init = (rs, w) /\ length rs = length cs /\
    forall i c gi, cs !! i = Some c -> covered (take i cs) gi -> exists r, rs !! i = Some (Ok r) /\ returns c gi r.
Proof. exact @C47_proof. Qed.
Print Assumptions C47.

(** C48: after a covered history every tree obtained so far, and every transaction, answers all its reads as its
    reference map says; Len is the size of the map plus at most the number of miscounted overwrites. *)
Theorem C48 : forall {V} `{GoZero V} (cs : list (call V)) g rs w,
  covered cs g -> disciplined cs -> (N.of_nat (length cs) < 2 ^ 64)%N -> exec cs w_init = (rs, w) ->
  length (w_trees w) = length (g_trees g) /\ length (w_txns w) = length (g_txns g) /\
  (forall i t m d, w_trees w !! i = Some t -> g_trees g !! i = Some (m, d) ->
     reads_as (w_h w) (r_root t) m /\ exists x, x <= d /\ treeLen t = N.of_nat (size m + x)) /\
  (forall j t m d f, w_txns w !! j = Some t -> g_txns g !! j = Some (m, d, f) -> reads_as (w_h w) (t_root t) m).
Proof. exact @C48_proof. Qed.
Print Assumptions C48.

(** C49: an iterator obtained in a covered history yields exactly the pairs of the tree's map at that time, whatever
    calls are made before and between its Next calls. *)
Theorem C49 : forall {V} `{GoZero V} (cs : list (call V)) css g rs w i t m d p,
  covered cs g -> disciplined (cs ++ concat css) -> (N.of_nat (length cs) < 2 ^ 64)%N -> exec cs w_init = (rs, w) ->
  w_trees w !! i = Some t -> g_trees g !! i = Some (m, d) -> is_bytes p -> last p <> Some dollar -> (m = ∅ -> p <> []) ->
  exists it l, seekPrefix (w_h w) (newIter (r_root t)) p = Ok it /\ pairs_with m p l /\ (orderly m -> ascending l) /\
    (length css <= S (length l) -> interleaved iterNext css w it = Ok (take (length css) ((Some <$> l) ++ [None]))).
Proof. exact @C49_proof. Qed.
Print Assumptions C49.

(** C49, the lower bound iterator: obtained in a covered history, sought to k, it yields ascending pairs of the tree's
    map at that time, among them all not below k, whatever calls are made before and between its Next calls.  For
    prefix-free sets of keys that go on in at most 12 ways after every prefix, and seeks that return. *)
Theorem C49_lower : forall {V} `{GoZero V} (cs : list (call V)) css g rs w i t m d k it,
  covered cs g -> disciplined (cs ++ concat css) -> (N.of_nat (length cs) < 2 ^ 64)%N -> exec cs w_init = (rs, w) ->
  w_trees w !! i = Some t -> g_trees g !! i = Some (m, d) -> m <> ∅ -> prefix_free m -> narrow m -> neat m k ->
  seekLowerBound (w_h w) (newLowerIter (r_root t)) k = Ok it ->
  exists l, pairs_from m k l /\
    (length css <= S (length l) -> interleaved lowerNext css w it = Ok (take (length css) ((Some <$> l) ++ [None]))).
Proof. exact @C49_lower_proof. Qed.
Print Assumptions C49_lower.

(** C49, the reverse iterator after SeekReverseLowerBound(k): it yields the pairs of the tree's map at that time that
    are not above k, in descending order, whatever calls are made before and between its Previous calls. *)
Theorem C49_reverse : forall {V} `{GoZero V} (cs : list (call V)) css g rs w i t m d k spare ri,
  covered cs g -> disciplined (cs ++ concat css) -> (N.of_nat (length cs) < 2 ^ 64)%N -> exec cs w_init = (rs, w) ->
  w_trees w !! i = Some t -> g_trees g !! i = Some (m, d) -> m <> ∅ -> orderly m -> narrow m -> neat m k ->
  seekReverseLowerBound (w_h w) (newRevIter (r_root t)) k spare = Ok ri ->
  exists l, pairs_upto m k l /\
    (length css <= S (length l) -> interleaved prev css w ri = Ok (take (length css) ((Some <$> l) ++ [None]))).
Proof. exact @C49_reverse_proof. Qed.
Print Assumptions C49_reverse.
