(** C66: iteration after DeletePrefix, and the trees on which DeletePrefix does exactly what it should.  The proofs are in
    PropDelIter.v, with concrete cases. *)
From Verif Require Import PropDelIter.
From stdpp Require Import list.
Local Open Scope nat_scope.
Local Open Scope list_scope.


(** C66: non-empty histories of insertions of valid keys, narrow and roomy maps, except the one case in which the only
    stored key goes.  After DeletePrefix(p) full iteration ends; it yields every stored key that does not start with p,
    with its value; of the keys that start with p it yields at most those that are proper prefixes of other stored keys;
    it yields no key twice, and in ascending order if no stored key goes on with a byte below '$' after
    another stored key. *)
Theorem C66_iter : forall {V} `{GoZero V} (os : list (op V)) h t rs p,
  Forall (fun o => is_insert o /\ valid_key (op_key o)) os -> (N.of_nat (length os) < 2 ^ 64)%N -> build os h t rs ->
  ref_ops os ∅ <> ∅ -> narrow (ref_ops os ∅) -> roomy (ref_ops os ∅) -> (size (ref_ops os ∅) = 1 -> starting (ref_ops os ∅) p = 0) ->
  exists h' t' b l, treeDeletePrefix t p h = (Ok (t', b), h') /\ iterates h' (r_root t') [] l /\
    NoDup l.*1 /\ (orderly (ref_ops os ∅) -> ascending l) /\
    (forall k v, ref_ops os ∅ !! k = Some v -> ~ p `prefix_of` k -> (k, v) ∈ l) /\
    (forall k v, (k, v) ∈ l -> ref_ops os ∅ !! k = Some v /\ (p `prefix_of` k -> shadowed (ref_ops os ∅) k)).
Proof. exact @C66_iter_proof. Qed.
Print Assumptions C66_iter.

(** C66: if moreover no stored key that starts with p is a proper prefix of another one, then full iteration yields
    the pairs of the reference map whose keys do not start with p. *)
Theorem C66_iter_exact : forall {V} `{GoZero V} (os : list (op V)) h t rs p,
  Forall (fun o => is_insert o /\ valid_key (op_key o)) os -> (N.of_nat (length os) < 2 ^ 64)%N -> build os h t rs ->
  ref_ops os ∅ <> ∅ -> narrow (ref_ops os ∅) -> roomy (ref_ops os ∅) -> (size (ref_ops os ∅) = 1 -> starting (ref_ops os ∅) p = 0) ->
  (forall k, is_Some (ref_ops os ∅ !! k) -> p `prefix_of` k -> ~ shadowed (ref_ops os ∅) k) ->
  exists h' t' b l, treeDeletePrefix t p h = (Ok (t', b), h') /\ iterates h' (r_root t') [] l /\
    l ≡ₚ map_to_list (without (ref_ops os ∅) p) /\ (orderly (ref_ops os ∅) -> ascending l).
Proof. exact @C66_iter_exact_proof. Qed.
Print Assumptions C66_iter_exact.

(** C66: if, besides, the stored keys that start with p are none or at least two, then Get too answers as the
    reference map without those keys, and Len drops by their number. *)
Theorem C66_exact : forall {V} `{GoZero V} (os : list (op V)) h t rs p,
  Forall (fun o => is_insert o /\ valid_key (op_key o)) os -> (N.of_nat (length os) < 2 ^ 64)%N -> build os h t rs ->
  ref_ops os ∅ <> ∅ -> narrow (ref_ops os ∅) -> roomy (ref_ops os ∅) -> starting (ref_ops os ∅) p <> 1 ->
  (forall k, is_Some (ref_ops os ∅ !! k) -> p `prefix_of` k -> ~ shadowed (ref_ops os ∅) k) ->
  exists h' t' b l, treeDeletePrefix t p h = (Ok (t', b), h') /\
    (b = true <-> starting (ref_ops os ∅) p <> 0) /\ (treeLen t' + N.of_nat (starting (ref_ops os ∅) p) = treeLen t)%N /\
    (forall k, is_bytes k -> treeGet h' t' k = Ok (ref_get (without (ref_ops os ∅) p) k)) /\
    iterates h' (r_root t') [] l /\ l ≡ₚ map_to_list (without (ref_ops os ∅) p) /\ (orderly (ref_ops os ∅) -> ascending l).
Proof. exact @C66_exact_proof. Qed.
Print Assumptions C66_exact.

(** C66: iteration and Get do not agree after DeletePrefix of a prefix that one stored key has: iteration yields the
    two other keys, Get finds only one of them. *)
Theorem C66_agree_refuted : exists (os : list (op nat)) h t rs p h' t',
  Forall (fun o => is_insert o /\ valid_key (op_key o)) os /\ build os h t rs /\ narrow (ref_ops os ∅) /\ starting (ref_ops os ∅) p = 1 /\
  treeDeletePrefix t p h = (Ok (t', true), h') /\ iterates h' (r_root t') [] [(B "b", 2); (B "c", 3)] /\
  treeGet h' t' (B "b") = Ok (0, false).
Proof. exact C66_agree_refuted_proof. Qed.
Print Assumptions C66_agree_refuted.
