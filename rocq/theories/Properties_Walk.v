(** Walk and LongestPrefix on histories of insertions, and what goes wrong after Deletes.  The proofs are in PropWalk.v,
    with concrete cases. *)
From Verif Require Import SpecWalk ReadWalk PropMap PropWalk Refute.
From stdpp Require Import list.
Local Open Scope nat_scope.
Local Open Scope list_scope.


(** C20 on histories of insertions of valid keys: Walk does not panic; it calls the callback on stored keys only, on
    none twice, on every stored key that is not a proper prefix of another stored key, and stops when the callback
    returns true.  (The values are zero values: C20_refuted.) *)
Theorem C20_partial : forall {V} `{GoZero V} (os : list (op V)) h t rs,
  Forall (fun o => is_insert o /\ valid_key (op_key o)) os -> (N.of_nat (length os) < 2 ^ 64)%N -> build os h t rs -> ref_ops os ∅ <> ∅ ->
  exists l, NoDup l /\ (forall k, k ∈ l -> is_Some (ref_ops os ∅ !! k)) /\
    (forall k, is_Some (ref_ops os ∅ !! k) -> (forall k', is_Some (ref_ops os ∅ !! k') -> k `prefix_of` k' -> k' = k) -> k ∈ l) /\
    forall A (fn : bytes -> V -> A -> A * bool) acc, treeWalk fn h t acc = Ok (visit fn l acc).1.
Proof. exact @C20_partial_proof. Qed.
Print Assumptions C20_partial.

(** C20 on prefix-free sets of keys: Walk visits exactly the stored keys, each once. *)
Theorem C20_free_partial : forall {V} `{GoZero V} (os : list (op V)) h t rs,
  Forall (fun o => is_insert o /\ valid_key (op_key o)) os -> (N.of_nat (length os) < 2 ^ 64)%N -> build os h t rs -> ref_ops os ∅ <> ∅ ->
  prefix_free (ref_ops os ∅) ->
  exists l, l ≡ₚ (map_to_list (ref_ops os ∅)).*1 /\ forall A (fn : bytes -> V -> A -> A * bool) acc, treeWalk fn h t acc = Ok (visit fn l acc).1.
Proof. exact @C20_free_partial_proof. Qed.
Print Assumptions C20_free_partial.

(** After a Delete, Walk visits a stored key twice: the removed child leaves a second pointer to the last one. *)
Theorem C20_twice_refuted : exists (os : list (op nat)) h t rs,
  Forall (fun o => valid_key (op_key o)) os /\ build os h t rs /\ prefix_free (ref_ops os ∅) /\
  treeWalk (fun k v acc => (acc ++ [k], false)) h t [] = Ok [B "b"; B "c"; B "d"; B "d"].
Proof. exact C20_twice_refuted_proof. Qed.
Print Assumptions C20_twice_refuted.

(** After Deletes, Walk visits keys that are no longer stored. *)
Theorem C20_deleted_refuted : exists (os : list (op nat)) h t rs k l,
  Forall (fun o => valid_key (op_key o)) os /\ build os h t rs /\ ref_ops os ∅ !! k = None /\
  treeWalk (fun k v acc => (acc ++ [k], false)) h t [] = Ok l /\ k ∈ l.
Proof. exact C20_deleted_refuted_proof. Qed.
Print Assumptions C20_deleted_refuted.

(** C18 on non-empty histories of insertions of valid keys that go on in at most 12 ways after every prefix, for queries q
    along which no stored key goes on with a byte below '$' after another stored key, if some stored key is a prefix of q or no stored key is a prefix of all others: LongestPrefix(q)
    returns the pair with the longest stored key that is a prefix of q, and reports false if there is none. *)
Theorem C18_partial : forall {V} `{GoZero V} (os : list (op V)) h t rs q,
  Forall (fun o => is_insert o /\ valid_key (op_key o)) os -> (N.of_nat (length os) < 2 ^ 64)%N -> build os h t rs -> ref_ops os ∅ <> ∅ ->
  narrow (ref_ops os ∅) -> is_bytes q -> orderly_along (ref_ops os ∅) q ->
  (exists k, is_Some (ref_ops os ∅ !! k) /\ k `prefix_of` q) \/ ~ has_stem (ref_ops os ∅) ->
  exists o, treeLongestPrefix h t q = Ok o /\
    match o with Some (k, v) => longest_stored (ref_ops os ∅) q k v | None => none_stored (ref_ops os ∅) q end.
Proof. exact @C18_partial_proof. Qed.
Print Assumptions C18_partial.

(** After Deletes, LongestPrefix returns a key that is no longer stored. *)
Theorem C18_deleted_refuted : exists (os : list (op nat)) h t rs q k v,
  Forall (fun o => valid_key (op_key o)) os /\ build os h t rs /\ valid_key q /\ highbytes q /\ ref_ops os ∅ !! k = None /\
  treeLongestPrefix h t q = Ok (Some (k, v)).
Proof. exact C18_deleted_refuted_proof. Qed.
Print Assumptions C18_deleted_refuted.

(** C18 with a node of kind 48, insertions only, all keys of at most one byte, above '$': LongestPrefix of a stored key
    returns a shorter one (the children are scanned in the order of their slots, tree.go:119). *)
Theorem C18_wide_refuted : exists (os : list (op nat)) h t rs q v v',
  Forall (fun o => is_insert o /\ valid_key (op_key o) /\ highbytes (op_key o) /\ length (op_key o) <= 1) os /\ build os h t rs /\
  q <> [] /\ ref_ops os ∅ !! q = Some v /\ treeLongestPrefix h t q = Ok (Some ([], v')).
Proof. exact C18_wide_refuted_proof. Qed.
Print Assumptions C18_wide_refuted.

(** C51 After insertions only, whatever the keys, a Node4, Node16 or Node48 anywhere in memory has no child pointer in the slots
    from numChildren on, so that scans over all slots see each child once. *)
Theorem C51 : forall {V} `{GoZero V} (os : list (op V)) h t rs a n i c,
  Forall (fun o => is_insert o) os -> build os h t rs -> h_nodes h !! a = Some n -> n_kind n <> K256 ->
  n_children n !! i = Some (Some c) -> i < n_nch n.
Proof. exact @C51_proof. Qed.
Print Assumptions C51.

(** After a Delete there can be one. *)
Theorem C51_delete_refuted : exists (os : list (op nat)) h t rs a n i c,
  Forall (fun o => valid_key (op_key o)) os /\ build os h t rs /\ a = r_root t /\ h_nodes h !! a = Some n /\ n_kind n = K4 /\
  n_children n !! i = Some (Some c) /\ n_nch n <= i.
Proof. exact C51_delete_refuted_proof. Qed.
Print Assumptions C51_delete_refuted.
