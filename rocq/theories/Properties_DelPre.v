(** C21: what DeletePrefix does to a tree.  The proofs are in PropDelPre.v, with concrete cases. *)
From Verif Require Import PropDelPre.
From stdpp Require Import list.
Local Open Scope nat_scope.
Local Open Scope list_scope.


(** C21 on non-empty histories of insertions of valid keys (and no byte string after which all 256 bytes are taken):
    DeletePrefix(p) returns, it reports whether some stored key starts with p, and Len drops by the number of stored keys
    that start with p.  Afterwards Get finds stored keys only, with their values; of the keys that start with p it finds
    at most those that are proper prefixes of other stored keys.  If the stored keys go on in at most 12 ways after every
    prefix, then a stored key k without the prefix is still found, unless the only key k1 that starts with p comes before
    k and no other stored key agrees with k1 on more than k does.  Missing from C21: that the keys that are proper
    prefixes of others go too (C21_refuted), that the keys behind a single removed key stay (C21_behind_refuted), wide
    nodes (C21_absent_refuted), the empty tree (C21_empty_refuted), histories with Delete (C21_len_refuted). *)
Theorem C21_partial : forall {V} `{GoZero V} (os : list (op V)) h t rs p,
  Forall (fun o => is_insert o /\ valid_key (op_key o)) os -> (N.of_nat (length os) < 2 ^ 64)%N -> build os h t rs ->
  ref_ops os ∅ <> ∅ -> roomy (ref_ops os ∅) ->
  exists h' t' b, treeDeletePrefix t p h = (Ok (t', b), h') /\
    (b = true <-> exists k, is_Some (ref_ops os ∅ !! k) /\ p `prefix_of` k) /\
    (treeLen t' + N.of_nat (starting (ref_ops os ∅) p) = treeLen t)%N /\
    (forall k, is_bytes k -> treeGet h' t' k = Ok (go_zero, false) \/
       exists v, treeGet h' t' k = Ok (v, true) /\ ref_ops os ∅ !! k = Some v /\ (p `prefix_of` k -> shadowed (ref_ops os ∅) k)) /\
    (narrow (ref_ops os ∅) -> forall k v, ref_ops os ∅ !! k = Some v -> ~ p `prefix_of` k -> clear_of (ref_ops os ∅) p k ->
       treeGet h' t' k = Ok (v, true)).
Proof. exact @C21_partial_proof. Qed.
Print Assumptions C21_partial.

(** C21 for the same histories and narrow maps, when no stored key or at least two stored keys start with p: no other
    key is lost. *)
Theorem C21_others_partial : forall {V} `{GoZero V} (os : list (op V)) h t rs p,
  Forall (fun o => is_insert o /\ valid_key (op_key o)) os -> (N.of_nat (length os) < 2 ^ 64)%N -> build os h t rs ->
  ref_ops os ∅ <> ∅ -> narrow (ref_ops os ∅) -> roomy (ref_ops os ∅) ->
  (forall k1, is_Some (ref_ops os ∅ !! k1) -> p `prefix_of` k1 -> exists k2, is_Some (ref_ops os ∅ !! k2) /\ k2 <> k1 /\ p `prefix_of` k2) ->
  exists h' t' b, treeDeletePrefix t p h = (Ok (t', b), h') /\
    forall k, is_bytes k -> ~ p `prefix_of` k -> treeGet h' t' k = treeGet h t k.
Proof. exact @C21_others_partial_proof. Qed.
Print Assumptions C21_others_partial.

(** C21 for the same histories and narrow maps, when no stored key starts with p: nothing changes. *)
Theorem C21_absent_partial : forall {V} `{GoZero V} (os : list (op V)) h t rs p,
  Forall (fun o => is_insert o /\ valid_key (op_key o)) os -> (N.of_nat (length os) < 2 ^ 64)%N -> build os h t rs ->
  ref_ops os ∅ <> ∅ -> narrow (ref_ops os ∅) -> roomy (ref_ops os ∅) -> (forall k, is_Some (ref_ops os ∅ !! k) -> ~ p `prefix_of` k) ->
  exists h' t', treeDeletePrefix t p h = (Ok (t', false), h') /\ treeLen t' = treeLen t /\ forall k, is_bytes k -> treeGet h' t' k = treeGet h t k.
Proof. exact @C21_absent_partial_proof. Qed.
Print Assumptions C21_absent_partial.

(** C21: the key behind a single removed key is lost, a narrow map. *)
Theorem C21_behind_refuted : exists (os : list (op nat)) h t rs p k v h' t',
  Forall (fun o => is_insert o /\ valid_key (op_key o)) os /\ build os h t rs /\ narrow (ref_ops os ∅) /\ ref_ops os ∅ !! k = Some v /\ ~ p `prefix_of` k /\
  treeDeletePrefix t p h = (Ok (t', true), h') /\ treeGet h' t' k = Ok (0, false).
Proof. exact C21_behind_refuted_proof. Qed.
Print Assumptions C21_behind_refuted.

Theorem C21_absent_refuted : exists (os : list (op nat)) h t rs p h' t',
  Forall (fun o => is_insert o /\ valid_key (op_key o)) os /\ build os h t rs /\ (forall k, is_Some (ref_ops os ∅ !! k) -> ~ p `prefix_of` k) /\
  treeDeletePrefix t p h = (Ok (t', false), h') /\ size (ref_ops os ∅) = 60 /\ treeLen t' = 60%N /\
  forall k, is_Some (ref_ops os ∅ !! k) -> treeGet h' t' k = Ok (0, false).
Proof. exact C21_absent_refuted_proof. Qed.
Print Assumptions C21_absent_refuted.

(** C21: DeletePrefix("") on an empty tree reports a deletion, and Len wraps around. *)
Theorem C21_empty_refuted : exists (h : heap nat) t rs h' t', build [] h t rs /\ treeLen t = 0%N /\
  treeDeletePrefix t [] h = (Ok (t', true), h') /\ treeLen t' = (2 ^ 64 - 1)%N.
Proof. exact C21_empty_refuted_proof. Qed.
Print Assumptions C21_empty_refuted.

(** C21: after a Delete, DeletePrefix counts a key twice. *)
Theorem C21_len_refuted : exists (os : list (op nat)) h t rs p h' t',
  Forall (fun o => valid_key (op_key o)) os /\ build os h t rs /\ starting (ref_ops os ∅) p = 1 /\ treeLen t = 3%N /\
  treeDeletePrefix t p h = (Ok (t', true), h') /\ treeLen t' = 1%N.
Proof. exact C21_len_refuted_proof. Qed.
Print Assumptions C21_len_refuted.

(** C21: after a Delete, DeletePrefix of all keys makes Len wrap around. *)
Theorem C21_wrap_refuted : exists (os : list (op nat)) h t rs h' t',
  Forall (fun o => valid_key (op_key o)) os /\ build os h t rs /\ starting (ref_ops os ∅) [] = 3 /\ treeLen t = 3%N /\
  treeDeletePrefix t [] h = (Ok (t', true), h') /\ treeLen t' = (2 ^ 64 - 1)%N.
Proof. exact C21_wrap_refuted_proof. Qed.
Print Assumptions C21_wrap_refuted.
