(** C61: key sets that may contain the terminator byte.  The proofs are in PropDom.v, with concrete cases. *)
From Verif Require Import Observe ReadTop PropMap SpecDom Refute PropDom.
From stdpp Require Import list.
Local Open Scope nat_scope.
Local Open Scope list_scope.


(** C61: on any set of keys that stays prefix-free when the terminator is appended, Inserts never panic and
    Get agrees with the finite map on every byte string. *)
Theorem C61_inserts : forall {V} `{GoZero V} (D : bytes -> Prop) (os : list (op V)), key_set D ->
  Forall (fun o => is_insert o /\ D (op_key o)) os -> (N.of_nat (length os) < 2 ^ 64)%N ->
  exists h t rs, build os h t rs /\ forall k, is_bytes k -> treeGet h t k = Ok (ref_get (ref_ops os ∅) k).
Proof. exact @C61_inserts_proof. Qed.
Print Assumptions C61_inserts.

(** C61: keys of one length, with any bytes. *)
Theorem C61_fixed : forall {V} `{GoZero V} (n : nat) (os : list (op V)),
  Forall (fun o => is_insert o /\ is_bytes (op_key o) /\ length (op_key o) = n) os -> (N.of_nat (length os) < 2 ^ 64)%N ->
  exists h t rs, build os h t rs /\ forall k, is_bytes k -> treeGet h t k = Ok (ref_get (ref_ops os ∅) k).
Proof. exact @C61_fixed_proof. Qed.
Print Assumptions C61_fixed.

(** C61: transactions of Inserts of such keys and Deletes of stored keys do not panic, report the previous
    values, and leave the contents of the reference map; Len is bounded as in C06_partial. *)
Theorem C61 : forall {V} `{GoZero V} (D : bytes -> Prop) (oss : list (list (op V))) d, key_set D -> tame_txns_over D oss d ->
  (N.of_nat (length (concat oss)) < 2 ^ 64)%N ->
  exists h t rs, build_txns oss h t rs /\ results_ok ∅ (concat oss) rs /\
    (N.of_nat (size (ref_ops (concat oss) ∅)) <= treeLen t <= N.of_nat (size (ref_ops (concat oss) ∅) + d))%N /\
    forall k, is_bytes k -> treeGet h t k = Ok (ref_get (ref_ops (concat oss) ∅) k).
Proof. exact @C61_proof. Qed.
Print Assumptions C61.

(** C61: Delete of a stored key after such a history. *)
Theorem C61_delete : forall {V} `{GoZero V} (D : bytes -> Prop) (os : list (op V)) d h t rs k v, key_set D ->
  tame_over D os d -> (N.of_nat (S (length os)) < 2 ^ 64)%N -> build os h t rs ->
  ref_ops os ∅ !! k = Some v -> deletable (ref_ops os ∅) k -> (d = 0 \/ delete k (ref_ops os ∅) <> ∅) ->
  exists h' t', treeDelete t k h = (Ok (t', (v, true)), h') /\ treeLen t' = (treeLen t - 1)%N /\ treeLen t <> 0%N /\
    treeGet h' t' k = Ok (go_zero, false) /\ forall k', is_bytes k' -> k' <> k -> treeGet h' t' k' = treeGet h t k'.
Proof. exact @C61_delete_proof. Qed.
Print Assumptions C61_delete.

(** C61: prefix iteration, the path iterator, Minimum and Maximum after such a history.  The order claims hold if
    no stored key goes on with a byte below '$' after another stored key. *)
Theorem C61_reads : forall {V} `{GoZero V} (D : bytes -> Prop) (os : list (op V)) d h t rs, key_set D ->
  tame_over D os d -> (N.of_nat (length os) < 2 ^ 64)%N -> build os h t rs ->
  (forall p, is_bytes p -> last p <> Some dollar -> (ref_ops os ∅ = ∅ -> p <> []) ->
    exists l, iterates h (r_root t) p l /\ pairs_with (ref_ops os ∅) p l /\ (orderly (ref_ops os ∅) -> ascending l)) /\
  (forall p, exists l, yields (pathNext h) (newPathIter (r_root t) p) l /\ pairs_on_path (ref_ops os ∅) p l /\
    (orderly (ref_ops os ∅) -> shortest_first l)) /\
  (ref_ops os ∅ <> ∅ -> exists k v k' v', treeMinimum h t = Ok (Some (k, v)) /\ treeMaximum h t = Ok (Some (k', v')) /\
    ref_ops os ∅ !! k = Some v /\ ref_ops os ∅ !! k' = Some v' /\
    (orderly (ref_ops os ∅) -> least (ref_ops os ∅) k v /\ greatest (ref_ops os ∅) k' v')).
Proof. exact @C61_reads_proof. Qed.
Print Assumptions C61_reads.
