(** C63: the memory that a tree holds.  The proofs are in PropSize.v, with concrete cases. *)
From Verif Require Import Thin ReadTop ReadWalk PropWorld PropMap Refute PropRead PropWalk SpecSize PropSize.
From stdpp Require Import list relations.
Local Open Scope nat_scope.
Local Open Scope list_scope.


(** C63 on histories of insertions of valid keys: a tree with n stored keys holds fewer than 2n nodes and at most n
    leaves, whatever pointers one follows. *)
Theorem C63_partial : forall {V} `{GoZero V} (os : list (op V)) h t rs,
  Forall (fun o => is_insert o /\ valid_key (op_key o)) os -> (N.of_nat (length os) < 2 ^ 64)%N -> build os h t rs -> ref_ops os ∅ <> ∅ ->
  at_most (2 * size (ref_ops os ∅) - 1) (holds_node h (r_root t)) /\ at_most (size (ref_ops os ∅)) (holds_leaf h (r_root t)).
Proof. exact @C63_partial_proof. Qed.
Print Assumptions C63_partial.

(** C63 on tame histories: a tree with n stored keys has at most n live leaves, and fewer than 2n live nodes and one
    more for each key that was deleted while a longer key with that prefix was stored. *)
Theorem C63_live_partial : forall {V} `{GoZero V} (os : list (op V)) d h t rs (ws : list bytes),
  tame os d -> (N.of_nat (length os) < 2 ^ 64)%N -> build os h t rs -> ref_ops os ∅ <> ∅ -> (forall w, hollow os w -> w ∈ ws) ->
  at_most (2 * size (ref_ops os ∅) - 1 + length ws) (live_node h (r_root t)) /\ at_most (size (ref_ops os ∅)) (live_leaf h (r_root t)).
Proof. exact @C63_live_partial_proof. Qed.
Print Assumptions C63_live_partial.

(** C63 in full is false after Deletes: a tree with one stored key can consist of seven nodes (deleting a key that has
    stored extensions leaves its node in place). *)
Theorem C63_refuted : exists (os : list (op nat)) d h t rs l,
  tame os d /\ build os h t rs /\ size (ref_ops os ∅) = 1 /\ NoDup l /\ (forall x, x ∈ l -> holds_node h (r_root t) x) /\ length l = 7.
Proof. exact C63_refuted_proof. Qed.
Print Assumptions C63_refuted.

(** C63: after Deletes a tree may go on holding the leaf of a deleted key, with its value. *)
Theorem C63_leak_refuted : exists (os : list (op nat)) d h t rs x lf k,
  tame os d /\ build os h t rs /\ holds_leaf h (r_root t) x /\ h_leaves h !! x = Some lf /\ l_key lf = k ++ [dollar] /\ ref_ops os ∅ !! k = None.
Proof. exact C63_leak_refuted_proof. Qed.
Print Assumptions C63_leak_refuted.
