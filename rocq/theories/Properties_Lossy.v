(** C60: histories in which Delete may be called with absent keys.  The proofs are in PropLossy.v, with concrete cases. *)
From Verif Require Import PropLossy.
From stdpp Require Import list.
Local Open Scope nat_scope.
Local Open Scope list_scope.


(** C60.  After any Inserts of non-empty keys and any Deletes, of stored or absent keys, that did not
    panic: the results, Get and Len are those of one run of the reference [lossy]. *)
Theorem C60 : forall {V} `{GoZero V} (os : list (op V)) h t rs,
  Forall plain_op os -> roomy_ops os -> (N.of_nat (length os) < 2 ^ 64)%N -> build os h t rs ->
  exists (m : gmap (list nat) V) x, lossy os rs m x /\ treeLen t = N.of_nat (size m + x) /\
    forall k, is_bytes k -> treeGet h t k = Ok (ref_get m k).
Proof. exact @C60_proof. Qed.
Print Assumptions C60.

(** C60: such a tree never lies.  A value that Get reports is the value of the key in the reference map; so
    is one that an Insert or a Delete of the history reported. *)
Theorem C60_sound : forall {V} `{GoZero V} (os : list (op V)) h t rs,
  Forall plain_op os -> roomy_ops os -> (N.of_nat (length os) < 2 ^ 64)%N -> build os h t rs ->
  (forall k v, is_bytes k -> treeGet h t k = Ok (v, true) -> ref_ops os ∅ !! k = Some v) /\
  (forall i k v w, os !! i = Some (OInsert k v) -> rs !! i = Some (RVal w true) -> ref_ops (take i os) ∅ !! k = Some w) /\
  (forall i k w, os !! i = Some (ODelete k) -> rs !! i = Some (RVal w true) -> ref_ops (take i os) ∅ !! k = Some w).
Proof. exact @C60_sound_proof. Qed.
Print Assumptions C60_sound.

(** C60: keys are only lost by Deletes that report an absent key.  When every Delete of the history reported
    a value, Get is that of the reference map. *)
Theorem C60_complete : forall {V} `{GoZero V} (os : list (op V)) h t rs,
  Forall plain_op os -> roomy_ops os -> (N.of_nat (length os) < 2 ^ 64)%N -> build os h t rs ->
  (forall i k, os !! i = Some (ODelete k) -> exists w, rs !! i = Some (RVal w true)) ->
  forall k, is_bytes k -> treeGet h t k = Ok (ref_get (ref_ops os ∅) k).
Proof. exact @C60_complete_proof. Qed.
Print Assumptions C60_complete.

(** C60: the next update does not panic, if it is an Insert of a non-empty key or a Delete of a key that Get
    finds; the Delete reports the value that Get finds. *)
Theorem C60_next : forall {V} `{GoZero V} (os : list (op V)) h t rs,
  Forall plain_op os -> roomy_ops os -> (N.of_nat (S (length os)) < 2 ^ 64)%N -> build os h t rs ->
  (forall k v, valid_key k -> k <> [] -> exists h' t' r, treeInsert t k v h = (Ok (t', r), h') /\ treeGet h' t' k = Ok (v, true)) /\
  (forall k v, is_bytes k -> treeGet h t k = Ok (v, true) -> exists h' t', treeDelete t k h = (Ok (t', (v, true)), h') /\
     treeGet h' t' k = Ok (go_zero, false)).
Proof. exact @C60_next_proof. Qed.
Print Assumptions C60_next.

(** C60: without "non-empty" the next Insert may panic.  Here the tree has lost its last key, by Deletes that
    all report a value, but its Len is not zero. *)
Theorem C60_empty_key_refuted : exists (os : list (op nat)) h t rs,
  Forall plain_op os /\ roomy_ops os /\ build os h t rs /\ ref_ops os ∅ = ∅ /\ (treeInsert t [] 7 h).1 = Panic.
Proof. exact C60_empty_key_refuted_proof. Qed.
Print Assumptions C60_empty_key_refuted.
