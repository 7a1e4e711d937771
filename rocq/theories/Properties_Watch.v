(** When watches must fire.  The proofs are in PropWatch.v, with concrete cases. *)
From Verif Require Import PropWorld PropWorldRef PropWatch WatchWorld NodeAbsent Refute.
From stdpp Require Import list.
Local Open Scope nat_scope.
Local Open Scope list_scope.


(** C26: a watch on a stored key does not fire when the transaction that changes the key has deleted an
    absent key before. *)
Theorem C26_refuted : exists (cs cs' : list (call nat)) c k,
  list.last cs = Some (CGetWatch 2 k) /\ list.last (wres cs) = Some (Ok (RWatch c 2 true)) /\
  cs' = cs ++ [CTxn 2; CTrack 0 true; CTDelete 0 (B "b"); CTInsert 0 k 3; CCommit 0] /\
  Forall (fun r => r <> Panic) (wres cs') /\ c ∉ h_closed (w_h (wrun cs')).
Proof. exact C26_refuted_proof. Qed.
Print Assumptions C26_refuted.

(** C26: in a covered history, let GetWatch find k on tree i and return the channel c.  After any other calls
    (mid) a transaction j of tree i is started; among other calls (body) it changes k, and commits.  If all updates
    of j happen while j tracks, and no other transaction updates while it tracks, then c is closed. *)
Theorem C26_partial : forall (V : Type) (H : GoZero V) (i : nat) (k : bytes) (c : chan) (v : V) (cs1 mid body : list (call V)) (rs1 rs : list (outcome (result V)))
    (w1 w : world V) (g : gstate V),
  let before := cs1 ++ CGetWatch i k :: mid in
  let j := length (w_txns w1) in
  let cs := before ++ CTxn i :: body ++ [CCommit j] in
  covered cs g -> disciplined cs -> (N.of_nat (length cs) < 2 ^ 64)%N ->
  exec before w_init = (rs1, w1) -> rs1 !! length cs1 = Some (Ok (RWatch c v true)) ->
  fair j (cs1 ++ [CGetWatch i k]) (mid ++ CTxn i :: body) -> tracked_change j body k ->
  exec cs w_init = (rs, w) -> c ∈ h_closed (w_h w).
Proof. exact @C26_partial_proof. Qed.
Print Assumptions C26_partial.

(** C27: in a covered history, let GetWatch not find k on tree i and return the channel c, and let every stored key
    that agrees with k on its first ten bytes be a prefix of k.  After any other calls (mid) a transaction j of tree i is
    started; among other calls (body) it inserts k, and commits.  If all updates of j happen while j tracks, and no other
    transaction updates while it tracks, then c is closed. *)
Theorem C27_partial : forall (V : Type) (H : GoZero V) (i : nat) (k : bytes) (c : chan) (v : V) (cs1 mid body : list (call V)) (rs1 rs : list (outcome (result V)))
    (w1 w : world V) (g g1 : gstate V) (m : gmap (list nat) V) (d : nat),
  let before := cs1 ++ CGetWatch i k :: mid in
  let j := length (w_txns w1) in
  let cs := before ++ CTxn i :: body ++ [CCommit j] in
  covered cs g -> disciplined cs -> (N.of_nat (length cs) < 2 ^ 64)%N ->
  covered cs1 g1 -> g_trees g1 !! i = Some (m, d) -> valid_key k -> no_long_twin m k ->
  exec before w_init = (rs1, w1) -> rs1 !! length cs1 = Some (Ok (RWatch c v false)) ->
  fair j (cs1 ++ [CGetWatch i k]) (mid ++ CTxn i :: body) -> tracked_change j body k ->
  exec cs w_init = (rs, w) -> c ∈ h_closed (w_h w).
Proof. exact @C27_partial_proof. Qed.
Print Assumptions C27_partial.

(** C37: a prefix watch does not fire when the transaction that changes a key with the prefix has deleted an
    absent key before. *)
Theorem C37_refuted : exists (cs cs' : list (call nat)) c p k,
  list.last cs = Some (CSeekWatch 2 p) /\ list.last (wres cs) = Some (Ok (RWatch c 0 true)) /\ p `prefix_of` k /\ valid_key k /\
  cs' = cs ++ [CTxn 2; CTrack 0 true; CTDelete 0 (B "b"); CTInsert 0 k 3; CCommit 0] /\
  Forall (fun r => r <> Panic) (wres cs') /\ c ∉ h_closed (w_h (wrun cs')).
Proof. exact C37_refuted_proof. Qed.
Print Assumptions C37_refuted.

(** C37: in a covered history, let SeekPrefixWatch(p) on tree i return the channel c.  After any other calls (mid)
    a transaction j of tree i is started; among other calls (body) it changes a key that starts with p, and commits.
    If all updates of j happen while j tracks, and no other transaction updates while it tracks, then c is closed. *)
Theorem C37_partial : forall (V : Type) (H : GoZero V) (i : nat) (p k : bytes) (c : chan) (v : V) (cs1 mid body : list (call V)) (rs1 rs : list (outcome (result V)))
    (w1 w : world V) (g : gstate V),
  let before := cs1 ++ CSeekWatch i p :: mid in
  let j := length (w_txns w1) in
  let cs := before ++ CTxn i :: body ++ [CCommit j] in
  covered cs g -> disciplined cs -> (N.of_nat (length cs) < 2 ^ 64)%N ->
  exec before w_init = (rs1, w1) -> rs1 !! length cs1 = Some (Ok (RWatch c v true)) ->
  fair j (cs1 ++ [CSeekWatch i p]) (mid ++ CTxn i :: body) -> tracked_change j body k -> p `prefix_of` k ->
  exec cs w_init = (rs, w) -> c ∈ h_closed (w_h w).
Proof. exact @C37_partial_proof. Qed.
Print Assumptions C37_partial.

(** C30: in a covered history, if a call closes a channel that a GetWatch has handed out with k, then the call is the Commit
    or Notify of a transaction j that tracks, and j has changed k, or has inserted a new key that is a prefix or an
    extension of k, or has deleted an extension of k, while it tracked. *)
Theorem C30_partial : forall (V : Type) (H : GoZero V) (cs : list (call V)) (cl : call V) (g : gstate V) (rs : list (outcome (result V))) (w w' : world V)
    (r : outcome (result V)) (k : bytes) (c : chan),
  covered (cs ++ [cl]) g -> disciplined (cs ++ [cl]) -> (N.of_nat (length (cs ++ [cl])) < 2 ^ 64)%N ->
  exec cs w_init = (rs, w) -> handed_out cs rs k c -> step cl w = (r, w') -> c ∉ h_closed (w_h w) -> c ∈ h_closed (w_h w') ->
  exists j, (cl = CCommit j \/ cl = CNotify j) /\ tracks cs j = true /\ culprit cs j k.
Proof. exact @C30_partial_proof. Qed.
Print Assumptions C30_partial.

(** C30: a transaction that only inserts extensions of "a" fires the watch on "a". *)
Theorem C30_grow_refuted : exists (cs cs' : list (call nat)) c k,
  list.last cs = Some (CGetWatch 2 k) /\ list.last (wres cs) = Some (Ok (RWatch c 1 true)) /\ k = B "a" /\
  cs' = cs ++ [CTxn 2; CTrack 0 true; CTInsert 0 (B "ac") 3; CTInsert 0 (B "ad") 4; CTInsert 0 (B "ae") 5; CTInsert 0 (B "af") 6; CCommit 0] /\
  c ∈ h_closed (w_h (wrun cs')).
Proof. exact C30_grow_refuted_proof. Qed.
Print Assumptions C30_grow_refuted.

(** C30: a transaction that only deletes extensions of "a" fires the watch on "a". *)
Theorem C30_shrink_refuted : exists (cs cs' : list (call nat)) c k,
  list.last cs = Some (CGetWatch 6 k) /\ list.last (wres cs) = Some (Ok (RWatch c 1 true)) /\ k = B "a" /\
  cs' = cs ++ [CTxn 6; CTrack 0 true; CTDelete 0 (B "ab"); CTDelete 0 (B "ac"); CTDelete 0 (B "ad"); CCommit 0] /\
  Forall (fun r => r <> Panic) (wres cs') /\ c ∈ h_closed (w_h (wrun cs')).
Proof. exact C30_shrink_refuted_proof. Qed.
Print Assumptions C30_shrink_refuted.

(** C57: in every history, a channel that GetWatch has returned with a key it has found is returned with no other key, and
    not by a GetWatch that has not found its key, nor by SeekPrefixWatch. *)
Theorem C57_kinds : forall (V : Type) (H : GoZero V) (cs : list (call V)) (rs : list (outcome (result V))) (w : world V) (k : bytes) (c : chan),
  exec cs w_init = (rs, w) -> handed_out cs rs k c -> (forall k', handed_out cs rs k' c -> k' = k) /\ ~ handed_node cs rs c.
Proof. exact @C57_kinds_proof. Qed.
Print Assumptions C57_kinds.
