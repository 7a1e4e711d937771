(** Histories of any number of trees, transactions and iterators, and facts about every memory.  The proofs are in
    PropWorld.v, with concrete cases. *)
From Verif Require Import Twin PropWorld Refute.
From stdpp Require Import list.
Local Open Scope nat_scope.
Local Open Scope list_scope.


(** C41: in a history in which no transaction is updated after it was committed or cloned, no call changes
    anything that can be read from a tree obtained earlier. *)
Theorem C41 : forall {V} `{GoZero V} (cs1 cs2 : list (call V)) rs1 w1 rs2 w2 i t,
  exec cs1 w_init = (rs1, w1) -> exec cs2 w1 = (rs2, w2) -> disciplined (cs1 ++ cs2) -> w_trees w1 !! i = Some t ->
  w_trees w2 !! i = Some t /\ reads_same (r_root t) (w_h w1) (w_h w2).
Proof. exact @C41_proof. Qed.
Print Assumptions C41.

(** C42: in such a history, calls that do not update transaction j change nothing that can be read from
    it, nor its size. *)
Theorem C42 : forall {V} `{GoZero V} (cs1 cs2 : list (call V)) rs1 w1 rs2 w2 j x,
  exec cs1 w_init = (rs1, w1) -> exec cs2 w1 = (rs2, w2) -> disciplined (cs1 ++ cs2) -> w_txns w1 !! j = Some x ->
  (forall c, c ∈ cs2 -> updates c <> Some j) ->
  exists x', w_txns w2 !! j = Some x' /\ t_root x' = t_root x /\ t_size x' = t_size x /\ reads_same (t_root x) (w_h w1) (w_h w2).
Proof. exact @C42_proof. Qed.
Print Assumptions C42.

(** C43: in such a history, an iterator obtained from a tree yields what it would yield undisturbed, whatever
    calls are made between its Next calls.  (Iterator, path iterator, lower bound and reverse iterators.) *)
Theorem C43 : forall {V} `{GoZero V} (cs1 : list (call V)) css rs1 w1 i t,
  exec cs1 w_init = (rs1, w1) -> disciplined (cs1 ++ concat css) -> w_trees w1 !! i = Some t ->
  (forall p it, seekPrefix (w_h w1) (newIter (r_root t)) p = Ok it ->
     returns_same (undisturbed iterNext (length css) w1 it) (interleaved iterNext css w1 it)) /\
  (forall p, returns_same (undisturbed pathNext (length css) w1 (newPathIter (r_root t) p)) (interleaved pathNext css w1 (newPathIter (r_root t) p))) /\
  (forall k it, seekLowerBound (w_h w1) (newLowerIter (r_root t)) k = Ok it ->
     returns_same (undisturbed lowerNext (length css) w1 it) (interleaved lowerNext css w1 it)) /\
  (forall ri, ri = newRevIter (r_root t) \/ (exists p, revSeekPrefix (w_h w1) (newRevIter (r_root t)) p = Ok ri) \/
     (exists k spare, seekReverseLowerBound (w_h w1) (newRevIter (r_root t)) k spare = Ok ri) ->
     returns_same (undisturbed prev (length css) w1 ri) (interleaved prev css w1 ri)).
Proof. exact @C43_proof. Qed.
Print Assumptions C43.

(** C25 (Get and LongestPrefix), on every memory whatsoever: the descent ends within len(key)+3 nodes (the key with
    its terminator has one more byte). *)
Theorem C25_partial : forall {V} `{GoZero V} (h : heap V) r k,
  search (length (getTreeKey k) + 2) h r (getTreeKey k) 0 <> NoFuel /\ getFrom h r k <> NoFuel /\ longestPrefixFrom h r k <> NoFuel.
Proof. exact @C25_partial_proof. Qed.
Print Assumptions C25_partial.

(** C07: the code keeps this not even when the transaction that produced the tree is left alone: a clone
    shares the writable nodes of the transaction it was made from (txn.go:66-78). *)
Theorem C07_refuted : exists (cs1 cs2 : list (call nat)) k i t,
  let w1 := wrun cs1 in let w2 := (exec cs2 w1).2 in
  (** tree i is made by the last call of cs1, a Commit of transaction 1, and transaction 1 is not used again *)
  (exists cs, cs1 = cs ++ [CCommit 1]) /\ length (w_trees w1) = S i /\ (forall c, c ∈ cs2 -> updates c = Some 0) /\
  w_trees w1 !! i = Some t /\ treeGet (w_h w1) t k = Ok (1, true) /\ treeGet (w_h w2) t k = Ok (9, true).
Proof. exact C07_refuted_proof. Qed.
Print Assumptions C07_refuted.

(** C08: a transaction that is used after its Commit writes into the nodes of a transaction started from the
    committed tree. *)
Theorem C08_refuted : exists (cs : list (call nat)) k v x,
  let w := wrun cs in let w' := (step (CTInsert 0 k v) w).2 in
  valid_key k /\ (forall j, CTClone j ∉ cs) /\ w_txns w !! 1 = Some x /\ w_txns w' !! 1 = Some x /\
  txnGet (w_h w) x k = Ok (1, true) /\ txnGet (w_h w') x k = Ok (9, true).
Proof. exact C08_refuted_proof. Qed.
Print Assumptions C08_refuted.

(** C40: the same for iterators. *)
Theorem C40_refuted : exists (cs : list (call nat)) k v i t it,
  let w := wrun cs in valid_key k /\ w_trees w !! i = Some t /\ seekPrefix (w_h w) (newIter (r_root t)) [] = Ok it /\
  undisturbed iterNext 2 w it = Ok [Some (B "ab", 1); Some (B "ac", 1)] /\
  interleaved iterNext [[]; [CTInsert 0 k v]] w it = Ok [Some (B "ab", 1); Some (B "ac", 9)].
Proof. exact C40_refuted_proof. Qed.
Print Assumptions C40_refuted.

(** C38: on every memory whatsoever, a value returned by Get is stored below the root in a leaf with exactly
    that key (and its terminator). *)
Theorem C38 : forall {V} `{GoZero V} (h : heap V) r k v, getFrom h r k = Ok (v, true) -> stored h r (k ++ [dollar]) v.
Proof. exact @C38_proof. Qed.
Print Assumptions C38.

(** C15: false of memories with a leaf whose key has no terminator (which no call builds). *)
Theorem C15_refuted : exists (h : heap nat) root p k v, Forall (fun b => b <> dollar) p /\
  iterates h root p [(k, v)] /\ has_prefix k p = false.
Proof. exact C15_refuted_proof. Qed.
Print Assumptions C15_refuted.

(** C15, on every memory in which leaf keys are empty or end in the terminator, for prefixes that do not end
    in '$'. *)
Theorem C15_partial : forall {V} `{GoZero V} (h : heap V) root p it l, terminated h -> last p <> Some dollar ->
  seekPrefix h (newIter root) p = Ok it -> (forall it' k v it'', it_path it' = p -> iterNext h it' = Ok (Some (k, v), it'') -> p `prefix_of` k /\ it_path it'' = p) /\
  (yields (iterNext h) it l -> Forall (fun kv => p `prefix_of` kv.1) l).
Proof. exact @C15_partial_proof. Qed.
Print Assumptions C15_partial.

(** C35: a clone has the length of the tree and answers alike (whenever the read on the tree returns), and
    no later call changes this, in histories in which no transaction is updated after it was committed or cloned. *)
Theorem C35 : forall {V} `{GoZero V} (cs cs2 : list (call V)) rs w i t r w1 rs2 w2,
  exec cs w_init = (rs, w) -> w_trees w !! i = Some t -> step (CClone i) w = (Ok r, w1) -> exec cs2 w1 = (rs2, w2) ->
  disciplined (cs ++ [CClone i] ++ cs2) ->
  exists t', w_trees w1 = w_trees w ++ [t'] /\ treeLen t' = treeLen t /\
    (** in the memory right after the call, and at any later time *)
    forall h, h = w_h w1 \/ h = w_h w2 ->
      (forall k x, treeGet h t k = Ok x -> treeGet h t' k = Ok x) /\
      (forall k x, treeLongestPrefix h t k = Ok x -> treeLongestPrefix h t' k = Ok x) /\
      treeMinimum h t' = treeMinimum h t /\ treeMaximum h t' = treeMaximum h t /\
      (forall p l, iterates h (r_root t) p l -> iterates h (r_root t') p l) /\
      (forall p l, yields (pathNext h) (newPathIter (r_root t) p) l -> yields (pathNext h) (newPathIter (r_root t') p) l) /\
      reads_same (r_root t) (w_h w) h /\ reads_same (r_root t') (w_h w1) h.
Proof. exact @C35_proof. Qed.
Print Assumptions C35.
