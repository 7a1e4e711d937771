(** Termination: of single routines on every memory (C25), of everything in every history (C52).  The proofs are in PropRank.v,
    with a concrete case. *)
From Verif Require Import SpecGraph PropRank WorldInv Refute.
From stdpp Require Import list.
Local Open Scope nat_scope.
Local Open Scope list_scope.


(** C25 (descents): on every memory, the descents of Get, Delete and Insert visit at most len(key) + 2 nodes: a recursion
    depth of len(key) + 2 (twice that for Insert, whose recursion alternates between two functions) is as good as any larger one. *)
Theorem C25_descent : forall {V} `{GoZero V} (k : bytes) (v : V) (h : heap V) (s : st V) a f, length k + 2 <= f ->
  search f h a (getTreeKey k) 0 = search (length k + 2) h a (getTreeKey k) 0 /\
  recursiveDelete f (Some a) (getTreeKey k) 0 s = recursiveDelete (length k + 2) (Some a) (getTreeKey k) 0 s /\
  recursiveInsert (2 * f) a (getTreeKey k) v 0 s = recursiveInsert (2 * (length k + 2)) a (getTreeKey k) v 0 s /\
  seekLoop f h a k 0 = seekLoop (length k + 2) h a k 0.
Proof. exact @C25_descent_proof. Qed.
Print Assumptions C25_descent.

(** C25 (Delete), on every memory and transaction whatsoever: Delete ends. *)
Theorem C25_delete : forall {V} `{GoZero V} (k : bytes) (s : st V), (txnDelete k s).1 <> NoFuel.
Proof. exact @C25_delete_proof. Qed.
Print Assumptions C25_delete.

Theorem C25_refuted : exists (h : heap nat) (tx : txn) k v,
  (forall f, minimum f h (Some (t_root tx)) = NoFuel) /\ (txnInsert k v (mkS h tx)).1 = NoFuel /\ seekPrefix h (newIter (t_root tx)) k = NoFuel.
Proof. exact C25_refuted_proof. Qed.
Print Assumptions C25_refuted.

(** C52 In every history of calls, whatever the client does, there is no cycle in memory, not even through stale slots. *)
Theorem C52_acyclic : forall {V} `{GoZero V} (cs : list (call V)), acyclic (w_h (exec cs w_init).2).
Proof. exact @C52_acyclic_proof. Qed.
Print Assumptions C52_acyclic.

(** Every call ends, with a result or a panic. *)
Theorem C52_calls : forall {V} `{GoZero V} (cs : list (call V)) r, r ∈ (exec cs w_init).1 -> r <> NoFuel.
Proof. exact @C52_calls_proof. Qed.
Print Assumptions C52_calls.

(** Minimum, Maximum, Walk, DFS and the seeks of all iterators end, from every node in memory, stale or current. *)
Theorem C52_reads : forall {V} `{GoZero V} (cs : list (call V)),
  let h := w_h (exec cs w_init).2 in
  (forall t, treeMinimum h t <> NoFuel /\ treeMaximum h t <> NoFuel /\ dfsNode (walk_fuel h) h (r_root t) <> NoFuel) /\
  (forall A (fn : bytes -> V -> A -> A * bool) t acc, treeWalk fn h t acc <> NoFuel) /\
  (forall it p, seekPrefix h it p <> NoFuel) /\ (forall it k, seekLowerBound h it k <> NoFuel) /\
  (forall ri p, revSeekPrefix h ri p <> NoFuel) /\ (forall ri k spare, seekReverseLowerBound h ri k spare <> NoFuel).
Proof. exact @C52_reads_proof. Qed.
Print Assumptions C52_reads.

(** Iteration ends: Iterator, PathIterator, LowerBoundIterator and ReverseIterator, from any stack. *)
Theorem C52_iterators : forall {V} `{GoZero V} (cs : list (call V)) st,
  let h := w_h (exec cs w_init).2 in
  (forall p, ends (fun f => nextLoop f h p) st) /\ (forall p, ends (fun f => pathNextLoop f h p) st) /\
  ends (fun f => lowerNextLoop f h) st /\ (forall p exp, ends (fun f => prevLoop f h p exp) st).
Proof. exact @C52_iterators_proof. Qed.
Print Assumptions C52_iterators.

(** C41, unconditionally: C41 compares Minimum, Maximum, DFS and Walk of a tree only if they return; they do. *)
Theorem C41_total : forall {V} `{GoZero V} (cs1 cs2 : list (call V)) rs1 w1 rs2 w2 i t,
  exec cs1 w_init = (rs1, w1) -> exec cs2 w1 = (rs2, w2) -> disciplined (cs1 ++ cs2) -> w_trees w1 !! i = Some t ->
  treeMinimum (w_h w2) t = treeMinimum (w_h w1) t /\ treeMaximum (w_h w2) t = treeMaximum (w_h w1) t /\ treeDfs (w_h w2) t = treeDfs (w_h w1) t /\
  forall A (fn : bytes -> V -> A -> A * bool) acc, treeWalk fn (w_h w2) t acc = treeWalk fn (w_h w1) t acc.
Proof. exact @C41_total_proof. Qed.
Print Assumptions C41_total.

(** C53 Path copying: on every memory (reachable or not), one update creates a number of cells (nodes and leaves) that depends only
    on the length of the key, not on the size of the tree.  [h_next] counts the cells created so far. *)
Theorem C53_insert : forall {V} `{GoZero V} (t : rtree) (k : bytes) (v : V) (h : heap V),
  h_next (treeInsert t k v h).2 <= h_next h + length k + 20.
Proof. exact @C53_insert_proof. Qed.
Print Assumptions C53_insert.

Theorem C53_delete : forall {V} `{GoZero V} (t : rtree) (k : bytes) (h : heap V),
  h_next (treeDelete t k h).2 <= h_next h + 3 * length k + 12.
Proof. exact @C53_delete_proof. Qed.
Print Assumptions C53_delete.

(** The same inside a transaction. *)
Theorem C53_txn : forall {V} `{GoZero V} (k : bytes) (v : V) (s : st V),
  h_next (s_h (txnInsert k v s).2) <= h_next (s_h s) + length k + 19 /\
  h_next (s_h (txnDelete k s).2) <= h_next (s_h s) + 3 * length k + 11.
Proof. exact @C53_txn_proof. Qed.
Print Assumptions C53_txn.

Theorem C53_prefix_refuted : exists (t : rtree) (p : bytes) (h : heap nat), h = w_h (wrun (fan 20)) /\ t ∈ w_trees (wrun (fan 20)) /\
  (exists t', (treeDeletePrefix t p h).1 = Ok (t', false)) /\
  ~ (h_next (treeDeletePrefix t p h).2 <= h_next h + 3 * length p + 12).
Proof. exact C53_prefix_refuted_proof. Qed.
Print Assumptions C53_prefix_refuted.
