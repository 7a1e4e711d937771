(** Termination: of single routines on every memory (C25), of everything in every history (C52). *)
From Verif Require Import Acyclic SpecGraph PropWorld Refute Cost.
From stdpp Require Import list relations.
Local Open Scope nat_scope.
Local Open Scope list_scope.

(** *** C25 (descents): on every memory, the descents of Get, Delete and Insert visit at most len(key) + 2 nodes: a recursion
    depth of len(key) + 2 (twice that for Insert, whose recursion alternates between two functions) is as good as any larger one. *)
Lemma C25_descent_proof {V} `{GoZero V} (k : bytes) (v : V) (h : heap V) (s : st V) a f : length k + 2 <= f ->
  search f h a (getTreeKey k) 0 = search (length k + 2) h a (getTreeKey k) 0 /\
  recursiveDelete f (Some a) (getTreeKey k) 0 s = recursiveDelete (length k + 2) (Some a) (getTreeKey k) 0 s /\
  recursiveInsert (2 * f) a (getTreeKey k) v 0 s = recursiveInsert (2 * (length k + 2)) a (getTreeKey k) v 0 s /\
  seekLoop f h a k 0 = seekLoop (length k + 2) h a k 0.
Proof.
  intros Hf. assert (Hl : length (getTreeKey k) = length k + 1) by (unfold getTreeKey; rewrite app_length; done).
  split; [apply search_fuel_irrel; lia|]. split; [apply delete_fuel_irrel; lia|]. split; [apply (insert_fuel_irrel _ _ (length k + 1)); lia|]. apply seek_fuel_irrel; lia.
Qed.
(** *** C25 (Delete), on every memory and transaction whatsoever: Delete ends. *)
Lemma C25_delete_proof {V} `{GoZero V} (k : bytes) (s : st V) : (txnDelete k s).1 <> NoFuel.
Proof. apply nfm_txnDelete. Qed.
(** *** C25 is false for Insert and SeekPrefix on cyclic memories: a prefix of more than 10 bytes is compared with the smallest leaf
    below the node (node_4.go and copies: prefixMismatch, txn.go: minimum), and the search for it runs in circles. *)
Definition loopy : heap nat :=
  mkH {[ 0 := mkN K4 1 11 1 (repeat 97 10) [97; 0; 0; 0] [Some 0; None; None; None] None None ]} ∅ 1 0 [].
Lemma C25_refuted_proof : exists (h : heap nat) (tx : txn) k v,
  (forall f, minimum f h (Some (t_root tx)) = NoFuel) /\ (txnInsert k v (mkS h tx)).1 = NoFuel /\ seekPrefix h (newIter (t_root tx)) k = NoFuel.
Proof.
  exists loopy, (mkTx 0 1 1 1 1 false []), (repeat 97 12), 5. split; [|by split; vm_compute]. intros f. induction f as [|f IH]; [done|]. exact IH.
Qed.

(** *** C52 In every history of calls, whatever the client does, there is no cycle in memory, not even through stale slots. *)
Lemma C52_acyclic_proof {V} `{GoZero V} (cs : list (call V)) : acyclic (w_h (exec cs w_init).2).
Proof. apply acyclic_ranked. apply exec_winv, winv_init. Qed.
(** Every call ends, with a result or a panic. *)
Lemma C52_calls_proof {V} `{GoZero V} (cs : list (call V)) r : r ∈ (exec cs w_init).1 -> r <> NoFuel.
Proof. intros Hr. destruct (exec_winv cs w_init winv_init) as [_ Hf]. rewrite Forall_forall in Hf. by apply Hf. Qed.
(** Minimum, Maximum, Walk, DFS and the seeks of all iterators end, from every node in memory, stale or current. *)
Lemma C52_reads_proof {V} `{GoZero V} (cs : list (call V)) :
  let h := w_h (exec cs w_init).2 in
  (forall t, treeMinimum h t <> NoFuel /\ treeMaximum h t <> NoFuel /\ dfsNode (walk_fuel h) h (r_root t) <> NoFuel) /\
  (forall A (fn : bytes -> V -> A -> A * bool) t acc, treeWalk fn h t acc <> NoFuel) /\
  (forall it p, seekPrefix h it p <> NoFuel) /\ (forall it k, seekLowerBound h it k <> NoFuel) /\
  (forall ri p, revSeekPrefix h ri p <> NoFuel) /\ (forall ri k spare, seekReverseLowerBound h ri k spare <> NoFuel).
Proof.
  intros h. assert (R : ranked h) by apply exec_winv, winv_init. clearbody h.
  split. { intros t. split; [by apply nf_treeMin|]. split; [by apply nf_treeMax|by apply nf_dfs]. }
  split; [intros; by apply nf_walk|]. split; [intros; by apply nf_seekPrefix|]. split; [intros; by apply nf_seekLowerBound|].
  split; [intros; apply nf_bind; [by apply nf_seekPrefix|done]|intros; by apply nf_seekReverse].
Qed.
(** Iteration ends: Iterator, PathIterator, LowerBoundIterator and ReverseIterator, from any stack. *)
Lemma C52_iterators_proof {V} `{GoZero V} (cs : list (call V)) st :
  let h := w_h (exec cs w_init).2 in
  (forall p, ends (fun f => nextLoop f h p) st) /\ (forall p, ends (fun f => pathNextLoop f h p) st) /\
  ends (fun f => lowerNextLoop f h) st /\ (forall p exp, ends (fun f => prevLoop f h p exp) st).
Proof.
  intros h. assert (R : ranked h) by apply exec_winv, winv_init. clearbody h. destruct R as [rk Hr].
  split; [intros p; by apply (ends_all rk), pops_next|]. split; [intros p; by apply (ends_all rk), pops_path|].
  split; [by apply (ends_all rk), pops_lower|]. intros p exp. by apply (ends_all rk), pops_prev.
Qed.

(** *** C41, unconditionally: C41 compares Minimum, Maximum, DFS and Walk of a tree only if they return; they do. *)
Lemma C41_total_proof {V} `{GoZero V} (cs1 cs2 : list (call V)) rs1 w1 rs2 w2 i t :
  exec cs1 w_init = (rs1, w1) -> exec cs2 w1 = (rs2, w2) -> disciplined (cs1 ++ cs2) -> w_trees w1 !! i = Some t ->
  treeMinimum (w_h w2) t = treeMinimum (w_h w1) t /\ treeMaximum (w_h w2) t = treeMaximum (w_h w1) t /\ treeDfs (w_h w2) t = treeDfs (w_h w1) t /\
  forall A (fn : bytes -> V -> A -> A * bool) acc, treeWalk fn (w_h w2) t acc = treeWalk fn (w_h w1) t acc.
Proof.
  intros E1 E2 Hd Hi. destruct (C41_proof cs1 cs2 rs1 w1 rs2 w2 i t E1 E2 Hd Hi) as [_ R]. assert (K : ranked (w_h w1)).
  { pose proof (exec_winv cs1 w_init winv_init) as [Hw _]. rewrite E1 in Hw. apply Hw. }
  destruct t as [r sz mx]. split_and!; [apply (rs_min _ _ _ R); by apply nf_treeMin|apply (rs_max _ _ _ R); by apply nf_treeMax|apply (rs_dfs _ _ _ R); by apply nf_treeDfs|]. intros A fn acc. apply (rs_walk _ _ _ R). by apply nf_walk.
Qed.

(** A history with misuse: keys with the terminator, deletion of absent keys, prefix deletion, a clone and a transaction used after its commit;
    some call panics, and there are edges. *)
Definition ex52 : list (call nat) :=
  [CNew; CInsert 0 (B "ab") 1; CInsert 1 (B "ac") 2; CTxn 2; CTInsert 0 (B "a$") 3; CTInsert 0 (B "a") 4; CTClone 0; CCommit 0; CTInsert 0 (B "abcd") 5; CTDelete 1 (B "zz"); CTDeletePrefix 0 (B "a");
   CInsert 2 (B "a$") 1; CInsert 4 (B "a") 6;
   CNew; CInsert 6 (B "a") 1; CInsert 7 (B "ab") 1; CInsert 8 (B "a") 1; CDelete 9 (B "a"); CDelete 10 (B "ab"); CInsert 11 (B "") 1].
Example ex_C52 : (exists a b c, edge (w_h (wrun ex52)) a b /\ edge (w_h (wrun ex52)) b c) /\ Panic ∈ (exec ex52 w_init).1.
Proof.
  split.
  - exists 31, 30, 29. split; eexists; (split; [vc|]); apply elem_of_list_here.
  - assert (E : (exec ex52 w_init).1 !! 19 = Some Panic) by vc. by eapply elem_of_list_lookup_2.
Qed.

(** *** C53 Path copying: on every memory (reachable or not), one update creates a number of cells (nodes and leaves) that depends only
    on the length of the key, not on the size of the tree.  [h_next] counts the cells created so far. *)
Lemma C53_insert_proof {V} `{GoZero V} (t : rtree) (k : bytes) (v : V) (h : heap V) :
  h_next (treeInsert t k v h).2 <= h_next h + length k + 20.
Proof. pose proof (gr_withTxn _ t _ (gr_txnInsert k v) h). unfold treeInsert. lia. Qed.
Lemma C53_delete_proof {V} `{GoZero V} (t : rtree) (k : bytes) (h : heap V) :
  h_next (treeDelete t k h).2 <= h_next h + 3 * length k + 12.
Proof. pose proof (gr_withTxn _ t _ (gr_txnDelete k) h). unfold treeDelete. lia. Qed.
(** The same inside a transaction. *)
Lemma C53_txn_proof {V} `{GoZero V} (k : bytes) (v : V) (s : st V) :
  h_next (s_h (txnInsert k v s).2) <= h_next (s_h s) + length k + 19 /\
  h_next (s_h (txnDelete k s).2) <= h_next (s_h s) + 3 * length k + 11.
Proof. pose proof (gr_txnInsert k v s). pose proof (gr_txnDelete k s). lia. Qed.
(** Not so for DeletePrefix: it copies every inner node, even if no key has the prefix. *)
Definition fan (n : nat) : list (call nat) :=
  CNew :: imap (fun i k => CInsert i k 0) (concat (map (fun i => [[97 + i; 97]; [97 + i; 98]]) (seq 0 n))).
Lemma C53_prefix_refuted_proof : exists (t : rtree) (p : bytes) (h : heap nat), h = w_h (wrun (fan 20)) /\ t ∈ w_trees (wrun (fan 20)) /\
  (exists t', (treeDeletePrefix t p h).1 = Ok (t', false)) /\
  ~ (h_next (treeDeletePrefix t p h).2 <= h_next h + 3 * length p + 12).
Proof.
  exists (nth 40 (w_trees (wrun (fan 20))) (mkT 0 0 0)), [1], (w_h (wrun (fan 20))). split; [done|]. split.
  - apply elem_of_list_lookup_2 with 40. vc.
  - split; [eexists; vc|]. apply Nat.lt_nge. vm_compute. lia.
Qed.
(** The counter counts something: inserting a key of 3 bytes into the tree of 40 keys creates 5 cells. *)
Example ex_C53 : let w := wrun (fan 20) in let t := nth 40 (w_trees w) (mkT 0 0 0) in
  h_next (w_h w) = 203 /\ h_next (treeInsert t [99; 99; 99] 4 (w_h w)).2 = 208 /\ (treeInsert t [99; 99; 99] 4 (w_h w)).1 = Ok (mkT 207 41 246, (0, false)).
Proof. split_and!; vc. Qed.
