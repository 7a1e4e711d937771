(** The client's view: histories of API calls on any number of trees and transactions.

    A world is the memory together with all tree values and all transactions the client has obtained so
    far.  Calls may be interleaved arbitrarily; a call that panics keeps the memory as the panicking Go call
    leaves it, and the history goes on (as after a recover). *)
From Verif Require Export IterOps.

Section World.
Context {V : Type} `{GoZero V}.
Notation HM := (M (heap V)).
Notation TM := (M (st V)).

Record world := mkW { w_h : heap V; w_trees : list rtree; w_txns : list txn }.
Definition w_init : world := mkW h_init [] [].

Inductive call :=
| CNew                                   (* NewRadixTree, tree.go:35 *)
| CInsert (i : nat) (k : bytes) (v : V)  (* RadixTree.Insert on tree i, tree.go:64 *)
| CDelete (i : nat) (k : bytes)          (* RadixTree.Delete, tree.go:74 *)
| CDeletePrefix (i : nat) (k : bytes)    (* RadixTree.DeletePrefix, tree.go:329 *)
| CClone (i : nat)                       (* RadixTree.Clone, tree.go:46 *)
| CGetWatch (i : nat) (k : bytes)        (* RadixTree.GetWatch, tree.go:80 *)
| CSeekWatch (i : nat) (p : bytes)       (* Root().Iterator().SeekPrefixWatch, iterator.go:101 *)
| CTxn (i : nat)                         (* RadixTree.Txn, txn.go:41 *)
| CTInsert (j : nat) (k : bytes) (v : V) (* Txn.Insert on transaction j, txn.go:86 *)
| CTDelete (j : nat) (k : bytes)         (* Txn.Delete, txn.go:264 *)
| CTDeletePrefix (j : nat) (k : bytes)   (* Txn.DeletePrefix, txn.go:419 *)
| CTGetWatch (j : nat) (k : bytes)       (* Txn.GetWatch, txn.go:365 *)
| CTrack (j : nat) (b : bool)            (* Txn.TrackMutate, txn.go:75 *)
| CCommit (j : nat)                      (* Txn.Commit, txn.go:382 *)
| CCommitOnly (j : nat)                  (* Txn.CommitOnly, txn.go:392 *)
| CNotify (j : nat)                      (* Txn.Notify, txn.go:372 *)
| CTClone (j : nat).                     (* Txn.Clone, txn.go:57 *)

(** What a call returns.  New trees and transactions are appended to the world. *)
Inductive result := RUnit | RVal (v : V) (b : bool) | RBool (b : bool) | RWatch (c : chan) (v : V) (b : bool).

(** Run a heap-level program that yields a new tree and a result. *)
Definition onHeap {A} (w : world) (m : HM A) (k : A -> list rtree * list txn * result) : outcome result * world :=
  match m (w_h w) with
  | (Ok a, h') => let '(ts, xs, r) := k a in (Ok r, mkW h' (w_trees w ++ ts) (w_txns w ++ xs))
  | (Panic, h') => (Panic, mkW h' (w_trees w) (w_txns w))
  | (NoFuel, h') => (NoFuel, mkW h' (w_trees w) (w_txns w))
  end.
(** Run a transaction program on transaction j. *)
Definition onTxn {A} (w : world) (j : nat) (x : txn) (m : TM A) (k : A -> list rtree * result) : outcome result * world :=
  match m (mkS (w_h w) x) with
  | (Ok a, s) => let '(ts, r) := k a in (Ok r, mkW (s_h s) (w_trees w ++ ts) (<[j := s_t s]> (w_txns w)))
  | (Panic, s) => (Panic, mkW (s_h s) (w_trees w) (<[j := s_t s]> (w_txns w)))
  | (NoFuel, s) => (NoFuel, mkW (s_h s) (w_trees w) (<[j := s_t s]> (w_txns w)))
  end.
Definition withTree (w : world) (i : nat) (f : rtree -> outcome result * world) : outcome result * world :=
  match w_trees w !! i with Some t => f t | None => (Ok RUnit, w) end.
Definition withTx (w : world) (j : nat) (f : txn -> outcome result * world) : outcome result * world :=
  match w_txns w !! j with Some x => f x | None => (Ok RUnit, w) end.

Definition step (c : call) (w : world) : outcome result * world :=
  match c with
  | CNew => onHeap w newTree (fun t => ([t], [], RUnit))
  | CInsert i k v => withTree w i (fun t => onHeap w (treeInsert t k v) (fun p => ([p.1], [], RVal p.2.1 p.2.2)))
  | CDelete i k => withTree w i (fun t => onHeap w (treeDelete t k) (fun p => ([p.1], [], RVal p.2.1 p.2.2)))
  | CDeletePrefix i k => withTree w i (fun t => onHeap w (treeDeletePrefix t k) (fun p => ([p.1], [], RBool p.2)))
  | CClone i => withTree w i (fun t => onHeap w (cloneTree t) (fun t' => ([t'], [], RUnit)))
  | CGetWatch i k => withTree w i (fun t => onHeap w (treeGetWatch t k) (fun p => ([], [], RWatch p.1.1 p.1.2 p.2)))
  | CSeekWatch i p => withTree w i (fun t => onHeap w (seekPrefixWatch (newIter (r_root t)) p) (fun q => ([], [], RWatch q.2 go_zero true)))
  | CTxn i => withTree w i (fun t => onHeap w (newTxn t) (fun x => ([], [x], RUnit)))
  | CTInsert j k v => withTx w j (fun x => onTxn w j x (txnInsert k v) (fun p => ([], RVal p.1 p.2)))
  | CTDelete j k => withTx w j (fun x => onTxn w j x (txnDelete k) (fun p => ([], RVal p.1 p.2)))
  | CTDeletePrefix j k => withTx w j (fun x => onTxn w j x (txnDeletePrefix k) (fun b => ([], RBool b)))
  | CTGetWatch j k => withTx w j (fun x => onHeap w (txnGetWatch x k) (fun p => ([], [], RWatch p.1.1 p.1.2 p.2)))
  | CTrack j b => withTx w j (fun x => (Ok RUnit, mkW (w_h w) (w_trees w) (<[j := trackMutate b x]> (w_txns w))))
  | CCommit j => withTx w j (fun x => onTxn w j x commit (fun t => ([t], RUnit)))
  | CCommitOnly j => withTx w j (fun x => (Ok RUnit, mkW (w_h w) (w_trees w ++ [commitOnly x]) (w_txns w)))
  | CNotify j => withTx w j (fun x => onTxn w j x notify (fun _ => ([], RUnit)))
  | CTClone j => withTx w j (fun x => onHeap w (cloneTxn x) (fun x' => ([], [x'], RUnit)))
  end.

(** A history: the results of the calls and the final world. *)
Fixpoint exec (cs : list call) (w : world) : list (outcome result) * world :=
  match cs with
  | [] => ([], w)
  | c :: cs' => let '(r, w') := step c w in let '(rs, w'') := exec cs' w' in (r :: rs, w'')
  end.

(** Histories on a single line of trees: every update is applied to the latest tree. *)
Inductive op := OInsert (k : bytes) (v : V) | ODelete (k : bytes) | ODeletePrefix (k : bytes).
Definition treeOp (o : op) (t : rtree) : HM (rtree * result) :=
  match o with
  | OInsert k v => let! p := treeInsert t k v in ret (p.1, RVal p.2.1 p.2.2)
  | ODelete k => let! p := treeDelete t k in ret (p.1, RVal p.2.1 p.2.2)
  | ODeletePrefix k => let! p := treeDeletePrefix t k in ret (p.1, RBool p.2)
  end.
Fixpoint treeOps (os : list op) (t : rtree) : HM (rtree * list result) :=
  match os with
  | [] => ret (t, [])
  | o :: os' => let! p := treeOp o t in let! q := treeOps os' p.1 in ret (q.1, p.2 :: q.2)
  end.
(** [build os h t rs]: starting from a new tree in an empty memory, the updates [os] succeed, lead to tree
    [t] in memory [h] and return [rs]. *)
Definition build (os : list op) (h : heap V) (t : rtree) (rs : list result) : Prop :=
  (let! t0 := newTree in treeOps os t0) h_init = (Ok (t, rs), h).
(** ... and the same history panics in its last call. *)
Definition build_panics (os : list op) : Prop :=
  ((let! t0 := newTree in treeOps os t0) h_init).1 = Panic.

(** Updates inside one transaction. *)
Definition txnOp (o : op) : TM result :=
  match o with
  | OInsert k v => let! p := txnInsert k v in ret (RVal p.1 p.2)
  | ODelete k => let! p := txnDelete k in ret (RVal p.1 p.2)
  | ODeletePrefix k => let! b := txnDeletePrefix k in ret (RBool b)
  end.
Fixpoint txnOps (os : list op) : TM (list result) :=
  match os with
  | [] => ret []
  | o :: os' => let! r := txnOp o in let! rs := txnOps os' in ret (r :: rs)
  end.
(** Histories of transactions on a single line of trees: each runs a batch of updates and commits. *)
Fixpoint treeTxns (oss : list (list op)) (t : rtree) : HM (rtree * list result) :=
  match oss with
  | [] => ret (t, [])
  | os :: oss' => let! p := withTxn t (txnOps os) in let! q := treeTxns oss' p.1 in ret (q.1, p.2 ++ q.2)
  end.
Definition build_txns (oss : list (list op)) (h : heap V) (t : rtree) (rs : list result) : Prop :=
  (let! t0 := newTree in treeTxns oss t0) h_init = (Ok (t, rs), h).
End World.

Arguments world V : clear implicits.
Arguments call V : clear implicits.
Arguments op V : clear implicits.
Arguments result V : clear implicits.
