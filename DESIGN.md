# Design: a Rocq model of go-immutable-adaptive-radix

(Sections 1-3 were written before the proofs; sections 4-7 describe what exists.)

## 1. Modelling approach

The library is a copy-on-write radix tree over Go pointers.  The properties a user relies on are about
contents (map semantics), about sharing between versions (immutability, isolation) and about watch
channels.  All three depend on *which node is written in place*, so the model is an explicit-heap model:

* **Heap**: finite maps from addresses to inner nodes (`Node4/16/48/256`: id, partialLen, numChildren,
  partial, keys array, children array, mutateCh, leaf pointer) and to leaves (`NodeLeaf`), an allocation
  counter, a channel counter, and the list of closed channels.
* **Transaction record**: `tree.root`, `tree.size`, `size`, `tree.maxNodeId`, `oldMaxNodeId`,
  `trackMutate`, `trackChnSlice`.
* **Outcomes**: `Ok a | Panic | NoFuel`; the state is returned in every case, so panicking calls also have
  an effect.  Go index/slice/type-assertion failures and nil dereferences are `Panic`.  Loops and
  recursions that are not structurally bounded take explicit fuel; `NoFuel` is never a normal result and
  theorems exclude it.
* `uint8` child counters wrap mod 256, `uint64` sizes wrap mod 2^64.  Node ids and `partialLen` are
  unbounded (simplification, noted at the definitions).
* `sort.Search` is modelled as the real binary search.  Arrays are lists of fixed length, including stale
  entries beyond `numChildren`.
* Byte slices are values (lists), except in the separate slice model for C34 (`append` aliasing), and in
  the reverse lower bound seek, where the spare capacity behind the key is an explicit argument.

## 2. Layers of the proof

1. *Node layer*: `enc n es` says the arrays of a node encode the sorted edge list `es`; every node-level
   routine (findChild, addChild*, removeChild*, clone, minimum/maximum index selection) is characterised on
   edge lists.
2. *Tree layer*: an address-annotated abstract tree `art`, `repr h t` (the heap holds t), `wf p t` (the
   path-compression invariants below path p) and `contents t` (the pairs in pre-order).
3. *Operation layer*: each operation run on a represented tree yields a represented tree with the
   specified contents, and a frame condition (which cells may have changed).
4. *History layer*: induction over lists of calls, against a small independent specification (`Spec.v`:
   finite maps, bytewise order, prefixes).
5. *Ownership layer* (independent of 2-4, for arbitrary heaps): cells not created by a transaction are
   never written by it except for their channel field; lifted to all interleavings of any number of
   transactions.
6. *Concurrency*: small step machines for the CAS-based channel creation and for concurrent Notify.

## 3. Plan per property

| id | plan |
|----|------|
| C01, C02, C03, C09, C35, C39 | refinement to a finite map on keys without the terminator byte `$`; violations outside by executed witness |
| C04, C05, C06 | expected refuted (witness); prove the restriction that holds |
| C07, C08, C40 | ownership layer, all interleavings |
| C10, C11 | expected refuted (witness); prove the direction of C11 that holds |
| C12, C13, C14, C16, C17, C19 | iteration yields `contents t`; sortedness of `contents` |
| C15, C38 | direct, over arbitrary heaps |
| C18, C20, C21, C22, C23 | expected refuted (witnesses); prove the restrictions that hold |
| C24 | from the refinement theorems on their domain; witnesses outside |
| C25 | fuel bound over arbitrary heaps |
| C26, C27, C28, C29, C30, C31, C37 | channel tracking invariants |
| C32, C33 | interleaving machines |
| C34 | slice/aliasing model of `append` |
| C36 | insert/get part of the refinement theorem; witness for Delete |

## 4. Files

| files | contents |
|-------|----------|
| `Base`, `NodeOps`, `HeapOps`, `TxnOps`, `TreeOps`, `IterOps` | the model of the Go code, definitions only, each with file and lines |
| `Concurrency`, `Slices` | two small separate models: interleavings of atomic steps; slices and backing arrays |
| `World` | client histories: any number of trees and transactions, calls in any order |
| `Spec`, `SpecRead`, `SpecWorld`, `SpecWatch`, `SpecWalk`, `SpecPrefix`, `SpecLossy`, `SpecDom`, `SpecReuse`, `SpecSize`, `SpecAbsent`, `SpecDfs`, `SpecScan`, `SpecLine` | the specification side: finite maps, orders, which histories are covered, when a watch must fire |
| `Erase` | every operation acts on the state without channels like its channel-free copy (`e...`), a proof device |
| `Enc`, `EncOps`, `EncOps2`, `EncRead` | what the arrays of a node mean, and what each node routine does to that meaning |
| `Rep`, `Search`, `Wp`, `Insert*`, `Delete*`, `Top`, `Linear`, `ReadRep`, `ReadTop`, `ReadLow`, `Thin`, `ReadLow2`, `Holder`, `ReadRev`, `ReadRev2`, `ReadEr`, `AbsDel`, `AbsDel2`, `Ghost`, `Ghost2`, `Cov`, `DelPre*` | refinement of the map operations and of the reads |
| `Own`, `Frame`, `Views`, `WorldInv`, `Observe`, `Twin` | ownership: which cells a call may write, and what a reader can notice |
| `Prims`, `Clean`, `WorldClean`, `ReadWalk`, `ReadDfs`, `ReadDfs2` | effects of updates on arbitrary memories; unused child slots; Walk, LongestPrefix and DFS |
| `SpecGraph`, `Fuel`, `Rank`, `Acyclic`, `Cost` | recursion depths, no cycles, termination, cells created per call |
| `Prog`, `ProgEq`, `Machine` | the updates again as sequences of single memory accesses, equal to the model functions; goroutines that share memory |
| `ProgOwn`, `MachineInv` | which cells each access of a goroutine concerns, whatever the others do; the invariant of the machine |
| `SpecSerial`, `SpecReads` | serial executions of goroutines and the record of an execution; when two trees in two memories read alike |
| `Sim`, `NodeRel`, `ProgRel`, `HeapRel`, `Serial`, `SerialWorld`, `ReadRel`, `ReadAlike`, `ReadTotal` | executions up to renaming of addresses: every concurrent execution corresponds to a serial one, which is a history of calls |
| `SpecConcMap`, `ConcMap` | concurrent goroutines against reference maps (C56): covered jobs, run one after the other, are a covered history of calls |
| `WorldRef` | both layers together: histories with many trees and transactions |
| `Tag`, `Keep`, `KeepCh`, `Cells`, `Fires`, `WatchOp`, `WatchWorld` | watches: programs cannot tell values apart, which calls keep a channel in its leaf, which record it |
| `ChanKind`, `ChanOps`, `ChanRec`, `ChanWorld` | watches: a channel belongs to nodes or to the leaves of one key; which channels an update records; why a watch fires |
| `Witness`, `Refute` | executed counterexamples |
| `Conform` | the repository's own tests executed in the model (tests, not proofs) |
| `Prop*` | the theorems with their proofs and concrete cases |
| `Properties_*` | the theorems alone, each closed by `exact`, with `Print Assumptions` |

## 5. Trusted base

* The Coq 8.16.1 kernel (with its `vm_compute` for executed witnesses).  No plugins, no axioms of our own, no
  `Admitted`, no disabled checks.  Libraries: the standard library and std++ (gmap, lists).
  `coqchk -o` on the whole development lists seven constants as axioms: the fields of `Coq.ssr.ssrunder.Under_rel`
  (`Under_rel`, `Under_rel_from_rel`, `Under_relE`, `Over_rel`, `over_rel`, `over_rel_done`, `under_rel_done`), which the
  standard library hides behind a module type and which is loaded with `ssreflect`.  No theorem depends on them (section 7).
* That the model below is what the Go code does.  The model was written by reading the code; nothing was run.
  It is checked indirectly, in two ways.  `Conform.v` transcribes every test of the repository's `*_test.go` files
  into a run of the model and checks the outcome the Go test asks for: all cases of the table tests, all watch tests,
  and fixed samples for the fuzz tests and the tests that read word lists (the two tests that need the unexported
  `slowNotify` use Notify, which calls it).  All agree; the checks run when the file is
  compiled (`Check`), and leave no theorem behind.  The assertion `verifyTree` of TestDeletePrefix, which is commented out in the
  Go file, fails in the model as well (the key equal to the prefix stays, C21).  And the seeded edits in
  `seeded/LOG.jsonl` change the model like a plausible slip and show which theorems notice.
* The reading of Go used by the model: assignments and stores in program order in one goroutine; maps, slices,
  arrays and interfaces as in the language specification; `append`, `copy`, `bytes.HasPrefix`, `bytes.Compare`,
  `sort.Search` as documented; a value of a type parameter has a zero value (`GoZero`).

### What is modelled

* `txn.go`: Txn, Clone, TrackMutate, Insert, recursiveInsert, Delete, recursiveDelete, DeletePrefix, deletePrefix,
  Get, GetWatch, LongestPrefix, Commit, CommitOnly, Notify, slowNotify, makeLeaf, allocNode, writeNode,
  trackChannel, isClosed.
* `tree.go`: NewRadixTree, Clone, Len, Insert, Get, GetWatch, LongestPrefix, Minimum, Maximum, Delete,
  iterativeSearch, iterativeSearchWithWatch, DeletePrefix, Walk, DFS.
* `helpers.go`: everything used by the above (checkPrefix, leafMatches, longestCommonPrefix, addChild*, removeChild*,
  minimum, maximum, findChild, prefixMismatch, getTreeKey, getKey).
* `node_4.go`, `node_16.go`, `node_48.go`, `node_256.go`, `node_leaf.go`: the methods reached from the above.
* `iterator.go`, `path_iter.go`, `lower_bound_iterator.go`, `reverse_iterator.go`: all seeks and Next/Previous.
* The interleaving of getMutateCh calls and of Notify calls (atomic steps, sequentially consistent atomics).

### What is not modelled

* Weak memory.  The machine of `Machine.v` interleaves single accesses of goroutines on a sequentially consistent
  memory; by the Go memory model this is what programs without data races show, and C54 proves there is none between
  accesses to nodes and leaves.  A load or store accesses a whole node; the channel field of a node is atomic (as in
  the code).  In that machine a goroutine runs one transaction (or Clone) and stops; Txn.Clone, use of a Txn by two
  goroutines and use after Commit are excluded.  In `World.v` an API call is one atomic step.
* The closing of channels in the machine is one access (test and close); the race between the two is C32.
* Integer widths other than the `uint8` child counters and the `uint64` sizes: ids, depths and `partialLen`
  (`uint32`) are unbounded.  `int(uint64)` in Len is the identity.
* Memory exhaustion, stack overflow, garbage collection.
* Slice capacity, except in `Slices.v` (key ownership) and in SeekReverseLowerBound (explicit spare bytes).
* `DFSPrintTreeUtil` and other printing helpers, and methods that nothing calls.
* A dangling address counts as a nil dereference (cannot occur in Go).

### Domain restrictions in the statements

Many properties are false for the code as it is.  Then the manifest lists a `..._refuted` theorem with an executed
witness, and a `..._partial` theorem for the part that holds.  The main restrictions:

* `valid_key`: bytes different from `$` (36), the terminator the code appends.
  C61 replaces this by any key set that stays prefix-free when the terminator is appended.
* `tame`, `covered`: Delete only of stored keys, no DeletePrefix, no Delete that passes a node with 256 children (`deletable`), no
  insert into a tree emptied in the same transaction, and no emptying while Len may be too large.
* `disciplined`: a transaction is not updated after it was committed or cloned.
* `fair`, `tracked_change` (watches): no other transaction updates while it tracks, because an abandoned transaction
  that tracks takes the channel away (C28).
* `orderly`: no stored key goes on with a byte below 36 after another stored key (order statements); `neat m k`: the
  same between stored keys and a bound `k`. `highmap` (all bytes exceed 36) implies both.
* fewer than 2^64 updates (the size counter wraps).

## 6. Seeded errors

`seeded/LOG.jsonl` lists edits of the model (made in a copy) and what the rebuild said:

* `claim_broken`: the claim the edit was expected to break, written before the rebuild. It is a guess; some are wrong,
  and such lines have a `note`.
* `first_failing_lemmas`: in each file that failed, the first lemma that no longer goes through.
* `theorems_failed`: all theorems in `Properties_*` files that could not be rebuilt, because a file they import failed.
  Most of them are listed only because their file comes after the failing lemma; this is an upper bound and does not
  show that each of them is false of the edited model.
* `theorems_on_failing_lemmas`: the theorems whose proof uses one of the failing lemmas (`Print Opaque Dependencies` in
  the unedited build, at the time the field was written; so names proved later also appear). This is the sharper list.
  It is not complete: a file stops at its first error.

## 7. Print Assumptions

Output of `Print Assumptions` for every theorem of the `Properties_*` files (generated from the build log):

| file | theorem | assumptions |
|------|---------|-------------|
| `Properties_AbsDel.v` | `C04_partial` | none (closed under the global context) |
| `Properties_AbsDel.v` | `C04_panic_refuted` | none (closed under the global context) |
| `Properties_Absent.v` | `C64` | none (closed under the global context) |
| `Properties_Absent.v` | `C64_order_refuted` | none (closed under the global context) |
| `Properties_Conc.v` | `C33` | none (closed under the global context) |
| `Properties_Conc.v` | `C33_returns` | none (closed under the global context) |
| `Properties_Conc.v` | `C32_partial` | none (closed under the global context) |
| `Properties_Conc.v` | `C32_refuted` | none (closed under the global context) |
| `Properties_Conc.v` | `C34_partial` | none (closed under the global context) |
| `Properties_Conc.v` | `C34_one_byte` | none (closed under the global context) |
| `Properties_Conc.v` | `C34_write_refuted` | none (closed under the global context) |
| `Properties_Conc.v` | `C34_alias_refuted` | none (closed under the global context) |
| `Properties_ConcMap.v` | `C56_maps` | none (closed under the global context) |
| `Properties_ConcMap.v` | `C56_ends` | none (closed under the global context) |
| `Properties_DelIter.v` | `C66_iter` | none (closed under the global context) |
| `Properties_DelIter.v` | `C66_iter_exact` | none (closed under the global context) |
| `Properties_DelIter.v` | `C66_exact` | none (closed under the global context) |
| `Properties_DelIter.v` | `C66_agree_refuted` | none (closed under the global context) |
| `Properties_DelPre.v` | `C21_partial` | none (closed under the global context) |
| `Properties_DelPre.v` | `C21_others_partial` | none (closed under the global context) |
| `Properties_DelPre.v` | `C21_absent_partial` | none (closed under the global context) |
| `Properties_DelPre.v` | `C21_behind_refuted` | none (closed under the global context) |
| `Properties_DelPre.v` | `C21_absent_refuted` | none (closed under the global context) |
| `Properties_DelPre.v` | `C21_empty_refuted` | none (closed under the global context) |
| `Properties_DelPre.v` | `C21_len_refuted` | none (closed under the global context) |
| `Properties_DelPre.v` | `C21_wrap_refuted` | none (closed under the global context) |
| `Properties_Dfs.v` | `C67_partial` | none (closed under the global context) |
| `Properties_Dfs.v` | `C67_stored_partial` | none (closed under the global context) |
| `Properties_Dfs.v` | `C67_inserts_partial` | none (closed under the global context) |
| `Properties_Dfs.v` | `C67_refuted` | none (closed under the global context) |
| `Properties_Dfs.v` | `C67_gap_refuted` | none (closed under the global context) |
| `Properties_Dfs.v` | `C67_empty_refuted` | none (closed under the global context) |
| `Properties_Dom.v` | `C61_inserts` | none (closed under the global context) |
| `Properties_Dom.v` | `C61_fixed` | none (closed under the global context) |
| `Properties_Dom.v` | `C61` | none (closed under the global context) |
| `Properties_Dom.v` | `C61_delete` | none (closed under the global context) |
| `Properties_Dom.v` | `C61_reads` | none (closed under the global context) |
| `Properties_Hist.v` | `C44` | none (closed under the global context) |
| `Properties_Hist.v` | `C45` | none (closed under the global context) |
| `Properties_Hist.v` | `C46` | none (closed under the global context) |
| `Properties_Hist.v` | `C29` | none (closed under the global context) |
| `Properties_Hist.v` | `C31` | none (closed under the global context) |
| `Properties_Line.v` | `C69` | none (closed under the global context) |
| `Properties_Line.v` | `C69_made` | none (closed under the global context) |
| `Properties_Line.v` | `C69_alone` | none (closed under the global context) |
| `Properties_Line.v` | `C69_maps` | none (closed under the global context) |
| `Properties_Line.v` | `C69_ends` | none (closed under the global context) |
| `Properties_Line.v` | `C69_clones` | none (closed under the global context) |
| `Properties_Line.v` | `C69_looks` | none (closed under the global context) |
| `Properties_Line.v` | `C69_build` | none (closed under the global context) |
| `Properties_Line.v` | `C69_txns` | none (closed under the global context) |
| `Properties_Lossy.v` | `C60` | none (closed under the global context) |
| `Properties_Lossy.v` | `C60_sound` | none (closed under the global context) |
| `Properties_Lossy.v` | `C60_complete` | none (closed under the global context) |
| `Properties_Lossy.v` | `C60_next` | none (closed under the global context) |
| `Properties_Lossy.v` | `C60_empty_key_refuted` | none (closed under the global context) |
| `Properties_Low.v` | `C58_extra` | none (closed under the global context) |
| `Properties_Low.v` | `C58_returns` | none (closed under the global context) |
| `Properties_Low.v` | `C58_exact` | none (closed under the global context) |
| `Properties_Low.v` | `C58_branching` | none (closed under the global context) |
| `Properties_Low.v` | `C59_partial` | none (closed under the global context) |
| `Properties_Low.v` | `C59_refuted` | none (closed under the global context) |
| `Properties_Map.v` | `C01_partial` | none (closed under the global context) |
| `Properties_Map.v` | `C02_partial` | none (closed under the global context) |
| `Properties_Map.v` | `C03_partial` | none (closed under the global context) |
| `Properties_Map.v` | `C05_partial` | none (closed under the global context) |
| `Properties_Map.v` | `C06_partial` | none (closed under the global context) |
| `Properties_Map.v` | `C06_empty` | none (closed under the global context) |
| `Properties_Map.v` | `C09_batches` | none (closed under the global context) |
| `Properties_Map.v` | `C39_get_partial` | none (closed under the global context) |
| `Properties_Race.v` | `C54_model` | none (closed under the global context) |
| `Properties_Race.v` | `C54_race` | none (closed under the global context) |
| `Properties_Race.v` | `C54_published` | none (closed under the global context) |
| `Properties_Race.v` | `C54_snapshot` | none (closed under the global context) |
| `Properties_Race.v` | `C54_reader` | none (closed under the global context) |
| `Properties_Race.v` | `C54_get` | none (closed under the global context) |
| `Properties_Rank.v` | `C25_descent` | none (closed under the global context) |
| `Properties_Rank.v` | `C25_delete` | none (closed under the global context) |
| `Properties_Rank.v` | `C25_refuted` | none (closed under the global context) |
| `Properties_Rank.v` | `C52_acyclic` | none (closed under the global context) |
| `Properties_Rank.v` | `C52_calls` | none (closed under the global context) |
| `Properties_Rank.v` | `C52_reads` | none (closed under the global context) |
| `Properties_Rank.v` | `C52_iterators` | none (closed under the global context) |
| `Properties_Rank.v` | `C41_total` | none (closed under the global context) |
| `Properties_Rank.v` | `C53_insert` | none (closed under the global context) |
| `Properties_Rank.v` | `C53_delete` | none (closed under the global context) |
| `Properties_Rank.v` | `C53_txn` | none (closed under the global context) |
| `Properties_Rank.v` | `C53_prefix_refuted` | none (closed under the global context) |
| `Properties_Read.v` | `C14_partial` | none (closed under the global context) |
| `Properties_Read.v` | `C12_partial` | none (closed under the global context) |
| `Properties_Read.v` | `C13_partial` | none (closed under the global context) |
| `Properties_Read.v` | `C17_partial` | none (closed under the global context) |
| `Properties_Read.v` | `C19_partial` | none (closed under the global context) |
| `Properties_Read.v` | `C39_iter_partial` | none (closed under the global context) |
| `Properties_Read.v` | `C39_path_partial` | none (closed under the global context) |
| `Properties_Read.v` | `C39_ends_partial` | none (closed under the global context) |
| `Properties_Read.v` | `C39_order_refuted` | none (closed under the global context) |
| `Properties_Refuted.v` | `C01_panic_refuted` | none (closed under the global context) |
| `Properties_Refuted.v` | `C01_lost_refuted` | none (closed under the global context) |
| `Properties_Refuted.v` | `C04_refuted` | none (closed under the global context) |
| `Properties_Refuted.v` | `C05_refuted` | none (closed under the global context) |
| `Properties_Refuted.v` | `C06_refuted` | none (closed under the global context) |
| `Properties_Refuted.v` | `C10_refuted` | none (closed under the global context) |
| `Properties_Refuted.v` | `C11_refuted` | none (closed under the global context) |
| `Properties_Refuted.v` | `C16_refuted` | none (closed under the global context) |
| `Properties_Refuted.v` | `C16_longest_refuted` | none (closed under the global context) |
| `Properties_Refuted.v` | `C13_refuted` | none (closed under the global context) |
| `Properties_Refuted.v` | `C14_refuted` | none (closed under the global context) |
| `Properties_Refuted.v` | `C17_min_refuted` | none (closed under the global context) |
| `Properties_Refuted.v` | `C17_max_refuted` | none (closed under the global context) |
| `Properties_Refuted.v` | `C18_refuted` | none (closed under the global context) |
| `Properties_Refuted.v` | `C18_longer_refuted` | none (closed under the global context) |
| `Properties_Refuted.v` | `C19_refuted` | none (closed under the global context) |
| `Properties_Refuted.v` | `C20_refuted` | none (closed under the global context) |
| `Properties_Refuted.v` | `C21_refuted` | none (closed under the global context) |
| `Properties_Refuted.v` | `C22_refuted` | none (closed under the global context) |
| `Properties_Refuted.v` | `C23_refuted` | none (closed under the global context) |
| `Properties_Refuted.v` | `C24_refuted` | none (closed under the global context) |
| `Properties_Refuted.v` | `C27_refuted` | none (closed under the global context) |
| `Properties_Refuted.v` | `C28_refuted` | none (closed under the global context) |
| `Properties_Refuted.v` | `C30_refuted` | none (closed under the global context) |
| `Properties_Refuted.v` | `C36_refuted` | none (closed under the global context) |
| `Properties_Reuse.v` | `C62_unsought` | none (closed under the global context) |
| `Properties_Reuse.v` | `C62_partial` | none (closed under the global context) |
| `Properties_Reuse.v` | `C62_rewound` | none (closed under the global context) |
| `Properties_Reuse.v` | `C62_lower` | none (closed under the global context) |
| `Properties_Reuse.v` | `C62_reverse` | none (closed under the global context) |
| `Properties_Reuse.v` | `C62_refuted` | none (closed under the global context) |
| `Properties_Reuse.v` | `C62_lower_refuted` | none (closed under the global context) |
| `Properties_Rev.v` | `C65_returns` | none (closed under the global context) |
| `Properties_Rev.v` | `C65_exact` | none (closed under the global context) |
| `Properties_Rev.v` | `C65_panics` | none (closed under the global context) |
| `Properties_Rev.v` | `C65_capacity_refuted` | none (closed under the global context) |
| `Properties_Rev.v` | `C65_delete_refuted` | none (closed under the global context) |
| `Properties_Scan.v` | `C68` | none (closed under the global context) |
| `Properties_Scan.v` | `C68_conc` | none (closed under the global context) |
| `Properties_Seek.v` | `C22_partial` | none (closed under the global context) |
| `Properties_Seek.v` | `C22_empty_partial` | none (closed under the global context) |
| `Properties_Seek.v` | `C23_partial` | none (closed under the global context) |
| `Properties_Seek.v` | `C23_prefix_partial` | none (closed under the global context) |
| `Properties_Seek.v` | `C50` | none (closed under the global context) |
| `Properties_Seek.v` | `C22_wide_refuted` | none (closed under the global context) |
| `Properties_Seek.v` | `C22_node48_refuted` | none (closed under the global context) |
| `Properties_Seek.v` | `C23_node48_refuted` | none (closed under the global context) |
| `Properties_Seek.v` | `C23_wide_refuted` | none (closed under the global context) |
| `Properties_Serial.v` | `C55_recorded` | none (closed under the global context) |
| `Properties_Serial.v` | `C55_serial` | none (closed under the global context) |
| `Properties_Serial.v` | `C55_access` | none (closed under the global context) |
| `Properties_Serial.v` | `C55_panic` | none (closed under the global context) |
| `Properties_Serial.v` | `C55_ends` | none (closed under the global context) |
| `Properties_Serial.v` | `C55_reads` | none (closed under the global context) |
| `Properties_Size.v` | `C63_partial` | none (closed under the global context) |
| `Properties_Size.v` | `C63_live_partial` | none (closed under the global context) |
| `Properties_Size.v` | `C63_refuted` | none (closed under the global context) |
| `Properties_Size.v` | `C63_leak_refuted` | none (closed under the global context) |
| `Properties_Walk.v` | `C20_partial` | none (closed under the global context) |
| `Properties_Walk.v` | `C20_free_partial` | none (closed under the global context) |
| `Properties_Walk.v` | `C20_twice_refuted` | none (closed under the global context) |
| `Properties_Walk.v` | `C20_deleted_refuted` | none (closed under the global context) |
| `Properties_Walk.v` | `C18_partial` | none (closed under the global context) |
| `Properties_Walk.v` | `C18_deleted_refuted` | none (closed under the global context) |
| `Properties_Walk.v` | `C18_wide_refuted` | none (closed under the global context) |
| `Properties_Walk.v` | `C51` | none (closed under the global context) |
| `Properties_Walk.v` | `C51_delete_refuted` | none (closed under the global context) |
| `Properties_Watch.v` | `C26_refuted` | none (closed under the global context) |
| `Properties_Watch.v` | `C26_partial` | none (closed under the global context) |
| `Properties_Watch.v` | `C27_partial` | none (closed under the global context) |
| `Properties_Watch.v` | `C37_refuted` | none (closed under the global context) |
| `Properties_Watch.v` | `C37_partial` | none (closed under the global context) |
| `Properties_Watch.v` | `C30_partial` | none (closed under the global context) |
| `Properties_Watch.v` | `C30_grow_refuted` | none (closed under the global context) |
| `Properties_Watch.v` | `C30_shrink_refuted` | none (closed under the global context) |
| `Properties_Watch.v` | `C57_kinds` | none (closed under the global context) |
| `Properties_World.v` | `C41` | none (closed under the global context) |
| `Properties_World.v` | `C42` | none (closed under the global context) |
| `Properties_World.v` | `C43` | none (closed under the global context) |
| `Properties_World.v` | `C25_partial` | none (closed under the global context) |
| `Properties_World.v` | `C07_refuted` | none (closed under the global context) |
| `Properties_World.v` | `C08_refuted` | none (closed under the global context) |
| `Properties_World.v` | `C40_refuted` | none (closed under the global context) |
| `Properties_World.v` | `C38` | none (closed under the global context) |
| `Properties_World.v` | `C15_refuted` | none (closed under the global context) |
| `Properties_World.v` | `C15_partial` | none (closed under the global context) |
| `Properties_World.v` | `C35` | none (closed under the global context) |
| `Properties_WorldRef.v` | `C47` | none (closed under the global context) |
| `Properties_WorldRef.v` | `C48` | none (closed under the global context) |
| `Properties_WorldRef.v` | `C49` | none (closed under the global context) |
| `Properties_WorldRef.v` | `C49_lower` | none (closed under the global context) |
| `Properties_WorldRef.v` | `C49_reverse` | none (closed under the global context) |
