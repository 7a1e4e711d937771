{"id": "C01", "title": "Insert/Get behave like a finite map", "statement": "After any sequence of Insert calls starting from an empty tree, Get(k) returns (v, true) where v is the value of the most recent Insert with key k, and (zero, false) if k was never inserted; no call panics.", "quantifier": "all sequences of Insert calls (any keys, any values, any length) and all lookup keys", "why_tests_cant": "The key space is unbounded and the tree shape (prefix splits, compressed prefixes longer than maxPrefixLen, growth 4/16/48/256) depends on the whole history.", "anchors": ["tree.go: Insert, Get, iterativeSearch", "txn.go: Insert, recursiveInsert", "helpers.go: addChild*, findChild, prefixMismatch"]}
{"id": "C02", "title": "Mixed Insert/Delete histories behave like a finite map", "statement": "After any sequence of Insert and Delete calls on a tree, Get(k) for every k agrees with a finite map on which the same updates were performed, and no call panics.", "quantifier": "all sequences of Insert and Delete calls and all lookup keys", "why_tests_cant": "Shrinking and path re-compression after deletes interact with earlier growth; the number of reachable shapes is unbounded.", "anchors": ["txn.go: Insert, Delete, recursiveInsert, recursiveDelete", "helpers.go: addChild*, removeChild*"]}
{"id": "C03", "title": "Delete of a stored key removes exactly that key", "statement": "Delete(k) for a stored key k returns (the stored value, true), lowers Len by one, and leaves every other key with its value.", "quantifier": "all reachable trees, all stored keys", "why_tests_cant": "Requires all tree shapes, in particular merges of compressed prefixes and shrinking at each threshold.", "anchors": ["txn.go: Delete, recursiveDelete", "helpers.go: removeChild4/16/48/256"]}
{"id": "C04", "title": "Delete of an absent key changes nothing", "statement": "Delete(k) for a key k that is not stored returns (zero, false) and leaves the contents, the length and the iteration of the tree unchanged.", "quantifier": "all reachable trees, all keys not stored in them", "why_tests_cant": "The failure depends on where in the tree the search for the absent key stops.", "anchors": ["txn.go: Delete (264-287), recursiveDelete (327-342)"]}
{"id": "C05", "title": "Insert reports the previous value", "statement": "Insert(k, v) returns (old, true) with old the previous value of k when k was stored, and (zero, false) when it was not.", "quantifier": "all reachable trees, keys and values", "why_tests_cant": "A key may be stored at a terminal node, in an internal node or below a terminator edge; which one depends on the history.", "anchors": ["txn.go: Insert (86-95), recursiveInsert (110-171)"]}
{"id": "C06", "title": "Len is the number of stored keys", "statement": "Len() equals the number of distinct keys currently stored, for the tree and for every committed transaction.", "quantifier": "all histories of Insert, Delete and DeletePrefix", "why_tests_cant": "Len is a separately maintained counter; it agrees with the contents only if every branch of every update maintains it.", "anchors": ["tree.go: Len", "txn.go: Insert, Delete, DeletePrefix, CommitOnly"]}
{"id": "C07", "title": "Published trees are immutable", "statement": "Once a tree value has been obtained (NewRadixTree, Commit, CommitOnly, Insert, Delete, DeletePrefix, Clone), no later call on any tree, transaction or iterator changes what Get, Len, iteration, Minimum, Maximum, LongestPrefix or the path iterator return for it, provided the transaction that produced it is not used again.", "quantifier": "every interleaving of calls on any number of trees and open transactions, every key; also calls that panic", "why_tests_cant": "Copy-on-write shares almost all nodes between versions; a single missing copy is only visible for particular interleavings.", "anchors": ["txn.go: writeNode, Txn, CommitOnly, recursiveInsert, recursiveDelete, deletePrefix", "node_*.go: clone"]}
{"id": "C08", "title": "Open transactions are isolated from each other and from their base", "statement": "Calls on one transaction never change what reads on any other open transaction (or on any published tree) return; uncommitted changes are visible only inside their transaction.", "quantifier": "every interleaving of calls on any number of transactions (started by Txn, not by Clone)", "why_tests_cant": "Two transactions of the same base share nodes and hand out the same node ids; only exhaustive reasoning over interleavings rules out crosstalk.", "anchors": ["txn.go: Txn, writeNode, Insert, Delete, DeletePrefix, Commit"]}
{"id": "C09", "title": "A transaction reads its own writes and commits exactly them", "statement": "Inside a transaction Get sees the effects of the transaction's earlier calls; the committed tree holds exactly the contents the transaction had at Commit; performing a list of updates in one transaction gives the same contents as performing them one by one on trees.", "quantifier": "all base trees, all lists of updates, all keys", "why_tests_cant": "In a transaction nodes created by it are updated in place, unlike in one-shot updates; equality must hold for all batches.", "anchors": ["txn.go: Get, Insert, Delete, Commit, writeNode", "tree.go: Insert, Delete"]}
{"id": "C10", "title": "A committed tree stays fixed when its transaction is used further", "statement": "After nt := txn.Commit(), further calls on txn do not change the contents of nt.", "quantifier": "all transactions, all later calls on the same transaction", "why_tests_cant": "Whether a later update copies a node depends on node ids assigned during the whole transaction.", "anchors": ["txn.go: CommitOnly (392-399), writeNode (31-33)"]}
{"id": "C11", "title": "Txn.Clone yields independent transactions", "statement": "After c := txn.Clone(), calls on txn do not affect the contents of c and calls on c do not affect the contents of txn.", "quantifier": "all transactions, all later calls on either", "why_tests_cant": "Depends on which nodes were created before the clone in the same transaction.", "anchors": ["txn.go: Clone (57-70), writeNode"]}
{"id": "C12", "title": "Full iteration yields every stored pair exactly once", "statement": "An Iterator positioned with the empty prefix yields exactly the stored (key, value) pairs, each once, and then stops.", "quantifier": "all reachable trees", "why_tests_cant": "The walk is an explicit stack over four node layouts; completeness must hold for every shape.", "anchors": ["iterator.go: Next, SeekPrefix"]}
{"id": "C13", "title": "Iteration is in ascending key order", "statement": "The keys yielded by an Iterator are in strictly ascending bytewise order.", "quantifier": "all reachable trees, all prefixes", "why_tests_cant": "The order depends on where a key that is a prefix of others was stored.", "anchors": ["iterator.go: Next", "helpers.go: addChild*"]}
{"id": "C14", "title": "Prefix iteration yields exactly the keys with the prefix", "statement": "After SeekPrefix(p), Next yields exactly the stored pairs whose key starts with p, each once.", "quantifier": "all reachable trees, all prefixes", "why_tests_cant": "The seek may stop in the middle of a compressed prefix, also one longer than maxPrefixLen.", "anchors": ["iterator.go: SeekPrefix, Next", "helpers.go: prefixMismatch"]}
{"id": "C15", "title": "Prefix iteration never yields a foreign key", "statement": "After SeekPrefix(p), every key yielded by Next starts with p, on any tree state whatsoever.", "quantifier": "all node graphs (reachable or not), all prefixes p without the byte '$', all numbers of Next calls", "why_tests_cant": "Quantifies over all memory states, including ones no test builds.", "anchors": ["iterator.go: Next"]}
{"id": "C16", "title": "Iterating an empty tree yields nothing", "statement": "An iterator on a tree with no keys yields no pair; LongestPrefix on such a tree reports no match.", "quantifier": "all histories leading to an empty tree", "why_tests_cant": "Emptiness is reached in several ways (fresh tree, deletes, DeletePrefix).", "anchors": ["tree.go: NewRadixTree", "iterator.go: Next", "tree.go: LongestPrefix", "txn.go: Delete"]}
{"id": "C17", "title": "Minimum and Maximum return the extreme keys", "statement": "On a non-empty tree Minimum returns the pair with the smallest key and Maximum the pair with the largest key.", "quantifier": "all reachable trees", "why_tests_cant": "Needs every shape and every placement of keys that are prefixes of other keys.", "anchors": ["tree.go: Minimum, Maximum", "helpers.go: minimum, maximum"]}
{"id": "C18", "title": "LongestPrefix returns the longest stored prefix", "statement": "LongestPrefix(k) returns the pair with the longest stored key that is a prefix of k, and reports false when no stored key is a prefix of k.", "quantifier": "all reachable trees, all keys", "why_tests_cant": "The candidate may be at any node on the path, including in children that are not followed.", "anchors": ["tree.go: LongestPrefix (85-141)"]}
{"id": "C19", "title": "The path iterator yields exactly the stored prefixes of the path", "statement": "GetPathIterator(p) yields exactly the stored pairs whose key is a prefix of p, each once, shortest first, and then stops.", "quantifier": "all reachable trees, all paths", "why_tests_cant": "All shapes and all placements of prefix keys.", "anchors": ["path_iter.go: Next", "tree.go: GetPathIterator", "node_leaf.go: prefixContainsMatch"]}
{"id": "C20", "title": "Walk visits every stored pair", "statement": "Walk calls the callback once for every stored pair, with its key and its value, and stops when the callback returns true.", "quantifier": "all reachable trees, all callbacks", "why_tests_cant": "All shapes.", "anchors": ["tree.go: Walk, recursiveWalk (383-398)"]}
{"id": "C21", "title": "DeletePrefix removes exactly the keys with the prefix", "statement": "DeletePrefix(p) removes exactly the stored keys that start with p, leaves the others retrievable, adjusts Len by their number and returns whether there were any.", "quantifier": "all reachable trees, all prefixes", "why_tests_cant": "Child arrays of four layouts are compacted; what is lost depends on the shape.", "anchors": ["txn.go: DeletePrefix, deletePrefix (419-517)"]}
{"id": "C22", "title": "SeekLowerBound yields all keys not below the bound", "statement": "After SeekLowerBound(k), Next yields exactly the stored pairs with key >= k in ascending order; the seek does not panic.", "quantifier": "all reachable trees, all bounds", "why_tests_cant": "The seek makes a decision at every level; errors need particular combinations of prefixes.", "anchors": ["lower_bound_iterator.go: SeekLowerBound, Next", "node_*.go: getLowerBoundCh"]}
{"id": "C23", "title": "The reverse iterator yields keys in descending order", "statement": "A ReverseIterator (optionally after SeekPrefix(p) or SeekReverseLowerBound(k)) yields exactly the stored pairs (with the prefix p / with key <= k) in descending order, each once; the seeks do not panic.", "quantifier": "all reachable trees, all prefixes and bounds", "why_tests_cant": "As C22, plus interaction with the set of already expanded parents.", "anchors": ["reverse_iterator.go: SeekReverseLowerBound, Previous, SeekPrefix"]}
{"id": "C24", "title": "No call panics", "statement": "NewRadixTree, Insert, Get, Delete, GetWatch, iteration, path iteration, Minimum, Maximum and LongestPrefix never panic on any reachable tree.", "quantifier": "all histories and arguments", "why_tests_cant": "Out-of-range indices depend on rare shapes.", "anchors": ["tree.go", "txn.go", "helpers.go", "iterator.go", "path_iter.go"]}
{"id": "C25", "title": "Lookups and updates visit O(len(key)) nodes", "statement": "Get, GetWatch, Insert, Delete, LongestPrefix and SeekPrefix terminate on every tree state after visiting at most len(key)+2 nodes on the descent.", "quantifier": "all node graphs (even cyclic or corrupt ones), all keys", "why_tests_cant": "A termination bound over all memory states.", "anchors": ["tree.go: iterativeSearch, LongestPrefix", "txn.go: recursiveInsert, recursiveDelete", "iterator.go: SeekPrefix"]}
{"id": "C26", "title": "A watch on a stored key fires when the key changes", "statement": "If GetWatch(k) found k on a tree, and a transaction of that tree with TrackMutate(true) updates or deletes k (possibly among any other updates) and commits, then the returned channel is closed.", "quantifier": "all trees, keys, and lists of updates in the transaction", "why_tests_cant": "The channel travels with nodes that are cloned, split and merged in between.", "anchors": ["tree.go: GetWatch", "txn.go: trackChannel, writeNode, Commit, slowNotify"]}
{"id": "C27", "title": "A watch on an absent key fires when the key is inserted", "statement": "If GetWatch(k) did not find k, and a transaction of that tree with TrackMutate(true) inserts k and commits, then the returned channel is closed.", "quantifier": "all trees, absent keys", "why_tests_cant": "Depends on the node at which the failed search stopped.", "anchors": ["tree.go: iterativeSearchWithWatch (240-327)", "txn.go: recursiveInsert, trackChannel"]}
{"id": "C28", "title": "An abandoned transaction does not break watches", "statement": "A transaction that is never committed has no effect on watches: a channel handed out before still fires when a later committed transaction changes the watched key.", "quantifier": "all trees, all abandoned transactions, all later transactions", "why_tests_cant": "Needs two transactions interleaved with watchers.", "anchors": ["txn.go: trackChannel (570-589)"]}
{"id": "C29", "title": "Without TrackMutate no channel is ever closed", "statement": "As long as TrackMutate(true) is never called, no operation closes any watch channel.", "quantifier": "every history of all modelled calls without TrackMutate(true)", "why_tests_cant": "Absence of an effect over all histories.", "anchors": ["txn.go: trackChannel, Notify, Commit"]}
{"id": "C30", "title": "A watch on a stored key does not fire for other keys", "statement": "If a transaction inserts, updates or deletes only keys different from k, committing it does not close the channel that GetWatch(k) returned for the stored key k.", "quantifier": "all trees, keys k, and lists of updates of other keys", "why_tests_cant": "Splits and merges move the leaf of k around while other keys change.", "anchors": ["txn.go: recursiveInsert (131-160), recursiveDelete, writeNode"]}
{"id": "C31", "title": "Notifications are issued exactly by Notify/Commit", "statement": "Only Notify and Commit close channels. Of a transaction that tracks changes they close exactly the channels recorded so far, of another transaction none; no channel is closed twice; a second Notify closes nothing.", "quantifier": "every history of all modelled calls, any keys", "why_tests_cant": "Absence of effects, and all contents of the record of channels.", "anchors": ["txn.go: Notify, Commit, CommitOnly, slowNotify"]}
{"id": "C32", "title": "Concurrent commits do not panic", "statement": "Two goroutines that concurrently commit two different transactions (both tracking mutations) started from the same tree never panic.", "quantifier": "all schedules of the two goroutines", "why_tests_cant": "A race that needs a particular schedule.", "anchors": ["txn.go: slowNotify (404-411), isClosed"]}
{"id": "C33", "title": "Concurrent readers obtain the same watch channel", "statement": "Any number of goroutines concurrently asking for the watch channel of the same node (no writer) obtain the same channel, and later callers obtain it too.", "quantifier": "every number of goroutines, every schedule of their atomic steps", "why_tests_cant": "Interleavings of Load / CompareAndSwap / Load.", "anchors": ["node_4.go: getMutateCh", "node_16.go: getMutateCh", "node_48.go: getMutateCh", "node_256.go: getMutateCh", "node_leaf.go: getMutateCh"]}
{"id": "C34", "title": "Key buffers stay the caller's", "statement": "Passing a key slice to Insert, Get, Delete or a seek does not modify any byte of the caller's memory, and later writes of the caller to that memory do not change the tree.", "quantifier": "all slices (length, capacity, contents of the backing array) and later writes", "why_tests_cant": "Depends on the capacity of the slice and on aliasing.", "anchors": ["helpers.go: getTreeKey (345-347)", "txn.go: makeLeaf (setKey)"]}
{"id": "C35", "title": "RadixTree.Clone yields an equal, independent tree", "statement": "c := t.Clone() has the same contents and length as t, and later updates starting from either do not affect the other.", "quantifier": "all trees, all later histories", "why_tests_cant": "Sharing of nodes across versions.", "anchors": ["tree.go: Clone"]}
{"id": "C36", "title": "A node may branch on all 256 byte values", "statement": "The map behaviour of Insert, Get and Delete also holds when some node has 256 children.", "quantifier": "all trees in which a node has 256 children", "why_tests_cant": "The child counter is a uint8; the case needs 256 particular keys.", "anchors": ["helpers.go: addChild256, removeChild256", "txn.go: recursiveDelete (344-350)"]}
{"id": "C37", "title": "A prefix watch fires when a key with the prefix changes", "statement": "If SeekPrefixWatch(p) on a tree returned a channel, and a transaction of that tree with TrackMutate(true) inserts, updates or deletes a key that starts with p and commits, then the channel is closed.", "quantifier": "all trees, prefixes, keys with that prefix", "why_tests_cant": "Depends on the node at which the seek stopped, also inside compressed prefixes longer than maxPrefixLen.", "anchors": ["iterator.go: SeekPrefixWatch, SeekPrefix", "txn.go: trackChannel"]}
{"id": "C38", "title": "Get returns only values stored under exactly that key", "statement": "If Get(k) returns (v, true), some leaf of the tree stores value v under exactly the key k, on any tree state whatsoever.", "quantifier": "all node graphs, all keys", "why_tests_cant": "All memory states.", "anchors": ["tree.go: iterativeSearch"]}
{"id": "C39", "title": "Observations depend only on the contents", "statement": "Two trees reached by different histories with the same final contents answer every Get, prefix iteration and path iteration alike (iterations as sets), whatever their internal shape; the order of iteration, Minimum and Maximum agree too.", "quantifier": "all pairs of histories with the same final map", "why_tests_cant": "Pairs of unbounded histories.", "anchors": ["tree.go", "txn.go", "iterator.go"]}
{"id": "C40", "title": "An iterator is a snapshot", "statement": "An iterator obtained from a tree yields the same sequence no matter which updates on other trees or transactions happen before or between its Next calls.", "quantifier": "every interleaving of Next calls with other calls", "why_tests_cant": "Interleavings.", "anchors": ["iterator.go: Next", "txn.go: writeNode"]}
{"id": "C41", "title": "Published trees are immutable (disciplined clients)", "statement": "In every history in which no transaction is updated after it was committed or cloned, no call changes what Get, Len, LongestPrefix, Minimum, Maximum, Walk, prefix iteration, the path iterator, SeekLowerBound and the reverse iterator return for a tree obtained earlier.", "quantifier": "every interleaving of calls on any number of trees and transactions (with no update of a transaction after its Commit, CommitOnly or Clone), any keys; also calls that panic", "why_tests_cant": "Copy-on-write shares almost all nodes between versions; a single missing copy is only visible for particular interleavings.", "anchors": ["txn.go: writeNode, Txn, CommitOnly, recursiveInsert, recursiveDelete, deletePrefix", "node_*.go: clone"]}
{"id": "C42", "title": "Transactions are isolated (disciplined clients)", "statement": "In every such history, calls that do not update transaction j change neither its size nor what any read on it returns.", "quantifier": "every interleaving of calls on any number of trees and transactions (with no update of a transaction after its Commit, CommitOnly or Clone)", "why_tests_cant": "Transactions of the same base share nodes and hand out the same node ids.", "anchors": ["txn.go: Txn, writeNode, Insert, Delete, DeletePrefix, Commit, Clone"]}
{"id": "C43", "title": "An iterator is a snapshot (disciplined clients)", "statement": "In every such history, an iterator obtained from a tree yields the same sequence whatever calls are made before and between its Next calls.", "quantifier": "every interleaving of Next calls with other calls; forward, path, lower bound and reverse iterators", "why_tests_cant": "Interleavings.", "anchors": ["iterator.go: Next", "path_iter.go: Next", "lower_bound_iterator.go: Next", "reverse_iterator.go: Previous", "txn.go: writeNode"]}
{"id": "C44", "title": "Prefix iteration yields only keys with the prefix, after any history", "statement": "In every state reached by any calls with any keys (also after panics or misuse of transactions), prefix iteration from any node yields only keys that start with the prefix, for prefixes that do not end in '$'.", "quantifier": "every history, every start node, every prefix not ending in '$', every point of the iteration", "why_tests_cant": "Unbounded histories including misuse.", "anchors": ["iterator.go: Next, SeekPrefixWatch", "txn.go: recursiveInsert"]}
{"id": "C45", "title": "Get never invents or misattributes a value", "statement": "In every state reached by any calls with any keys, a Get that reports found returns a value that some Insert call passed for exactly that key.", "quantifier": "every history, every root, every key", "why_tests_cant": "Unbounded histories including misuse; the code shares leaves between nodes and copies them.", "anchors": ["txn.go: recursiveInsert, Insert", "node.go: Get", "tree.go: Get"]}
{"id": "C46", "title": "Iterators, Minimum, Maximum and LongestPrefix return only inserted pairs", "statement": "In every state reached by any calls with any keys, every pair returned by any iterator in any state, by Minimum, Maximum or LongestPrefix was passed to some Insert call together, or is (nil, zero value).", "quantifier": "every history, every iterator state, every root and key", "why_tests_cant": "Unbounded histories including misuse.", "anchors": ["iterator.go: Next", "path_iter.go", "lower_bound_iterator.go", "reverse_iterator.go", "tree.go: Minimum, Maximum, LongestPrefix"]}
{"id": "C47", "title": "Covered histories never panic and return what the maps say", "statement": "In every history of calls on any number of trees and transactions, branching and interleaved in any way, whose updates are covered (valid keys; deletes of stored keys while some byte is free; no insert into a tree its own transaction emptied) and in which no transaction is updated after it was committed or cloned, no call panics and every call, watches included, returns what the reference map of its tree or transaction says (Insert over a key that has a stored extension may report the old value as absent).", "quantifier": "all call lists, all keys and values, all numbers of trees and transactions", "why_tests_cant": "Tests follow one tree or one transaction at a time; interleavings of branches, clones and transactions are unbounded.", "anchors": ["tree.go:64", "tree.go:74", "txn.go:41", "txn.go:86", "txn.go:264", "txn.go:382"]}
{"id": "C48", "title": "After a covered history every tree and transaction is its map", "statement": "After every covered history, every tree value obtained so far and every transaction answers Get, prefix iteration, path iteration, Minimum and Maximum as its reference map says, in ascending order if no stored key goes on with a byte below '$' after another stored key; the lower bound and reverse iterators yield the pairs of the map as in C22, C23 and C50; Len is the map size plus at most the number of overwrites of keys that had stored extensions.", "quantifier": "all covered histories, all trees and transactions in them, all keys and prefixes", "why_tests_cant": "Needs all older trees re-read after all later calls.", "anchors": ["tree.go:54", "tree.go:141", "iterator.go:30", "path_iter.go:16", "node_leaf.go:40", "lower_bound_iterator.go:122", "reverse_iterator.go:38"]}
{"id": "C49", "title": "Iterators yield the pairs of their tree at creation, whatever happens in between", "statement": "In every covered history, an iterator positioned with a prefix on any tree yields exactly the pairs with that prefix that the tree's map held when the tree was obtained, and then reports the end, whatever calls (also uncovered ones that respect transaction discipline) are made before and between its Next calls. The same holds for a lower bound iterator and for a reverse iterator sought to a bound, on the sets of keys and bounds of C22 and C50.", "quantifier": "all covered histories, trees, prefixes, and interleavings of further calls", "why_tests_cant": "Interleavings of Next calls with updates are unbounded.", "anchors": ["iterator.go:30", "iterator.go:101", "txn.go:86"]}
{"id": "C50", "title": "SeekReverseLowerBound yields exactly the pairs not above the bound when it returns", "statement": "On tame histories (see C41) whose stored keys go on in at most 12 ways after every prefix, where neither a stored key nor the bound goes on with a byte below '$' after another stored key or the bound (in particular if all bytes are above '$'): whenever SeekReverseLowerBound(k) returns, Previous yields exactly the stored pairs with key <= k, in descending order, each once; keys that are prefixes of other keys included.", "quantifier": "all tame histories, all such bounds, all contents of the spare capacity of the searched path", "why_tests_cant": "The seek leaves a mixture of subtrees, expanded parents and leaves on the stack and Previous filters them; whether the mixture is right depends on every level of the descent.", "anchors": ["reverse_iterator.go: SeekReverseLowerBound, Previous", "node_4.go, node_16.go: getLowerBoundCh"]}
{"id": "C51", "title": "No left-over child pointers after insertions", "statement": "After a history of insertions, every Node4, Node16 and Node48 in memory holds nil in the child slots from numChildren on; so loops over the whole children array (Walk, LongestPrefix, the exact-match scan of Get) see each child exactly once and no removed child.", "quantifier": "all histories of insertions, all keys, all nodes in memory", "why_tests_cant": "A left-over pointer is invisible to Get and to the iterators, which use numChildren.", "anchors": ["helpers.go: addChild4, addChild16, addChild48 (62-)", "node_4.go", "node_16.go", "node_48.go", "tree.go: LongestPrefix (85-141), recursiveWalk (383-398)"]}
{"id": "C52", "title": "No cycles, and everything terminates", "statement": "The child pointers in memory (stale ones included) never form a cycle; every API call returns or panics; Minimum, Maximum, Walk, DFS and all seeks return; and repeated Next/Previous reaches an end.", "quantifier": "all histories of calls on any number of trees and transactions, including keys with the terminator byte, prefix deletions, panics in between and transactions used after commit or clone", "why_tests_cant": "Non-termination over all histories cannot be observed by finitely many runs, and a cycle may need an unlikely sequence of splits and merges.", "anchors": ["txn.go: recursiveInsert, recursiveDelete, deletePrefix", "node_4.go: removeChild4 (collapse)", "tree.go: recursiveWalk, DFSNode, minimum, maximum", "iterator.go, path_iter.go, lower_bound_iterator.go, reverse_iterator.go: loops"]}
{"id": "C53", "title": "Path copying creates few cells", "statement": "One Insert creates at most len(key)+20 new nodes and leaves, one Delete at most 3*len(key)+12, whatever the size and shape of the tree.", "quantifier": "all memories (reachable or not), all trees, keys and values, inside and outside transactions", "why_tests_cant": "A test measures one tree; a copy of too many nodes is invisible in the results.", "anchors": ["txn.go: recursiveInsert (97-262), recursiveDelete (289-353), writeNode (24-38)", "helpers.go: addChild* (46-156), removeChild* (357-518)"]}
{"id": "C54", "title": "Goroutines working on transactions of shared trees do not race", "statement": "Goroutines that each run a transaction on a tree handed out earlier (inserts, deletes, prefix deletes, lookups, then commit or abandon) never access a node or leaf that another one writes, never write a node or leaf reachable from a tree handed out, and every lookup or walk on such a tree, even one interleaved with their single memory accesses, gives the result it would give alone.", "quantifier": "every number of goroutines, every program of calls depending on earlier results, every interleaving of single memory accesses, any keys (also invalid ones and histories with panics)", "why_tests_cant": "Tests and the race detector see a few interleavings; the claim is about all of them, for all programs.", "anchors": ["txn.go: writeNode, Insert, Delete, DeletePrefix, Commit", "tree.go: Txn, Clone, Get", "node_4.go: clone"]}
{"id": "C55", "title": "Transactions of concurrent goroutines are serializable", "statement": "Goroutines start transactions on trees handed out earlier, update and read them, and commit (or clone a tree), their single memory accesses interleaved in any way. Run the jobs that have ended one after the other, in the order in which they ended, in a memory of their own: this hands out the same number of trees, and every read (Len, Get, LongestPrefix, Minimum, Maximum, Walk, every iterator after every seek) of the i-th tree is the same in both. No goroutine touches a cell that does not exist, and one that panics would panic alone too. Every goroutine can be run to its end from any moment on, wherever the others are, and is never stuck in a search.", "quantifier": "every number of goroutines, every program of calls that may depend on earlier results, every interleaving of single memory accesses, any keys", "why_tests_cant": "A test or a stress run sees a few interleavings of a few programs; serializability is about all of them and about every read of every resulting tree.", "anchors": ["txn.go: Insert, Delete, DeletePrefix, Get, TrackMutate, Commit", "tree.go: Txn, Clone, NewRadixTree", "iterator.go, path_iter.go, lower_bound_iterator.go, reverse_iterator.go"]}
{"id": "C56", "title": "Concurrent goroutines compute their reference maps", "statement": "Goroutines start transactions on trees handed out earlier and commit, or clone a tree, their single memory accesses interleaved in any way. If every job, taken alone on the map of the tree it starts from, keeps to valid keys, deletes only keys that are present and uses no DeletePrefix, then every tree handed out answers Get, iteration by prefix, path iteration, Minimum, Maximum, and the lower bound and reverse iterators (on the domains of C22, C23, C50) as the map that its job computes from that map, Len is the size of the map plus at most the number of overwrites the code miscounts, and no such goroutine panics.", "quantifier": "every number of goroutines, every program of calls that may depend on earlier results, every interleaving of single memory accesses, every map, fewer than 2^64 calls in total", "why_tests_cant": "A race test samples a few schedules and compares a few keys; this is about all schedules and every read of every tree.", "anchors": ["txn.go: Insert, Delete, Get, Commit", "tree.go: Txn, Clone, NewRadixTree", "iterator.go, path_iter.go"]}
{"id": "C57", "title": "Channels of different keys are different", "statement": "A channel that GetWatch has returned with a key it found is never returned with a different key, nor by a GetWatch that has not found its key, nor by SeekPrefixWatch.", "quantifier": "all histories of calls on any number of trees and transactions, with any keys, including histories with panics, prefix deletions and transactions used after commit or clone", "why_tests_cant": "A channel shared between two leaves needs a particular sequence of copies, splits and merges; tests look at a few of them.", "anchors": ["tree.go: GetWatch (80-94), iterativeSearchWithWatch", "txn.go: writeNode, writeLeaf, recursiveInsert (leaf reuse)", "node_leaf.go: clone, getMutateCh", "iterator.go: SeekPrefixWatch (101)"]}
{"id": "C58", "title": "SeekLowerBound returns, and yields exactly the keys from the bound on, where runs do not hide keys", "statement": "Take histories of inserts of valid keys and deletes of present keys that have no stored extension, after which the stored keys are prefix-free, go on in at most 12 ways after every prefix, differ in the first byte for some pair, and share no run of more than 10 bytes without a branch. Then SeekLowerBound(k) returns for every k. If stored keys go on after k with bytes above '$' only, and k after no stored key with a byte below '$', Next yields stored pairs in ascending order, among them all whose key is not below k; a pair below k is yielded only if it is hidden: it lies, with another stored key, in one branch behind a run of bytes that is shared by the bound and by all stored keys there. If no stored key below k is hidden, in particular if the stored keys branch at every byte along k, exactly the pairs not below k are yielded.", "quantifier": "all such histories, all bounds k, all value types", "why_tests_cant": "Whether keys below the bound appear depends on the shape of the compressed paths along the bound; tests seek a few bounds in one tree.", "anchors": ["lower_bound_iterator.go: SeekLowerBound (120-356), Next (30-95)", "helpers.go: prefixMismatch (173-198)", "node_4.go, node_16.go: getLowerBoundCh", "txn.go: recursiveInsert, recursiveDelete"]}
{"id": "C59", "title": "SeekLowerBound depends only on the contents", "statement": "Two trees with the same contents yield the same sequence after SeekLowerBound(k).", "quantifier": "all pairs of histories that end with the same contents, all bounds k", "why_tests_cant": "A test compares a tree with a sorted list of its keys, on trees built by inserts; two histories of the same contents are not compared.", "anchors": ["lower_bound_iterator.go: SeekLowerBound (120-356)", "txn.go: recursiveDelete (a node that loses its own leaf is not merged with its only child)"]}
{"id": "C60", "title": "A tree never reports a value that is not there, even after Deletes of absent keys", "statement": "After any sequence of Inserts of non-empty keys and Deletes of stored or absent keys that does not panic, the results, Get and Len are those of a map from which a Delete of an absent key may take away the keys that start with some byte string, and which otherwise behaves like a map, save for the count of overwrites of keys with stored extensions. So a value that Get, Insert or Delete reports is the one of the reference map, and keys are lost only by Deletes that report an absent key; if every Delete reported a value, Get is that of the reference map, also when the tree has been emptied while Len is not zero. The next Insert of a non-empty key and the next Delete of a key that Get finds do not panic.", "quantifier": "all sequences of Inserts of non-empty keys and of Deletes, each applied to the latest tree, with keys free of '$' and with a byte left over after every prefix of the inserted keys; all value types", "why_tests_cant": "Deletes of absent keys damage the tree in ways that depend on its shape, and later calls run on the damaged tree; a test sees a few such sequences.", "anchors": ["txn.go: recursiveDelete (289-353), recursiveInsert (97-262), Delete (264-287)", "tree.go: iterativeSearch, Get, Len", "helpers.go: removeChild*"]}
{"id": "C61", "title": "Keys with the terminator byte: a map on every set of keys that stays prefix-free when '$' is appended", "statement": "Let D be a set of byte strings such that for different k, k' in D, k followed by '$' is never a prefix of k' followed by '$' (the keys without '$' are such a set, and so are all byte strings of one length). Then any sequence of Inserts of keys of D never panics and Get agrees with the finite map on every byte string. Transactions of Inserts of keys of D and Deletes of stored keys never panic, report the previous values, leave the contents of the map, and Len exceeds the number of keys by at most the number of overwrites of keys with stored extensions. Prefix iteration and the path iterator yield exactly the pairs that they should, in order if no stored key goes on with a byte below '$' after another stored key; Minimum and Maximum return stored pairs.", "quantifier": "all such sets D; all sequences of Inserts and Deletes of stored keys over D, in any division into transactions, with a byte left over after every prefix at each Delete; all value types", "why_tests_cant": "The keys without '$' are the only ones the code is obviously meant for; which other keys are safe is a statement about infinitely many key sets, and a test of some keys with '$' says nothing about the others (some three-key sets lose keys or panic, C01_panic_refuted, C01_lost_refuted).", "anchors": ["tree.go: Insert, Delete, Get, iterativeSearch", "txn.go: recursiveInsert (97-262), recursiveDelete (289-353)", "helpers.go: getTreeKey, getKey (345-354)", "iterator.go: Next, SeekPrefix*", "path_iter.go: Next"]}
{"id": "C62", "title": "An iterator can be sought again", "statement": "After any use of an iterator a further seek on it works as on a new iterator of the tree: SeekPrefix, SeekLowerBound and SeekReverseLowerBound depend only on the tree and the argument.", "quantifier": "all histories of updates, all sequences of seeks and Next/Previous calls on one iterator (also iterators obtained from nodes that seeks returned), all arguments", "why_tests_cant": "Tests seek a fresh iterator once. The defect needs a second seek on a moved iterator, and whether keys are lost depends on how the bytes of the prefix fit the subtree reached by the first seek; freedom from panics and soundness are claims about all sequences of calls.", "anchors": ["iterator.go:106-157 SeekPrefix", "lower_bound_iterator.go:120-358 SeekLowerBound", "reverse_iterator.go:38-185 SeekReverseLowerBound", "node_4.go:66-72 Iterator"]}
{"id": "C63", "title": "Memory held by a tree is linear in the number of stored keys", "statement": "A tree with n stored keys keeps fewer than 2n nodes and at most n leaves reachable, and no leaf of a key that is not stored.", "quantifier": "all histories of updates, all trees they build, all pointer paths from the root", "why_tests_cant": "A test can count the nodes of one tree; the bound is about all trees, and whether a dead slot still pins a deleted value is invisible to every API call.", "anchors": ["txn.go:97-262 recursiveInsert", "txn.go:289-353 recursiveDelete", "helpers.go:372-463 removeChild4, removeChild16", "txn.go:519-568 makeLeaf, allocNode"]}
{"id": "C64", "title": "What Delete of an absent key removes is determined by where it leaves the stored keys", "statement": "Delete of a key that is not stored, whose longest beginning q found among the stored keys (terminators included) is had by at least two of them, returns (zero, false) and keeps Len; it removes exactly the keys starting with q if two of them go on differently after q, and nothing otherwise.", "quantifier": "all tame histories without a deleted shadowed key at q, all absent keys free of '$' that share no ten-byte beginning with a stored key", "why_tests_cant": "A test sees the loss for one tree and one argument; which arguments lose which keys, and that all others lose none, is a statement over all trees and arguments.", "anchors": ["txn.go:289-353 recursiveDelete", "txn.go:264-287 Delete", "helpers.go:11-20 checkPrefix"]}
{"id": "C65", "title": "When SeekReverseLowerBound returns and when it panics", "statement": "After insertions only, with stored keys that go on in at most 12 ways after every prefix and share no run of more than 10 bytes, SeekReverseLowerBound(k) returns for every k, provided the slice holding the searched path has min(10, len k) spare bytes; if no key and no bound goes on with a byte below '$' after another one, Previous then yields exactly the stored pairs with key <= k in descending order.  If all (at least two) stored keys start with the same 11 bytes it panics for every k.  Without the spare bytes, or after a Delete that folds a Node4 into a leaf node, it panics on trees that meet all other conditions.", "quantifier": "all insert histories below 2^64 operations, all bounds, all spare capacities; panic: all tame histories without a deleted shadowed key", "why_tests_cant": "Whether the slice expressions stay in range depends on the partial length of every node on the path, and on the capacity the Go runtime happens to give the searched path; a test meets one allocation size and one tree.", "anchors": ["reverse_iterator.go:38-129 SeekReverseLowerBound", "node_4.go: removeChild", "txn.go: recursiveInsert", "helpers.go: getTreeKey"]}
{"id": "C66", "title": "Iteration after DeletePrefix", "statement": "After insertions only, with stored keys that go on in at most 12 ways after every prefix, full iteration of the result of DeletePrefix(p) ends and yields every stored key that does not start with p, once, with its value, in ascending order if no stored key goes on with a byte below '$' after another stored key; of the keys that start with p it yields at most those that are proper prefixes of other stored keys.  If no key that starts with p is a proper prefix of another stored key, it yields exactly the reference map without those keys; if also the stored keys that start with p are none or at least two, then Get, Len and the result agree with the reference map too.  If exactly one stored key starts with p, iteration and Get can disagree.", "quantifier": "all insert histories below 2^64 operations, all prefixes, all values; except the deletion of the only stored key", "why_tests_cant": "DeletePrefix compacts the children of a node but not its key bytes, so Get and iteration see different trees; which keys are affected depends on the shape, and a test that only iterates or only calls Get sees nothing wrong.", "anchors": ["txn.go:417-509 DeletePrefix, deletePrefix", "iterator.go: Next", "tree.go: DeletePrefix"]}
{"id": "C67", "title": "DFS visits every node once", "statement": "DFS calls its callback on every node of the tree, on none twice; so the leaves of the visited nodes hold every stored pair exactly once and nothing else.", "quantifier": "all reachable trees", "why_tests_cant": "The order and completeness depend on how each kind of node lays out its children; no test calls DFS.", "anchors": ["tree.go: DFS (351-353), DFSNode (404-415)", "node_256.go: getChild (92-97)", "node_48.go: getChild (95-97)"]}
{"id": "C68", "title": "Walk, DFS and LongestPrefix see the contents of every tree", "statement": "In a history that removes nothing, whatever trees and transactions branch from one another and whatever goroutines run side by side, Walk on a non-empty tree calls its callback on stored keys of that tree only, on none twice, on every stored key that is not a proper prefix of another one, and stops when told to; DFS shows every stored pair once if the stored keys go on in at most 37 ways after every prefix; LongestPrefix returns the longest stored key that is a prefix of the query (on the queries of C18_partial).", "quantifier": "all covered histories without Delete and DeletePrefix, any number of trees, transactions and goroutines, all interleavings", "why_tests_cant": "Walk and LongestPrefix scan all child slots, so a stale pointer left by an update of another tree that shares nodes would show; tests look at one tree.", "anchors": ["tree.go: Walk (347-349), recursiveWalk (383-399), LongestPrefix (85-136), DFS (351-353, 404-415)", "txn.go: Txn (41-55), Commit (382-388), Clone (57-70)"]}
{"id": "C69", "title": "What a tree reads depends only on how it was made", "statement": "Two trees that were made by the same transactions and clones, starting from an empty tree, answer every read alike, in whatever executions they were made and whatever other goroutines do with the trees on the way, with other trees, or with transactions that never commit. In particular a tree answers as the reference map of the transactions on the path to it if these are covered; what the others do (DeletePrefix, malformed keys, panics) leaves no trace. A goroutine whose transaction and path are covered does not panic. Clones on the way, and transactions that only look (Get, TrackMutate, Commit), leave no trace either: transactions make the same of what they hand out as of the tree they started from. A tree made by a line of transactions of updates answers every read as the tree of the same history run sequentially in a memory of its own.", "quantifier": "all concurrent executions of any goroutines, all trees handed out in them, all reads and iterators", "why_tests_cant": "A tree shares nodes with the trees it was made from and with their other descendants; a test would have to compare all reads after all interleavings of arbitrary other transactions.", "anchors": ["txn.go: Txn (41-55), Clone (57-70), Commit (382-388)", "tree.go: NewRadixTree (35-44), Clone (46-53)"]}
