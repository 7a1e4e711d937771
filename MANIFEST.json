{
 "claims": [
  {
   "property": "C01",
   "status": "partial",
   "theorems": [
    "C01_panic_refuted",
    "C01_lost_refuted",
    "C01_partial"
   ],
   "note": "False of the code in full generality: refuted on a concrete history. C01_partial: it holds for keys without '$' (all histories of Inserts, Get of every byte string). C61 widens the set of keys to all sets that stay prefix-free when '$' is appended."
  },
  {
   "property": "C02",
   "status": "partial",
   "theorems": [
    "C02_partial",
    "C04_refuted"
   ],
   "note": "False in full (Delete of an absent key wipes other keys). C02_partial: holds on all histories of Inserts of '$'-free keys and Deletes of stored keys that do not pass a surviving node with 256 children (deletable, Spec.v; needed, see C36_refuted), and that do not delete the last key after an overwrite of a shadowed key. Stored keys containing '$': C61."
  },
  {
   "property": "C03",
   "status": "partial",
   "theorems": [
    "C03_partial"
   ],
   "note": "C03_partial: proved after all tame histories (see Spec.v); missing: deletions that pass a node with 256 children which stays (false, C36_refuted), deletion of the last key after a miscounted overwrite (C60 has this case). Stored keys containing '$' are covered by C61_delete."
  },
  {
   "property": "C04",
   "status": "partial",
   "theorems": [
    "C04_refuted",
    "C04_partial",
    "C04_panic_refuted"
   ],
   "note": "False of the code in full: an absent key's Delete can remove stored keys (C04_refuted) or panic (C04_panic_refuted). After tame histories, when it returns it returns (zero, false), keeps Len, and removes exactly the keys under one byte string, which is a prefix of the argument unless a stored key shares its first ten bytes (C04_partial)."
  },
  {
   "property": "C05",
   "status": "partial",
   "theorems": [
    "C05_refuted",
    "C05_partial"
   ],
   "note": "False of the code in full generality: refuted on a concrete history. C05_partial: on tame histories only the overwrite of a shadowed key can misreport."
  },
  {
   "property": "C06",
   "status": "partial",
   "theorems": [
    "C06_refuted",
    "C06_partial",
    "C06_empty"
   ],
   "note": "False of the code in full generality: refuted on a concrete history. C06_partial: on tame histories Len exceeds the number of keys by at most the number of overwrites of shadowed keys."
  },
  {
   "property": "C07",
   "status": "partial",
   "theorems": [
    "C07_refuted",
    "C41"
   ],
   "note": "False of the code in full: a transaction cloned from a transaction shares its writable nodes, so using the original changes a tree committed from the clone. True when no transaction is updated after Commit, CommitOnly or Clone (C41)."
  },
  {
   "property": "C08",
   "status": "partial",
   "theorems": [
    "C08_refuted",
    "C42"
   ],
   "note": "False of the code in full: a transaction used after its Commit writes into nodes of transactions started from the committed tree. True when no transaction is updated after Commit, CommitOnly or Clone (C42)."
  },
  {
   "property": "C09",
   "status": "partial",
   "theorems": [
    "C09_batches",
    "C47",
    "C48"
   ],
   "note": "C09_batches: proved for histories of transactions whose updates are tame and that do not insert after emptying the tree in the same transaction. C47 and C48: the same for interleaved transactions on any number of trees (covered histories): reads inside a transaction and the committed tree follow the reference map."
  },
  {
   "property": "C10",
   "status": "partial",
   "theorems": [
    "C10_refuted",
    "C41"
   ],
   "note": "False of the code in full generality: refuted on a concrete history. True as long as no transaction is updated after its commit or clone (C41)."
  },
  {
   "property": "C11",
   "status": "partial",
   "theorems": [
    "C11_refuted",
    "C42"
   ],
   "note": "False of the code in full generality: refuted on a concrete history. True as long as no transaction is updated after its commit or clone (C42), i.e. for the reads of the clone and the original."
  },
  {
   "property": "C12",
   "status": "partial",
   "theorems": [
    "C16_refuted",
    "C12_partial"
   ],
   "note": "False for the empty tree (C16_refuted). C12_partial: proved for non-empty trees of tame histories. Tame histories: inserts of keys without '$' and deletes of stored keys with a free byte value per branch (Spec.tame)."
  },
  {
   "property": "C13",
   "status": "partial",
   "theorems": [
    "C13_refuted",
    "C13_partial"
   ],
   "note": "False when a stored key goes on with a byte below '$' after another stored key (C13_refuted). C13_partial: proved for tame histories where that does not happen (orderly; bytes below '$' elsewhere in keys are fine). Tame histories: inserts of keys without '$' and deletes of stored keys that leave a byte free after every prefix (Spec.tame)."
  },
  {
   "property": "C14",
   "status": "partial",
   "theorems": [
    "C14_refuted",
    "C14_partial"
   ],
   "note": "False for a prefix ending in '$' (C14_refuted). C14_partial: proved on tame histories for every other prefix, except full iteration of the empty tree. Tame histories: inserts of keys without '$' and deletes of stored keys with a free byte value per branch (Spec.tame)."
  },
  {
   "property": "C15",
   "status": "partial",
   "theorems": [
    "C15_refuted",
    "C15_partial"
   ],
   "note": "False of arbitrary memories whose leaf keys lack the terminator. C15_partial: every memory whose leaf keys are empty or end in the terminator, every prefix not ending in '$'."
  },
  {
   "property": "C16",
   "status": "partial",
   "theorems": [
    "C16_refuted",
    "C16_longest_refuted",
    "C14_partial"
   ],
   "note": "False for the empty prefix and LongestPrefix. C14_partial covers iteration of an empty tree with a non-empty prefix, which yields nothing."
  },
  {
   "property": "C17",
   "status": "partial",
   "theorems": [
    "C17_min_refuted",
    "C17_max_refuted",
    "C17_partial"
   ],
   "note": "False when a stored key goes on with a byte below '$' after another one. C17_partial: on non-empty tame histories both return stored pairs, and the extreme ones if no stored key goes on with a byte below '$' after another stored key. Tame histories: see C13."
  },
  {
   "property": "C18",
   "status": "partial",
   "theorems": [
    "C18_partial",
    "C18_refuted",
    "C18_longer_refuted",
    "C18_deleted_refuted",
    "C18_wide_refuted"
   ],
   "note": "False in full. C18_partial: insertions of valid keys, at most 12 ways after every prefix, no stored prefix of the query goes on with a byte below '$' after another stored key, and some stored key is a prefix of the query or no stored key is a prefix of all. Refuted: single stored key returned for a foreign query, bytes below '$', deleted key returned after Deletes. C18_wide_refuted: with 17 branches a stored key itself is not found."
  },
  {
   "property": "C19",
   "status": "partial",
   "theorems": [
    "C19_refuted",
    "C19_partial"
   ],
   "note": "The order is wrong when a stored key goes on with a byte below '$' after another one (C19_refuted). C19_partial: exactly the stored prefixes, each once, on tame histories; shortest first if no stored key goes on with a byte below '$' after another stored key. Tame histories: see C13."
  },
  {
   "property": "C20",
   "status": "partial",
   "theorems": [
    "C20_partial",
    "C20_free_partial",
    "C20_refuted",
    "C20_twice_refuted",
    "C20_deleted_refuted"
   ],
   "note": "False in full: keys in inner nodes are missed and values are zero (C20_refuted), keys are visited twice or after deletion (C20_twice_refuted, C20_deleted_refuted). C20_partial: after insertions of valid keys every key that is no proper prefix of another is visited exactly once, no absent key is, and the walk stops when told; C20_free_partial: exactly the stored keys on prefix-free sets."
  },
  {
   "property": "C21",
   "status": "partial",
   "theorems": [
    "C21_refuted",
    "C21_partial",
    "C21_others_partial",
    "C21_absent_partial",
    "C21_behind_refuted",
    "C21_absent_refuted",
    "C21_empty_refuted",
    "C21_len_refuted",
    "C21_wrap_refuted"
   ],
   "note": "False of the code in full (six refutations). After insertions of valid keys into a non-empty tree: the result and the change of Len are right, Get finds only stored keys afterwards, of those with the prefix at most the ones that are proper prefixes of others (C21_partial); with at most 12 branches per prefix no other key is lost when no key or at least two keys start with the prefix (C21_others_partial, C21_absent_partial). C66 has what iteration yields afterwards and the domain on which DeletePrefix is exact."
  },
  {
   "property": "C22",
   "status": "partial",
   "theorems": [
    "C22_refuted",
    "C22_partial",
    "C22_empty_partial",
    "C22_wide_refuted",
    "C22_node48_refuted"
   ],
   "note": "False in full: the seek can panic (C22_refuted) and can yield keys below the bound (example ex_C22 in PropSeek.v). C22_partial: on tame histories with a non-empty set of stored keys that are prefix-free and go on in at most 12 ways after every prefix, and for a bound after which stored keys go on with bytes above '$' only and which goes on with no byte below '$' after a stored key, whenever the seek returns, Next yields stored pairs in ascending order including every pair not below the bound; missing: that no smaller pairs are yielded and that the seek returns (both false in general; C58 has the domain on which they hold). C22_empty_partial: with the empty bound all stored pairs are yielded, on all tame histories. With nodes of kind 48 the seek panics (C22_node48_refuted), with nodes of kind 256 keys above the bound are missed (C22_wide_refuted), so the bound of 12 branches is needed."
  },
  {
   "property": "C23",
   "status": "partial",
   "theorems": [
    "C23_refuted",
    "C23_partial",
    "C23_prefix_partial",
    "C50",
    "C23_node48_refuted",
    "C23_wide_refuted"
   ],
   "note": "False in full: the order is wrong when a stored key is a prefix of another one (C23_refuted), the empty key is yielded twice, SeekPrefix with a prefix of no stored key yields foreign keys, and SeekReverseLowerBound can panic. C23_partial and C23_prefix_partial: on tame histories without the empty key, without seek or after SeekPrefix with a prefix of a stored key, exactly the matching pairs are yielded, each once, in descending order for prefix-free sets of keys. C50: SeekReverseLowerBound when it returns. Missing: the cases that are false, and when exactly SeekReverseLowerBound returns. With nodes of kind 48 the order is wrong, with nodes of kind 256 keys are missed (C23_node48_refuted, C23_wide_refuted)."
  },
  {
   "property": "C24",
   "status": "partial",
   "theorems": [
    "C01_panic_refuted",
    "C24_refuted",
    "C04_panic_refuted",
    "C47"
   ],
   "note": "False of the code in full generality: refuted on concrete histories. No call panics in covered histories (C47)."
  },
  {
   "property": "C25",
   "status": "partial",
   "theorems": [
    "C25_partial",
    "C25_descent",
    "C25_delete",
    "C25_refuted"
   ],
   "note": "On every memory: Get and LongestPrefix (C25_partial) and Delete (C25_delete) end, and the descents of Get, Delete, Insert and SeekPrefix visit at most len(key)+2 nodes (C25_descent). False for Insert and SeekPrefix on cyclic memories, through the search for the smallest leaf (C25_refuted); no history leads to a cyclic memory, so on reachable memories everything ends (C52)."
  },
  {
   "property": "C26",
   "status": "partial",
   "theorems": [
    "C26_partial",
    "C26_refuted"
   ],
   "note": "False in full: a Delete of an absent key in the same transaction drops the watched leaf without recording its channel (C26_refuted), and an abandoned tracking transaction takes the channel away (C28_refuted). C26_partial proves it for all covered histories with any other trees, transactions and calls in between, as long as no other transaction updates while it tracks."
  },
  {
   "property": "C27",
   "status": "partial",
   "theorems": [
    "C27_partial",
    "C27_refuted"
   ],
   "note": "False in full: behind the stored ten bytes of a long shared prefix the search goes on along a node whose path disagrees with the key, and inserting the key does not touch the returned node (C27_refuted). C27_partial proves it for all covered histories when every stored key that agrees with k on the first ten bytes is a prefix of k (always so for keys shorter than ten bytes), as long as no other transaction updates while it tracks."
  },
  {
   "property": "C28",
   "status": "partial",
   "theorems": [
    "C28_refuted",
    "C26_partial",
    "C27_partial",
    "C37_partial"
   ],
   "note": "False when the abandoned transaction tracks mutations (C28_refuted). True when it does not: the histories of C26_partial, C27_partial and C37_partial contain any other transactions (mid, body), committed or abandoned, as long as they do not update while tracking; the watch still fires."
  },
  {
   "property": "C29",
   "status": "proved",
   "theorems": [
    "C29"
   ],
   "note": "every history"
  },
  {
   "property": "C30",
   "status": "partial",
   "theorems": [
    "C30_refuted",
    "C30_grow_refuted",
    "C30_shrink_refuted",
    "C30_partial"
   ],
   "note": "False in full: inserting a new prefix of k (C30_refuted), inserting extensions of k (C30_grow_refuted) or deleting extensions of k (C30_shrink_refuted) can fire the watch. C30_partial: in covered histories with any number of trees and transactions these are the only causes: a channel handed out with k is closed only by Commit/Notify of a tracking transaction that changed k, inserted a new prefix or extension of k, or deleted an extension of k while tracking. Missing: DeletePrefix, deletes of absent keys, keys with '$' (outside covered histories)."
  },
  {
   "property": "C31",
   "status": "proved",
   "theorems": [
    "C31"
   ],
   "note": "every history"
  },
  {
   "property": "C32",
   "status": "partial",
   "theorems": [
    "C32_refuted",
    "C32_partial"
   ],
   "note": "False as stated: the roots of two transactions of one tree share a channel (txn.go:42-43), and the check and the close in slowNotify are two steps, so two concurrent Commits may close it twice (C32_refuted exhibits history and schedule). C32_partial: for any number of concurrent Notify/Commit calls whose tracked channels are pairwise disjoint, no schedule panics and all channels end closed."
  },
  {
   "property": "C33",
   "status": "proved",
   "theorems": [
    "C33",
    "C33_returns"
   ],
   "note": "For any number of goroutines and any schedule of the atomic Load / make / CompareAndSwap / Load steps. The steps of one goroutine alone agree with the sequential model (getMutateCh_alone)."
  },
  {
   "property": "C34",
   "status": "partial",
   "theorems": [
    "C34_write_refuted",
    "C34_alias_refuted",
    "C34_partial",
    "C34_one_byte"
   ],
   "note": "False as stated: getTreeKey appends to the caller's slice, so with spare capacity one byte behind the key is overwritten and the leaf keeps the caller's array. C34_partial: without spare capacity nothing is written and later writes do not matter. C34_one_byte: in general at most that one byte changes."
  },
  {
   "property": "C35",
   "status": "proved",
   "theorems": [
    "C35"
   ],
   "note": "Get, LongestPrefix, Minimum, Maximum, prefix and path iteration of the clone agree with the tree whenever the read on the tree returns (a clone pads a nil partial prefix, so it may return where the original panics); independence in histories in which no transaction is updated after Commit, CommitOnly or Clone."
  },
  {
   "property": "C36",
   "status": "partial",
   "theorems": [
    "C36_refuted",
    "C01_partial",
    "C03_partial"
   ],
   "note": "Insert and Get: C01_partial has no bound on the number of children. Delete is false: C36_refuted (the child counter wraps to 0). C03_partial covers the Deletes at a node with 256 children that remove the branch itself (deletable in Spec.v; example ex_C36 in PropMap.v)."
  },
  {
   "property": "C37",
   "status": "partial",
   "theorems": [
    "C37_partial",
    "C37_refuted"
   ],
   "note": "False in full: a Delete of an absent key in the same transaction drops the watched node without recording its channel (C37_refuted). C37_partial proves it for all covered histories with any other trees, transactions and calls in between, as long as no other transaction updates while it tracks."
  },
  {
   "property": "C38",
   "status": "proved",
   "theorems": [
    "C38"
   ],
   "note": "Any memory, any root; also for Txn.Get (same function)."
  },
  {
   "property": "C39",
   "status": "partial",
   "theorems": [
    "C39_get_partial",
    "C39_iter_partial",
    "C39_path_partial",
    "C39_ends_partial",
    "C39_order_refuted",
    "C48"
   ],
   "note": "Proved on tame histories for Get, for prefix iteration (prefix not ending in '$'; not full iteration of the empty tree) and path iteration as sets, and through C48 for trees anywhere in covered histories with several trees. If no stored key goes on with a byte below '$' after another stored key, iterations agree in order too and Minimum and Maximum agree; without this they depend on the history (C39_order_refuted: insertions only). Missing: DeletePrefix."
  },
  {
   "property": "C40",
   "status": "partial",
   "theorems": [
    "C40_refuted",
    "C43"
   ],
   "note": "False of the code in full (the transaction that produced the tree is used after Commit). True when no transaction is updated after Commit, CommitOnly or Clone (C43)."
  },
  {
   "property": "C41",
   "status": "proved",
   "theorems": [
    "C41",
    "C41_total"
   ],
   "note": "All reads modelled. C41 compares reads that return; Minimum, Maximum, DFS and Walk always return (C41_total), Get and LongestPrefix too; iteration is compared as a list of yielded pairs."
  },
  {
   "property": "C42",
   "status": "proved",
   "theorems": [
    "C42"
   ],
   "note": "As C41, for the root of the transaction."
  },
  {
   "property": "C43",
   "status": "proved",
   "theorems": [
    "C43"
   ],
   "note": "Forward, path, lower bound and reverse iterators of trees."
  },
  {
   "property": "C44",
   "status": "proved",
   "theorems": [
    "C44"
   ],
   "note": "every history"
  },
  {
   "property": "C45",
   "status": "proved",
   "theorems": [
    "C45"
   ],
   "note": "every history"
  },
  {
   "property": "C46",
   "status": "proved",
   "theorems": [
    "C46"
   ],
   "note": "every history"
  },
  {
   "property": "C47",
   "status": "proved",
   "theorems": [
    "C47"
   ],
   "note": "for covered histories (SpecWorld.covered) of disciplined clients; counterexamples outside are the _refuted theorems of C01, C04, C21, C24"
  },
  {
   "property": "C48",
   "status": "proved",
   "theorems": [
    "C48"
   ],
   "note": "as C47; reads_as (SpecWorld.v) lists the reads: Get, prefix and path iteration, Minimum, Maximum, DFS, and the lower bound and reverse iterators on their domains (C22, C23, C50). Walk and LongestPrefix are C68."
  },
  {
   "property": "C49",
   "status": "proved",
   "theorems": [
    "C49",
    "C49_lower",
    "C49_reverse"
   ],
   "note": "as C47; prefixes not ending in '$'; lower bound and reverse iterators on the domains of C22 and C50, for seeks that return"
  },
  {
   "property": "C50",
   "status": "proved",
   "theorems": [
    "C50"
   ],
   "note": "The domain on which SeekReverseLowerBound is right; it can still panic there (C23), so the claim is about the calls that return."
  },
  {
   "property": "C51",
   "status": "proved",
   "theorems": [
    "C51",
    "C51_delete_refuted"
   ],
   "note": "Insertions only, any keys. C51_delete_refuted: a Delete leaves a second pointer to the last child."
  },
  {
   "property": "C52",
   "status": "proved",
   "theorems": [
    "C52_acyclic",
    "C52_calls",
    "C52_reads",
    "C52_iterators"
   ],
   "note": "Every routine keeps the existence of a rank that falls along child pointers; all fuelled recursions of the model end within their fuel, and iterations end after finitely many calls of Next."
  },
  {
   "property": "C53",
   "status": "proved",
   "theorems": [
    "C53_insert",
    "C53_delete",
    "C53_txn",
    "C53_prefix_refuted"
   ],
   "note": "Bounds for Insert and Delete on every memory, as stated. DeletePrefix (not part of the statement) has no such bound: it copies every inner node even if no key has the prefix (C53_prefix_refuted)."
  },
  {
   "property": "C54",
   "status": "proved",
   "theorems": [
    "C54_model",
    "C54_race",
    "C54_published",
    "C54_snapshot",
    "C54_reader",
    "C54_get"
   ],
   "note": "Machine with one memory access per step (Machine.v); C54_model ties the programs to the model functions. Sequentially consistent memory; a Txn is used by one goroutine and not after Commit (otherwise false, see C10)."
  },
  {
   "property": "C55",
   "status": "proved",
   "theorems": [
    "C55_recorded",
    "C55_serial",
    "C55_access",
    "C55_panic",
    "C55_ends",
    "C55_reads"
   ],
   "note": "Proved by a simulation up to renaming of addresses. Sequentially consistent memory, one access per step; a Txn is used by one goroutine and not after Commit. Closing a channel is one step here; the two-step check-and-close of slowNotify is C32."
  },
  {
   "property": "C56",
   "status": "proved",
   "theorems": [
    "C56_maps",
    "C56_ends"
   ],
   "note": "Covered jobs: valid keys, Delete of present keys in maps that leave a free byte after every prefix, no insertion after the transaction has emptied the tree, no DeletePrefix (its wrong results are C21 and C22). An overwrite of a key that is a proper prefix of another key may return (zero, false) and count twice (C06); jobs_ok asks the client to be covered for either answer."
  },
  {
   "property": "C57",
   "status": "proved",
   "theorems": [
    "C57_kinds"
   ],
   "note": "All histories, no hypotheses: channels of leaves and of nodes are disjoint, and a leaf channel belongs to one key for ever."
  },
  {
   "property": "C58",
   "status": "proved",
   "theorems": [
    "C58_extra",
    "C58_returns",
    "C58_exact",
    "C58_branching"
   ],
   "note": "Exact domain of the lower bound iterator, beyond C22_partial: no panic, and which keys below the bound may appear. The insert and delete proofs track the inner nodes with one child and no leaf; they come only from deletes of keys with stored extensions."
  },
  {
   "property": "C59",
   "status": "partial",
   "theorems": [
    "C59_refuted",
    "C59_partial"
   ],
   "note": "False: insert x, xab, xabcd, xabcde, z and delete x, xab, xabcd; SeekLowerBound(xabz) then yields xabcde, which it does not on the tree of the inserts xabcde, z. C59_partial: true on the domain of C58_exact."
  },
  {
   "property": "C60",
   "status": "proved",
   "theorems": [
    "C60",
    "C60_sound",
    "C60_complete",
    "C60_next",
    "C60_empty_key_refuted"
   ],
   "note": "Proved for all such histories. C60_empty_key_refuted: without 'non-empty' the next Insert may panic. That an absent Delete may itself panic is C04_panic_refuted."
  },
  {
   "property": "C61",
   "status": "proved",
   "theorems": [
    "C61",
    "C61_inserts",
    "C61_fixed",
    "C61_delete",
    "C61_reads"
   ],
   "note": "For every key set D that stays prefix-free when the terminator is appended. The condition is sufficient, not necessary: two keys that violate it still work on their own, three may panic or lose a key (C01_panic_refuted, C01_lost_refuted)."
  },
  {
   "property": "C62",
   "status": "partial",
   "theorems": [
    "C62_partial",
    "C62_refuted",
    "C62_rewound",
    "C62_lower",
    "C62_lower_refuted",
    "C62_reverse",
    "C62_unsought"
   ],
   "note": "False in full: seeking the same prefix twice loses a key (C62_refuted), a lower bound seek beyond the last key leaves an iterator that finds nothing (C62_lower_refuted), and SeekReverseLowerBound works once (C62_reverse, on every heap). C62_partial: after any use a further SeekPrefix on a covered tree does not panic and yields only stored pairs with the prefix, none twice; missing: all of them. C62_rewound: exact while all earlier seeks had the empty prefix. C62_lower: a used lower bound iterator works as new or finds nothing. C62_unsought: Next without a seek yields nothing."
  },
  {
   "property": "C63",
   "status": "partial",
   "theorems": [
    "C63_partial",
    "C63_live_partial",
    "C63_refuted",
    "C63_leak_refuted"
   ],
   "note": "Proved for all histories of insertions of valid keys (all slots of all nodes counted), and on tame histories for the live slots, with one more node per key deleted while an extension was stored. False after Deletes: C63_refuted (one key, seven nodes) and C63_leak_refuted (a left-over slot still holds the leaf of a deleted key)."
  },
  {
   "property": "C64",
   "status": "proved",
   "theorems": [
    "C64",
    "C64_order_refuted"
   ],
   "note": "Exact effect of a Delete of an absent key that ends at an inner node (a sharper form of C04_partial: existence of the result, and exactly which keys go). Where only one stored key has the longest beginning, the effect is not a function of the contents: C64_order_refuted gives two insertion orders of the same keys after which the same Delete leaves different maps."
  },
  {
   "property": "C65",
   "status": "proved",
   "theorems": [
    "C65_returns",
    "C65_exact",
    "C65_panics",
    "C65_capacity_refuted",
    "C65_delete_refuted"
   ],
   "note": "exact conditions proved for insert-only histories; the two refuted variants show that the spare capacity and the absence of deletes cannot be dropped"
  },
  {
   "property": "C66",
   "status": "proved",
   "theorems": [
    "C66_iter",
    "C66_iter_exact",
    "C66_exact",
    "C66_agree_refuted"
   ],
   "note": "The hypotheses exclude the deletion of the only stored key (the result is the empty tree). C66_agree_refuted shows that 'none or at least two' is needed in C66_exact. Keys that start with p and are proper prefixes of other stored keys may stay (C21_refuted)."
  },
  {
   "property": "C67",
   "status": "partial",
   "theorems": [
    "C67_partial",
    "C67_inserts_partial",
    "C67_stored_partial",
    "C67_refuted",
    "C67_gap_refuted",
    "C67_empty_refuted"
   ],
   "note": "False in full. C67_partial: tame non-empty histories, at most 12 ways after every prefix: DFS visits no node twice and shows exactly what the iterator yields. C67_inserts_partial: histories of insertions, at most 37 ways after every prefix (so Node48 occurs): no node twice, every stored pair once. Missing there: 38 to 48 ways, where the invariant does not exclude a Node256. C67_stored_partial: any width: no panic, stored pairs only, none twice. Refuted: with a Node256 DFS shows none of 49 keys; a Node48 with a gap (after a Delete) loses a key; the empty tree shows a pair with the empty key."
  },
  {
   "property": "C68",
   "status": "proved",
   "theorems": [
    "C68",
    "C68_conc"
   ],
   "note": "scans_as (SpecScan.v) lists what is claimed; DFS on maps that go on in at most 37 ways after every prefix, LongestPrefix on maps that go on in at most 12 ways and on the queries of C18_partial. With Delete all three go wrong: C20_twice_refuted, C20_deleted_refuted, C67_gap_refuted, C18_deleted_refuted."
  },
  {
   "property": "C69",
   "status": "proved",
   "theorems": [
    "C69",
    "C69_made",
    "C69_alone",
    "C69_maps",
    "C69_ends",
    "C69_clones",
    "C69_looks",
    "C69_build",
    "C69_txns"
   ],
   "note": "Stated on the recorded concurrent executions of C55 (any goroutines, any interleaving); made js i r says how tree i was made, C69_made that every tree handed out was made in exactly one way. C69_alone: the jobs on the path alone hand out a tree that reads alike. C69_maps and C69_ends need coverage (SpecConcMap.jobs_ok) only for the jobs on the path, where C56 and C68_conc need it for all jobs. C69_clones: the makings may differ in the clones on the way (any number, anywhere), but both trees or neither must come out of Clone itself; a clone and its original are compared on covered paths only (C69_maps). C69_looks: the makings may also differ in transactions that only look (Get, TrackMutate, Commit), when the last step of both is the same transaction. C69_build and C69_txns: a tree made by updates, one or several per transaction, each transaction on the tree of the one before, reads as the tree of the sequential history (build, build_txns) of these updates, so what is proved of the reads of those holds of it in any concurrent execution."
  }
 ]
}
