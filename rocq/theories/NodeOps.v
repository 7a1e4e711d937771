(** Node-level routines on a single node record: no allocation, no channels. *)
From Verif Require Export Base.

(** Field updates. *)
Definition set_id (n : inode) x := mkN (n_kind n) x (n_plen n) (n_nch n) (n_partial n) (n_keys n) (n_children n) (n_ch n) (n_leaf n).
Definition set_plen (n : inode) x := mkN (n_kind n) (n_id n) x (n_nch n) (n_partial n) (n_keys n) (n_children n) (n_ch n) (n_leaf n).
Definition set_nch (n : inode) x := mkN (n_kind n) (n_id n) (n_plen n) x (n_partial n) (n_keys n) (n_children n) (n_ch n) (n_leaf n).
Definition set_partial (n : inode) x := mkN (n_kind n) (n_id n) (n_plen n) (n_nch n) x (n_keys n) (n_children n) (n_ch n) (n_leaf n).
Definition set_keys (n : inode) x := mkN (n_kind n) (n_id n) (n_plen n) (n_nch n) (n_partial n) x (n_children n) (n_ch n) (n_leaf n).
Definition set_children (n : inode) x := mkN (n_kind n) (n_id n) (n_plen n) (n_nch n) (n_partial n) (n_keys n) x (n_ch n) (n_leaf n).
Definition set_ch (n : inode) x := mkN (n_kind n) (n_id n) (n_plen n) (n_nch n) (n_partial n) (n_keys n) (n_children n) x (n_leaf n).
Definition set_leaf (n : inode) x := mkN (n_kind n) (n_id n) (n_plen n) (n_nch n) (n_partial n) (n_keys n) (n_children n) (n_ch n) x.

(** A zero-initialised node of each type, as built by [&Node4[T]{}] etc. (txn.go:544-553). *)
Definition zero_node (k : kind) : inode :=
  mkN k 0 0 0 [] (replicate (keycap_of k) 0) (replicate (cap_of k) None) None None.

(** isLeaf of inner nodes: node_4.go:59-64, node_16.go:59-64, node_48.go:58-63, node_256.go:64-69 *)
Definition isLeafN (n : inode) : bool :=
  Nat.eqb (n_nch n) 0 && match n_leaf n with Some _ => true | None => false end.

(** getChild: node_4.go:86-88, node_16.go:87-89, node_48.go:95-97 (index out of range panics);
    node_256.go:92-97 (out of range gives nil). *)
Definition getChild (n : inode) (i : nat) : outcome (option addr) :=
  match n_kind n with
  | K256 => Ok (default None (n_children n !! i))
  | _ => match n_children n !! i with Some c => Ok c | None => Panic end
  end.

(** setChild: node_4.go:120-122, node_16.go:121-123, node_48.go:129-131, node_256.go:120-122 *)
Definition setChildN (n : inode) (i : nat) (c : option addr) : outcome inode :=
  if Nat.ltb i (length (n_children n)) then Ok (set_children n (<[i:=c]> (n_children n))) else Panic.

(** getKeyAtIdx: node_4.go:135-137, node_16.go:135-137, node_48.go:144-146; node_256.go:135-137 gives 0. *)
Definition getKeyAtIdx (n : inode) (i : nat) : outcome nat :=
  match n_kind n with
  | K256 => Ok 0
  | _ => match n_keys n !! i with Some c => Ok c | None => Panic end
  end.

(** setKeyAtIdx: node_4.go:139-141, node_16.go:139-141, node_48.go:148-150; node_256.go:139-140 no-op. *)
Definition setKeyAtIdx (n : inode) (i : nat) (k : nat) : outcome inode :=
  match n_kind n with
  | K256 => Ok n
  | _ => if Nat.ltb i (length (n_keys n)) then Ok (set_keys n (<[i:=k]> (n_keys n))) else Panic
  end.

(** helpers.go:11-20 checkPrefix.  [len(key)-depth] may be negative in Go; then the loop does not run,
    as with truncated subtraction. *)
Fixpoint cmp_loop (fuel idx : nat) (maxCmp : nat) (partial : bytes) (key : bytes) (depth : nat) : outcome nat :=
  match fuel with
  | O => Ok idx
  | S fuel' =>
      if Nat.ltb idx maxCmp then
        match partial !! idx, key !! (depth + idx) with
        | Some a, Some b => if Nat.eqb a b then cmp_loop fuel' (idx + 1) maxCmp partial key depth else Ok idx
        | _, _ => Panic
        end
      else Ok idx
  end.
Definition checkPrefix (partial : bytes) (partialLen : nat) (key : bytes) (depth : nat) : outcome nat :=
  let maxCmp := (partialLen `min` maxPrefixLen) `min` (length key - depth) in
  cmp_loop maxCmp 0 maxCmp partial key depth.

(** helpers.go:305-343 findChild on an inner node.  The keys read in the search are below numChildren,
    which never exceeds the length of the array, so the total lookup [!!!] is never out of range. *)
Definition findChild (n : inode) (c : byte) : outcome (option addr * nat) :=
  match n_kind n with
  | K4 | K16 =>
      let idx := sort_Search (n_nch n) (fun i => Nat.ltb c (n_keys n !!! i)) in
      if Nat.leb 1 idx && Nat.eqb (n_keys n !!! (idx - 1)) c then
        let? ch := getChild n (idx - 1) in Ok (ch, idx - 1)
      else Ok (None, 0)
  | K48 =>
      let? i := getKeyAtIdx n c in
      if Nat.eqb i 0 then Ok (None, 0) else
      let? ch := getChild n (i - 1) in Ok (ch, i - 1)
  | K256 =>
      let? ch := getChild n c in
      match ch with Some a => Ok (Some a, c) | None => Ok (None, 0) end
  end.

(** helpers.go:65-76 and 95-106: insertion into the sorted arrays of a Node4/Node16 with free space. *)
Definition insertSorted (n : inode) (c : byte) (child : addr) : outcome inode :=
  let nch := n_nch n in
  let idx := sort_Search nch (fun i => Nat.ltb c (n_keys n !!! i)) in
  let len := nch - idx in
  let n := set_keys n (go_copy (n_keys n) (idx + 1) (slice (n_keys n) idx (idx + len))) in
  let n := set_children n (go_copy (n_children n) (idx + 1) (slice (n_children n) idx (idx + len))) in
  let? n := setKeyAtIdx n idx c in
  let? n := setChildN n idx (Some child) in
  Ok (set_nch n (u8_incr (n_nch n))).

(** helpers.go:158-164 copyHeader(dest, src).  The slice expressions [partial[:length]] panic when the
    slice is shorter (its capacity equals its length in this code base). *)
Definition copyHeader (dest src : inode) : outcome inode :=
  let length' := maxPrefixLen `min` n_plen src in
  if Nat.leb length' (length (n_partial dest)) && Nat.leb length' (length (n_partial src)) then
    let d := set_nch dest (n_nch src) in
    let d := set_plen d (n_plen src) in
    Ok (set_partial d (go_copy (n_partial d) 0 (take length' (n_partial src))))
  else Panic.

(** helpers.go:116-118: populate the index array of a Node48 from a Node16. *)
Fixpoint fill48 (dst src : inode) (is_ : list nat) : outcome inode :=
  match is_ with
  | [] => Ok dst
  | i :: is' =>
      let? k := getKeyAtIdx src i in
      let? dst := setKeyAtIdx dst k (u8 (i + 1)) in
      fill48 dst src is'
  end.

(** helpers.go:127-130: the first free slot of a Node48 ([for n.getChild(pos) != nil { pos++ }]). *)
Fixpoint free_slot (cs : list (option addr)) (pos : nat) : outcome nat :=
  match cs with
  | [] => Panic
  | None :: _ => Ok pos
  | Some _ :: cs' => free_slot cs' (pos + 1)
  end.

(** helpers.go:127-134: insertion into a Node48 with free space. *)
Definition insert48 (n : inode) (c : byte) (child : addr) : outcome inode :=
  let? pos := free_slot (n_children n) 0 in
  let? n := setChildN n pos (Some child) in
  let? n := setKeyAtIdx n c (u8 (pos + 1)) in
  Ok (set_nch n (u8_incr (n_nch n))).

(** helpers.go:141-145: children of a Node256 from a Node48. *)
Fixpoint fill256 (dst src : inode) (is_ : list nat) : outcome inode :=
  match is_ with
  | [] => Ok dst
  | i :: is' =>
      let? k := getKeyAtIdx src i in
      if Nat.eqb k 0 then fill256 dst src is' else
      let? ch := getChild src (k - 1) in
      let? dst := setChildN dst i ch in
      fill256 dst src is'
  end.

(** helpers.go:151-156 addChild256 *)
Definition insert256 (n : inode) (c : byte) (child : addr) : outcome inode :=
  let n := set_nch n (u8_incr (n_nch n)) in
  setChildN n c (Some child).

(** helpers.go:378-387 and 429-438: shift the children left over position pos, in place. *)
Fixpoint shift_loop (cs : list (option addr)) (slow pos : nat) (itrs : list nat) : list (option addr) :=
  match itrs with
  | [] => cs
  | itr :: itrs' =>
      if Nat.eqb itr pos then shift_loop cs slow pos itrs'
      else shift_loop (<[slow := default None (cs !! itr)]> cs) (slow + 1) pos itrs'
  end.

(** helpers.go:388-393 and 439-444: clear the slots from numChildren on (the channels of the cleared
    children are tracked by the caller). *)
Definition clear_from (cs : list (option addr)) (i : nat) : list (option addr) :=
  take i cs ++ replicate (length cs - i) None.

(** helpers.go:373-395 and 424-445: removal of byte c from a Node4/Node16, common part.  Returns the
    children whose channels have to be tracked (lines 389-391) and the new record. *)
Definition removeSorted (n : inode) (c : byte) : outcome (list addr * inode) :=
  let nch := n_nch n in
  let pos := sort_Search nch (fun i => Nat.leb c (n_keys n !!! i)) in
  if Nat.ltb (length (n_keys n)) (pos + 1) then Panic else
  let n := set_keys n (go_copy (n_keys n) pos (drop (pos + 1) (n_keys n))) in
  let cs := shift_loop (n_children n) 0 pos (seq 0 nch) in
  let stale := omap id (drop nch cs) in
  let n := set_children n (clear_from cs nch) in
  Ok (stale, set_nch n (u8_decr (n_nch n))).

(** helpers.go:479-487: the Node16 arrays from a Node48. *)
Fixpoint fill16 (dst src : inode) (child : nat) (is_ : list nat) : outcome inode :=
  match is_ with
  | [] => Ok dst
  | i :: is' =>
      let? pos := getKeyAtIdx src i in
      if Nat.eqb pos 0 then fill16 dst src child is' else
      let? dst := setKeyAtIdx dst child i in
      let? ch := getChild src (pos - 1) in
      let? dst := setChildN dst child ch in
      fill16 dst src (child + 1) is'
  end.

(** helpers.go:507-514: the Node48 arrays from a Node256. *)
Fixpoint fill48from256 (dst src : inode) (pos : nat) (is_ : list nat) : outcome inode :=
  match is_ with
  | [] => Ok dst
  | i :: is' =>
      let? ch := getChild src i in
      match ch with
      | None => fill48from256 dst src pos is'
      | Some a =>
          let? dst := setChildN dst pos (Some a) in
          let? dst := setKeyAtIdx dst i (u8 (pos + 1)) in
          fill48from256 dst src (pos + 1) is'
      end
  end.

(** helpers.go:400-416: the concatenated prefix that removeChild4 stores in the remaining child.
    [n.getPartial()[prefix] = ...] panics when the partial of n is too short.  Returns the partial that is
    left in n (it is overwritten in place, lines 404 and 409) and the updated child. *)
Definition mergePrefix (n child : inode) : outcome (bytes * inode) :=
  let prefix := n_plen n in
  let? '(part, prefix) :=
    (if Nat.ltb prefix maxPrefixLen then
       if Nat.ltb prefix (length (n_partial n)) then
         let? k0 := getKeyAtIdx n 0 in
         Ok (<[prefix := k0]> (n_partial n), prefix + 1)
       else Panic
     else Ok (n_partial n, prefix)) in
  let? '(part, prefix) :=
    (if Nat.ltb prefix maxPrefixLen then
       let subPrefix := n_plen child `min` (maxPrefixLen - prefix) in
       if Nat.ltb (length (n_partial child)) subPrefix then Panic else
       if Nat.ltb (length part) prefix then Panic else
       Ok (go_copy part prefix (take subPrefix (n_partial child)), prefix + subPrefix)
     else Ok (part, prefix)) in
  if Nat.ltb (length part) (prefix `min` maxPrefixLen) then Panic else
  let child' := set_partial child (go_copy (n_partial child) 0 (take (prefix `min` maxPrefixLen) part)) in
  Ok (part, set_plen child' (n_plen child + n_plen n + 1)).

(** getLowerBoundCh: node_4.go:175-185, node_16.go:175-185, node_48.go:183-190, node_256.go:174-181.
    [None] is -1.  For Node48, [n.getChild(int(n.keys[i])-1)] with keys[i] = 0 indexes the array with -1
    and panics. *)
Fixpoint lb48 (n : inode) (is_ : list nat) : outcome (option nat) :=
  match is_ with
  | [] => Ok None
  | i :: is' =>
      let? k := getKeyAtIdx n i in
      if Nat.eqb k 0 then Panic else
      let? ch := getChild n (k - 1) in
      match ch with Some _ => Ok (Some (k - 1)) | None => lb48 n is' end
  end.
Fixpoint lb256 (n : inode) (is_ : list nat) : outcome (option nat) :=
  match is_ with
  | [] => Ok None
  | i :: is' =>
      let? ch := getChild n i in
      match ch with Some _ => Ok (Some i) | None => lb256 n is' end
  end.
Definition getLowerBoundCh (n : inode) (c : byte) : outcome (option nat) :=
  match n_kind n with
  | K4 | K16 =>
      let nCh := n_nch n in
      let idx := sort_Search nCh (fun i => Nat.leb c (n_keys n !!! i)) in
      Ok (if Nat.ltb idx nCh then Some idx else None)
  | K48 => lb48 n (seq c (256 - c))
  | K256 => lb256 n (seq c (256 - c))
  end.

(** The child chosen by minimum (helpers.go:213-251), after the leaf cases: [Ok None] is nil. *)
Fixpoint first_key48 (ks : list nat) (idx : nat) : nat :=
  match ks with
  | [] => idx
  | k :: ks' => if Nat.eqb k 0 then first_key48 ks' (idx + 1) else idx
  end.
Fixpoint first_child256 (cs : list (option addr)) : option addr :=
  match cs with [] => None | None :: cs' => first_child256 cs' | Some a :: _ => Some a end.
Definition minChild (n : inode) : outcome (option addr) :=
  match n_kind n with
  | K4 | K16 => getChild n 0
  | K48 =>
      (* idx = 256 when there is no key: getKeyAtIdx panics *)
      let? k := getKeyAtIdx n (first_key48 (n_keys n) 0) in
      let idx := u8_decr k in
      if Nat.ltb idx 48 then getChild n idx else Ok None
  | K256 => Ok (first_child256 (n_children n))
  end.

(** The child chosen by maximum (helpers.go:268-294). *)
Definition maxChild (n : inode) : outcome (option addr) :=
  match n_kind n with
  | K4 | K16 => getChild n (u8_decr (n_nch n))
  | K48 =>
      (* idx = -1 when there is no key: getKeyAtIdx panics *)
      match first_key48 (reverse (n_keys n)) 0 with
      | i => if Nat.ltb i (length (n_keys n)) then
               let? k := getKeyAtIdx n (length (n_keys n) - 1 - i) in
               let idx := u8_decr k in
               if Nat.ltb idx 48 then getChild n idx else Ok None
             else Panic
      end
  | K256 => Ok (first_child256 (reverse (n_children n)))
  end.

(** The children in the order in which the iterators expand a node (ascending), as pushed by
    iterator.go:43-45, 52-54, 61-71, 78-84 and their copies in the other iterators.  For Node4/Node16 the
    first numChildren array entries (nil entries included), for Node48/Node256 the non-nil ones.
    The index idx-1 of a Node48 key is always within the array. *)
Definition iterChildren (n : inode) : list (option addr) :=
  match n_kind n with
  | K4 | K16 => take (n_nch n) (n_children n)
  | K48 =>
      Some <$> omap (fun k => if Nat.eqb k 0 then None else default None (n_children n !! (k - 1))) (n_keys n)
  | K256 => Some <$> omap id (n_children n)
  end.
