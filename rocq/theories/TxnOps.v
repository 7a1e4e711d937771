(** Transactions: minimum/maximum, prefix comparison, Insert, Delete, DeletePrefix, Commit, Notify,
    Clone (txn.go, helpers.go). *)
From Verif Require Export HeapOps.

Section Txn.
Context {V : Type} `{GoZero V}.
Notation TM := (M (st V)).
Notation HM := (M (heap V)).

(** ** Pure readers *)

(** helpers.go:200-252 minimum.  The result is the address of the leaf ([None] = nil). *)
Fixpoint minimum (fuel : nat) (h : heap V) (o : option addr) : outcome (option addr) :=
  match fuel with
  | O => NoFuel
  | S fuel' =>
      match o with
      | None => Ok None
      | Some a =>
          match h_nodes h !! a with
          | None => Panic
          | Some n =>
              if isLeafN n then Ok (n_leaf n) else
              match n_leaf n with
              | Some l => Ok (Some l)
              | None => let? c := minChild n in
                        match c with None => Ok None | Some _ => minimum fuel' h c end
              end
          end
      end
  end.

(** helpers.go:254-295 maximum *)
Fixpoint maximum (fuel : nat) (h : heap V) (o : option addr) : outcome (option addr) :=
  match fuel with
  | O => NoFuel
  | S fuel' =>
      match o with
      | None => Ok None
      | Some a =>
          match h_nodes h !! a with
          | None => Panic
          | Some n =>
              if isLeafN n then Ok (n_leaf n) else
              let? c := maxChild n in
              match c with None => Ok None | Some _ => maximum fuel' h c end
          end
      end
  end.

(** Fuel for walks along the tree: every path visits each allocated node at most once. *)
Definition walk_fuel (h : heap V) : nat := S (h_next h).

(** helpers.go:173-198 prefixMismatch(n, key, len(key), depth) *)
Definition prefixMismatch (h : heap V) (a : addr) (n : inode) (key : bytes) (depth : nat) : outcome nat :=
  let maxCmp := (maxPrefixLen `min` n_plen n) `min` (length key - depth) in
  let? idx := cmp_loop maxCmp 0 maxCmp (n_partial n) key depth in
  if Nat.ltb idx maxCmp then Ok idx else
  if Nat.ltb maxPrefixLen (n_plen n) then
    let? lo := minimum (walk_fuel h) h (Some a) in
    match lo with
    | None => Ok idx
    | Some la =>
        match h_leaves h !! la with
        | None => Panic
        | Some l =>
            let maxCmp := (length (l_key l) `min` length key) - depth in
            cmp_loop maxCmp idx maxCmp (drop depth (l_key l)) key depth
        end
    end
  else Ok idx.

(** helpers.go:31-44 longestCommonPrefix(l1, l2, depth) on the keys of two leaves *)
Definition longestCommonPrefix (k1 k2 : bytes) (depth : nat) : outcome nat :=
  let maxCmp := if Nat.ltb (length k1) (length k2) then length k1 - depth else length k2 - depth in
  cmp_loop maxCmp 0 maxCmp (drop depth k1) k2 depth.

(** ** Insert *)

Definition is_some {A} (o : option A) : bool := match o with Some _ => true | None => false end.

Definition byteAt (k : bytes) (i : nat) : TM byte :=
  match k !! i with Some b => ret b | None => panic end.

Definition getH : TM (heap V) := fun s => (Ok (s_h s), s).

(** [copy(dst.partial, src)] *)
Definition copyPartial (a : addr) (src : bytes) : TM unit :=
  updN a (fun n => Ok (set_partial n (go_copy (n_partial n) 0 src))).

(** txn.go:97-262 recursiveInsert.  Result: (node, value, mutated, *old == 1); the Go function sets [*old]
    only on the path that returns through line 122, so it is a component of the result here.
    The slice expressions key[depth:depth+min(..)] (line 138) and l.key[..] (line 233) are bounded by the
    length instead of the capacity of the slice (simplification: within the length they agree). *)
Fixpoint recursiveInsert (fuel : nat) (node : addr) (key : bytes) (value : V) (depth : nat)
  : TM (addr * V * bool * bool) :=
  match fuel with
  | O => nofuel
  | S fuel' =>
  let! t := getT in
  if (t_tsize t =? 0)%N then                                                     (* line 100 *)
    let! node := writeNode node true in
    let! newLeaf := allocLeaf in
    setKV newLeaf key value ;;;
    setNodeLeaf node (Some newLeaf) ;;;
    ret (node, go_zero, true, false)
  else
  let! n := loadN node in
  match n_leaf n with
  | Some nodeLeaf =>
    let! nl := loadL nodeLeaf in
    if isLeafN n then                                                            (* line 110 *)
      let nodeKey := l_key nl in
      if Nat.eqb (length key) (length nodeKey) && bytes_eqb nodeKey key then     (* line 114 *)
        let oldVal := l_val nl in
        let! node := writeNode node true in
        let! newLeaf := allocLeaf in
        setKV newLeaf key value ;;;
        setNodeLeaf node (Some newLeaf) ;;;
        ret (node, oldVal, true, true)
      else
        let! newLeaf2 := makeLeaf key value in                                   (* line 126 *)
        let! nl2 := loadN newLeaf2 in
        trackN node ;;;
        let! node := writeNode node false in
        let! longestPrefix := lift (longestCommonPrefix key nodeKey depth) in
        let! newNode := allocNode K4 in
        updN newNode (fun n => Ok (set_plen n longestPrefix)) ;;;
        (if Nat.ltb (length key) (depth + (maxPrefixLen `min` longestPrefix)) then panic else
         copyPartial newNode (slice key depth (depth + (maxPrefixLen `min` longestPrefix)))) ;;;
        let! newNode :=
          (if has_prefix (getKey nodeKey) (getKey key) then                      (* line 140 *)
             trackL nodeLeaf ;;;
             setNodeLeaf newNode (n_leaf nl2) ;;;
             let! c := byteAt nodeKey (depth + longestPrefix) in
             addChild newNode c node
           else if has_prefix (getKey key) (getKey nodeKey) then                 (* line 146 *)
             setNodeLeaf newNode (Some nodeLeaf) ;;;
             let! c := byteAt key (depth + longestPrefix) in
             addChild newNode c newLeaf2
           else                                                                  (* lines 152-159 *)
             let! newNode :=
               (if Nat.ltb (depth + longestPrefix) (length nodeKey) then
                  let! c := byteAt nodeKey (depth + longestPrefix) in
                  addChild newNode c node
                else ret newNode) in
             if Nat.ltb (depth + longestPrefix) (length key) then
               let! c := byteAt key (depth + longestPrefix) in
               addChild newNode c newLeaf2
             else ret newNode) in
        ret (newNode, go_zero, true, false)
    else if leafMatches (l_key nl) key then                                      (* line 165 *)
      let! newLeaf := writeLeaf nodeLeaf true in
      let! x := loadL newLeaf in
      storeL newLeaf (setl_val x value) ;;;
      let! node := writeNode node true in
      setNodeLeaf node (Some newLeaf) ;;;
      ret (node, go_zero, true, false)
    else insertInner fuel' node key value depth
  | None => insertInner fuel' node key value depth
  end
  end

(** txn.go:173-262: the part of recursiveInsert below the leaf cases. *)
with insertInner (fuel : nat) (node : addr) (key : bytes) (value : V) (depth : nat)
  : TM (addr * V * bool * bool) :=
  match fuel with
  | O => nofuel
  | S fuel' =>
  let! n := loadN node in
  if Nat.ltb 0 (n_plen n) then                                                   (* line 174 *)
    let! h := getH in
    let! prefixDiff := lift (prefixMismatch h node n key depth) in
    if Nat.leb (n_plen n) prefixDiff then                                        (* line 177 *)
      let depth := depth + n_plen n in
      let! '(child, idx) :=
        (if Nat.ltb depth (length key) then
           let! c := byteAt key depth in lift (findChild n c)
         else ret (None, 0)) in
      match child with
      | Some child =>
          let! '(newChild, val, mutatedSubTree, old) := recursiveInsert fuel' child key value (depth + 1) in
          let! node :=
            (if mutatedSubTree || negb (Nat.eqb newChild child) then
               trackN node ;;;
               let! node := writeNode node false in
               setChild node idx (Some newChild) ;;;
               ret node
             else ret node) in
          ret (node, val, mutatedSubTree, old)
      | None =>
          let! newLeaf := makeLeaf key value in                                  (* line 192 *)
          let! bad :=
            (match n_leaf n with
             | Some nla => let! nl := loadL nla in
                 ret (negb (Nat.eqb (length (l_key nl)) 0) && has_prefix (getKey (l_key nl)) (getKey key))
             | None => ret false
             end) in
          if bad then                                                            (* lines 196-203 *)
            trackN node ;;;
            let! node := writeNode node false in
            let! newNode := allocNode K4 in
            panic       (* line 200: newLeaf is a *Node4, the assertion to *NodeLeaf fails *)
          else
            trackN node ;;;
            let! node := writeNode node false in
            let! node :=
              (if Nat.ltb depth (length key) then
                 let! c := byteAt key depth in addChild node c newLeaf
               else ret node) in
            ret (node, go_zero, true, false)
      end
    else                                                                         (* line 215 *)
      let! newNode := allocNode K4 in
      updN newNode (fun m => Ok (set_plen m prefixDiff)) ;;;
      (if Nat.ltb (length (n_partial n)) (maxPrefixLen `min` prefixDiff) then panic else
       copyPartial newNode (take (maxPrefixLen `min` prefixDiff) (n_partial n))) ;;;
      trackN node ;;;
      let! node := writeNode node false in
      let! n := loadN node in
      let! newNode :=
        (if Nat.leb (n_plen n) maxPrefixLen then                                 (* line 223 *)
           let! c := byteAt (n_partial n) prefixDiff in
           let! newNode := addChild newNode c node in
           let plen' := n_plen n - (prefixDiff + 1) in
           updN node (fun m => Ok (set_plen m plen')) ;;;
           let len := maxPrefixLen `min` plen' in
           (if Nat.ltb (length (n_partial n)) (prefixDiff + 1 + len) then panic else
            copyPartial node (slice (n_partial n) (prefixDiff + 1) (prefixDiff + 1 + len))) ;;;
           ret newNode
         else                                                                    (* line 228 *)
           let plen' := n_plen n - (prefixDiff + 1) in
           updN node (fun m => Ok (set_plen m plen')) ;;;
           let! h := getH in
           let! lo := lift (minimum (walk_fuel h) h (Some node)) in
           match lo with
           | None => panic
           | Some la =>
               let! l := loadL la in
               let! c := byteAt (l_key l) (depth + prefixDiff) in
               let! newNode := addChild newNode c node in
               let len := maxPrefixLen `min` plen' in
               (if Nat.ltb (length (l_key l)) (depth + prefixDiff + 1 + len) then panic else
                copyPartial node (slice (l_key l) (depth + prefixDiff + 1) (depth + prefixDiff + 1 + len))) ;;;
               ret newNode
           end) in
      let! newLeaf := makeLeaf key value in                                      (* line 236 *)
      let! newNode :=
        (if Nat.ltb (depth + prefixDiff) (length key) then
           let! c := byteAt key (depth + prefixDiff) in
           addChild newNode c newLeaf
         else ret newNode) in
      ret (newNode, go_zero, true, false)
  else                                                                           (* line 243 *)
    let! c := byteAt key depth in
    let! '(child, idx) := lift (findChild n c) in
    match child with
    | Some child =>
        let! '(newChild, val, mutatedSubTree, old) := recursiveInsert fuel' child key value (depth + 1) in
        let! node :=
          (if mutatedSubTree || negb (Nat.eqb newChild child) then
             trackN node ;;;
             let! node := writeNode node false in
             setChild node idx (Some newChild) ;;;
             ret node
           else ret node) in
        ret (node, val, mutatedSubTree, old)
    | None =>
        let! newLeaf := makeLeaf key value in
        if Nat.ltb depth (length key) then
          trackN node ;;;
          let! node := writeNode node false in
          let! node := addChild node c newLeaf in
          ret (node, go_zero, true, false)
        else ret (node, go_zero, false, false)
    end
  end.

(** The recursion descends at most once per key byte (two fuel units per level). *)
Definition insert_fuel (key : bytes) : nat := 2 * length key + 4.

(** txn.go:86-95 Txn.Insert *)
Definition txnInsert (key : bytes) (value : V) : TM (V * bool) :=
  let tk := getTreeKey key in
  let! t := getT in
  let! '(newRoot, oldVal, _, old) := recursiveInsert (insert_fuel tk) (t_root t) tk value 0 in
  let! t := getT in
  let t := if old then t else set_t_tsize (set_t_size t (u64_incr (t_size t))) (u64_incr (t_tsize t)) in
  putT (set_t_root t newRoot) ;;;
  ret (oldVal, old).

(** ** Delete *)

Definition opt_addr_eqb (x y : option addr) : bool := bool_decide (x = y).

(** txn.go:289-353 recursiveDelete.  Results: new node (nil = [None]), the removed leaf as a Node value,
    and the mutate flag.  Line 298: getKey of an inner node is the empty slice. *)
Fixpoint recursiveDelete (fuel : nat) (node : option addr) (key : bytes) (depth : nat)
  : TM (option addr * option ref * bool) :=
  match fuel with
  | O => nofuel
  | S fuel' =>
  match node with
  | None => ret (None, None, false)
  | Some node =>
  let! n := loadN node in
  (if isLeafN n then trackN node else ret tt) ;;;
  if isLeafN n && leafMatches [] key then ret (None, Some (RN node), true)        (* line 298 *)
  else
  let! hit :=
    (match n_leaf n with
     | Some nodeL => let! nl := loadL nodeL in
                     ret (if leafMatches (l_key nl) key then Some nodeL else None)
     | None => ret None
     end) in
  match hit with
  | Some nodeL =>                                                                (* lines 304-315 *)
      let! node := writeNode node true in
      setNodeLeaf node None ;;;
      let! n := loadN node in
      if Nat.ltb 0 (n_nch n) then ret (Some node, Some (RL nodeL), true)
      else ret (None, Some (RL nodeL), false)
  | None =>
      let! bail :=
        (if Nat.ltb 0 (n_plen n) then                                            (* line 318 *)
           let! prefixLen := lift (checkPrefix (n_partial n) (n_plen n) key depth) in
           ret (negb (Nat.eqb prefixLen (maxPrefixLen `min` n_plen n)))
         else ret false) in
      if bail then ret (Some node, None, false)
      else
      let depth := depth + n_plen n in
      let! c := byteAt key depth in                                              (* line 327 *)
      let! '(child, idx) := lift (findChild n c) in
      match child with
      | None => ret (None, None, false)                                          (* line 329 *)
      | Some child =>
          let! '(newChild, val, mutate) := recursiveDelete fuel' (Some child) key (depth + 1) in
          let! node :=
            (if negb (opt_addr_eqb newChild (Some child)) || is_some val then     (* line 335 *)
               trackN node ;;;
               let! node := writeNode node false in
               setChild node idx newChild ;;;
               match newChild with
               | None => removeChild node c
               | Some _ => ret node
               end
             else ret node) in
          let! n := loadN node in
          if Nat.eqb (n_nch n) 0 then                                            (* line 344 *)
            if is_some (n_leaf n) then ret (Some node, val, mutate) else ret (None, val, mutate)
          else ret (Some node, val, mutate)
      end
  end
  end
  end.

Definition delete_fuel (key : bytes) : nat := length key + 2.

(** The empty root installed by txn.go:269-275 and 423-429. *)
Definition installEmptyRoot : TM unit :=
  let! t := getT in
  let! l := liftH (hallocL (mkL (t_max t + 1) go_zero [] None)) in
  let! r := liftH (hallocN (set_leaf (set_id (zero_node K4) (t_max t)) (Some l))) in
  putT (set_t_root (set_t_max t (t_max t + 2)) r).

(** txn.go:264-287 Txn.Delete *)
Definition txnDelete (key : bytes) : TM (V * bool) :=
  let tk := getTreeKey key in
  let! t := getT in
  let! '(newRoot, l, _) := recursiveDelete (delete_fuel tk) (Some (t_root t)) tk 0 in
  (match newRoot with
   | None => installEmptyRoot
   | Some r => let! t := getT in putT (set_t_root t r)
   end) ;;;
  match l with
  | Some x =>
      let! t := getT in
      trackN (t_root t) ;;;
      let! t := getT in
      putT (set_t_tsize (set_t_size t (u64_sub (t_size t) 1)) (u64_sub (t_tsize t) 1)) ;;;
      match x with
      | RL la => let! lf := loadL la in ret (l_val lf, true)
      | RN _ => ret (go_zero, true)        (* getValue of an inner node is the zero value *)
      end
  | None => ret (go_zero, false)
  end.

(** ** DeletePrefix *)

(** txn.go:495-510: compaction of the children (the keys array is left as it is). *)
Fixpoint compact_loop (m : list (nat * option addr)) (n : inode) (slow numCh : nat) (itrs : list nat)
  : outcome (inode * nat * nat) :=
  match itrs with
  | [] => Ok (n, slow, numCh)
  | itr :: itrs' =>
      match list_find (fun e => e.1 = itr) m with
      | Some (_, (_, None)) => compact_loop m n slow numCh itrs'
      | Some (_, (_, Some a)) =>
          let? n := setChildN n slow (Some a) in
          compact_loop m n (slow + 1) (numCh + 1) itrs'
      | None =>
          let? ch := getChild n itr in
          let? n := setChildN n slow ch in
          compact_loop m n (slow + 1) (numCh + 1) itrs'
      end
  end.

(** txn.go:444-517 deletePrefix.  The depth (lines 461-466) does not influence the result; checkPrefix is
    still executed because it may panic. *)
Fixpoint deletePrefix (fuel : nat) (node : option addr) (key : bytes) (depth : nat)
  : TM (option addr * nat) :=
  match fuel with
  | O => nofuel
  | S fuel' =>
  match node with
  | None => ret (None, 0)
  | Some node =>
  let! n := loadN node in
  if isLeafN n then
    match n_leaf n with
    | Some nL =>
        let! nl := loadL nL in
        if has_prefix (getKey (l_key nl)) (getKey key) then
          trackN node ;;; trackL nL ;;; ret (None, 1)
        else ret (Some node, 0)
    | None => ret (Some node, 0)
    end
  else
  let! depth :=
    (if Nat.ltb 0 (n_plen n) then
       let! prefixLen := lift (checkPrefix (n_partial n) (n_plen n) key depth) in
       ret (if Nat.ltb prefixLen (maxPrefixLen `min` length (getKey key)) then depth + prefixLen else depth)
     else ret depth) in
  let! numDel :=
    (match n_leaf n with
     | Some nL =>
         let! nl := loadL nL in
         if has_prefix (getKey (l_key nl)) (getKey key) then trackL nL ;;; ret 1 else ret 0
     | None => ret 0
     end) in
  let! '(m, numDel) :=
    (fix loop (chs : list (option addr)) (idx : nat) (m : list (nat * option addr)) (numDel : nat)
       : TM (list (nat * option addr) * nat) :=
       match chs with
       | [] => ret (m, numDel)
       | None :: chs' => loop chs' (idx + 1) m numDel
       | Some ch :: chs' =>
           let! '(newCh, del) := deletePrefix fuel' (Some ch) key (depth + 1) in
           (if Nat.ltb 0 del then trackN ch else ret tt) ;;;
           loop chs' (idx + 1) (m ++ [(idx, newCh)]) (numDel + del)
       end) (n_children n) 0 [] numDel in
  let! node := writeNode node true in
  let! n := loadN node in
  let! '(n', slow, numCh) := lift (compact_loop m n 0 0 (seq 0 (n_nch n))) in
  storeN node (set_nch (set_children n' (clear_from (n_children n') slow)) (u8 numCh)) ;;;
  ret (Some node, numDel)
  end
  end.

(** txn.go:419-442 Txn.DeletePrefix *)
Definition txnDeletePrefix (prefix : bytes) : TM bool :=
  let key := getTreeKey prefix in
  let! t := getT in
  let! h := getH in
  let! '(newRoot, numDeletions) := deletePrefix (walk_fuel h) (Some (t_root t)) key 0 in
  (match newRoot with
   | None => installEmptyRoot
   | Some r => let! t := getT in putT (set_t_root t r)
   end) ;;;
  if Nat.eqb numDeletions 0 then ret false
  else
    let! t := getT in
    trackN (t_root t) ;;;
    let! t := getT in
    let sz := u64_sub (t_tsize t) (N.of_nat numDeletions) in
    putT (set_t_size (set_t_tsize t sz) sz) ;;;
    ret true.

(** ** Transactions as values *)

(** txn.go:41-53 RadixTree.Txn *)
Definition newTxn (tr : rtree) : HM txn :=
  let! r := cloneN (r_root tr) true in
  ret (mkTx r (r_size tr) (r_max tr) (r_size tr) (r_max tr) false []).

(** txn.go:57-70 Txn.Clone *)
Definition cloneTxn (t : txn) : HM txn :=
  let! r := cloneN (t_root t) true in
  ret (mkTx r (t_size t) (t_max t) (t_size t) (t_max t) false []).

(** txn.go:75-77 TrackMutate *)
Definition trackMutate (b : bool) (t : txn) : txn := set_t_track t b.

(** txn.go:392-399 CommitOnly *)
Definition commitOnly (t : txn) : rtree := mkT (t_root t) (t_size t) (t_max t).

(** txn.go:404-411 slowNotify and 372-378 Notify (run without interference; see Concurrency.v) *)
Fixpoint closeAll (cs : list chan) : HM unit :=
  match cs with [] => ret tt | c :: cs' => hcloseIfOpen c ;;; closeAll cs' end.
Definition slowNotify : TM unit :=
  let! t := getT in
  liftH (closeAll (t_chs t)) ;;;
  putT (set_t_chs t []).
Definition notify : TM unit :=
  let! t := getT in
  if t_track t then slowNotify else ret tt.

(** txn.go:382-388 Commit *)
Definition commit : TM rtree :=
  let! t := getT in
  let nt := commitOnly t in
  (if t_track t then notify else ret tt) ;;;
  ret nt.

End Txn.

Global Arguments walk_fuel : simpl never.
Global Arguments insert_fuel : simpl never.
Global Arguments delete_fuel : simpl never.
