(** RadixTree operations (tree.go). *)
From Verif Require Export TxnOps.

Section Tree.
Context {V : Type} `{GoZero V}.
Notation HM := (M (heap V)).

(** tree.go:35-44 NewRadixTree *)
Definition newTree : HM rtree :=
  let! l := hallocL (mkL 1 go_zero [] None) in
  let! r := hallocN (set_leaf (zero_node K4) (Some l)) in
  ret (mkT r 0 1).

(** tree.go:46-53 RadixTree.Clone *)
Definition cloneTree (t : rtree) : HM rtree :=
  let! r := cloneN (r_root t) true in
  ret (mkT r (r_size t) (r_max t)).

(** tree.go:56-58 Len (the conversion uint64 -> int is the identity below 2^63) *)
Definition treeLen (t : rtree) : N := r_size t.

(** Where a search ended: at a matching leaf, or nowhere (then the node whose channel is watched). *)
Inductive sres := Found (l : addr) | Missing (n : addr).

(** The fallback scan used at every exit of the search, tree.go:182-195, 201-214, 220-233 *)
Fixpoint scanChildren (h : heap V) (key : bytes) (chs : list (option addr)) : outcome (option addr) :=
  match chs with
  | [] => Ok None
  | None :: chs' => scanChildren h key chs'
  | Some c :: chs' =>
      match h_nodes h !! c with
      | None => Panic
      | Some cn =>
          match n_leaf cn with
          | None => scanChildren h key chs'
          | Some la =>
              match h_leaves h !! la with
              | None => Panic
              | Some l => if leafMatches (l_key l) key then Ok (Some la) else scanChildren h key chs'
              end
          end
      end
  end.

Definition ownLeaf (h : heap V) (key : bytes) (n : inode) : outcome (option addr) :=
  match n_leaf n with
  | None => Ok None
  | Some la =>
      match h_leaves h !! la with
      | None => Panic
      | Some l => Ok (if leafMatches (l_key l) key then Some la else None)
      end
  end.

Definition searchExit (h : heap V) (key : bytes) (a : addr) (n : inode) : outcome sres :=
  let? o := ownLeaf h key n in
  match o with
  | Some la => Ok (Found la)
  | None =>
      let? o := scanChildren h key (n_children n) in
      match o with Some la => Ok (Found la) | None => Ok (Missing a) end
  end.

(** tree.go:151-238 iterativeSearch and 240-327 iterativeSearchWithWatch: the two functions take the same
    steps and differ only in what they return.  (n is never a NodeLeaf, see [inode].) *)
Fixpoint search (fuel : nat) (h : heap V) (a : addr) (key : bytes) (depth : nat) : outcome sres :=
  match fuel with
  | O => NoFuel
  | S fuel' =>
      match h_nodes h !! a with
      | None => Panic
      | Some n =>
          let? early := (if isLeafN n then ownLeaf h key n else Ok None) in
          match early with
          | Some la => Ok (Found la)
          | None =>
              let? prefixLen :=
                (if Nat.ltb 0 (n_plen n) then checkPrefix (n_partial n) (n_plen n) key depth else Ok 0) in
              if Nat.ltb 0 (n_plen n) && negb (Nat.eqb prefixLen (maxPrefixLen `min` n_plen n)) then
                searchExit h key a n
              else
                let depth := depth + n_plen n in
                match key !! depth with
                | None => searchExit h key a n                  (* depth >= len(key) *)
                | Some c =>
                    let? '(child, _) := findChild n c in
                    match child with
                    | None => searchExit h key a n
                    | Some ca => search fuel' h ca key (depth + 1)
                    end
                end
          end
      end
  end.

Definition search_fuel (key : bytes) : nat := length key + 2.

(** tree.go:70-72 Get (and txn.go:81-84 Txn.Get on t.tree.root) *)
Definition getFrom (h : heap V) (root : addr) (key : bytes) : outcome (V * bool) :=
  let tk := getTreeKey key in
  let? r := search (search_fuel tk) h root tk 0 in
  match r with
  | Found la => match h_leaves h !! la with Some l => Ok (l_val l, true) | None => Panic end
  | Missing _ => Ok (go_zero, false)
  end.
Definition treeGet (h : heap V) (t : rtree) (key : bytes) : outcome (V * bool) := getFrom h (r_root t) key.
Definition txnGet (h : heap V) (t : txn) (key : bytes) : outcome (V * bool) := getFrom h (t_root t) key.

(** tree.go:80-83 GetWatch (and txn.go:365-367) *)
Definition getWatchFrom (root : addr) (key : bytes) : HM (chan * V * bool) :=
  let tk := getTreeKey key in
  let! h := (fun h => (Ok h, h)) in
  let! r := lift (search (search_fuel tk) h root tk 0) in
  match r with
  | Found la => let! l := hloadL la in let! c := getMutateChL la in ret (c, l_val l, true)
  | Missing a => let! c := getMutateChN a in ret (c, go_zero, false)
  end.
Definition treeGetWatch (t : rtree) (key : bytes) : HM (chan * V * bool) := getWatchFrom (r_root t) key.
Definition txnGetWatch (t : txn) (key : bytes) : HM (chan * V * bool) := getWatchFrom (t_root t) key.

(** tree.go:119-125: [last] after looking at the children of n. *)
Fixpoint lpScan (h : heap V) (key : bytes) (last : option addr) (chs : list (option addr)) : outcome (option addr) :=
  match chs with
  | [] => Ok last
  | None :: chs' => lpScan h key last chs'
  | Some c :: chs' =>
      match h_nodes h !! c with
      | None => Panic
      | Some cn =>
          match n_leaf cn with
          | None => lpScan h key last chs'
          | Some la =>
              match h_leaves h !! la with
              | None => Panic
              | Some l => lpScan h key (if has_prefix (getKey key) (getKey (l_key l)) then Some la else last) chs'
              end
          end
      end
  end.

(** tree.go:100-134: the loop of LongestPrefix; the result is [last]. *)
Fixpoint lpLoop (fuel : nat) (h : heap V) (a : addr) (key : bytes) (depth : nat) (last : option addr)
  : outcome (option addr) :=
  match fuel with
  | O => NoFuel
  | S fuel' =>
      match h_nodes h !! a with
      | None => Panic
      | Some n =>
          let? prefixLen :=
            (if Nat.ltb 0 (n_plen n) then checkPrefix (n_partial n) (n_plen n) key depth else Ok 0) in
          if Nat.ltb 0 (n_plen n) && negb (Nat.eqb prefixLen (maxPrefixLen `min` n_plen n)) then Ok last
          else
            let depth := depth + n_plen n in
            match key !! depth with
            | None => Ok last
            | Some c =>
                let? last :=
                  (match n_leaf n with
                   | None => Ok last
                   | Some la =>
                       match h_leaves h !! la with
                       | None => Panic
                       | Some l => Ok (if has_prefix (getKey key) (getKey (l_key l)) then Some la else last)
                       end
                   end) in
                let? last := lpScan h key last (n_children n) in
                let? '(child, _) := findChild n c in
                match child with
                | None => Ok last
                | Some ca => lpLoop fuel' h ca key (depth + 1) last
                end
            end
      end
  end.

(** tree.go:85-141 LongestPrefix (and txn.go:413-415).  [None] = (nil, zero, false). *)
Definition longestPrefixFrom (h : heap V) (root : addr) (k : bytes) : outcome (option (bytes * V)) :=
  let key := getTreeKey k in
  match h_nodes h !! root with
  | None => Panic
  | Some n =>
      let? last := lpLoop (search_fuel key) h root key 0 (n_leaf n) in
      match last with
      | None => Ok None
      | Some la => match h_leaves h !! la with
                   | Some l => Ok (Some (getKey (l_key l), l_val l))
                   | None => Panic
                   end
      end
  end.
Definition treeLongestPrefix (h : heap V) (t : rtree) (k : bytes) := longestPrefixFrom h (r_root t) k.
Definition txnLongestPrefix (h : heap V) (t : txn) (k : bytes) := longestPrefixFrom h (t_root t) k.

(** tree.go:143-149 Minimum, Maximum: the leaf with its key (without terminator) and value; nil = [None]. *)
Definition leafKV (h : heap V) (o : option addr) : outcome (option (bytes * V)) :=
  match o with
  | None => Ok None
  | Some la => match h_leaves h !! la with
               | Some l => Ok (Some (getKey (l_key l), l_val l))
               | None => Panic
               end
  end.
Definition treeMinimum (h : heap V) (t : rtree) : outcome (option (bytes * V)) :=
  let? o := minimum (walk_fuel h) h (Some (r_root t)) in leafKV h o.
Definition treeMaximum (h : heap V) (t : rtree) : outcome (option (bytes * V)) :=
  let? o := maximum (walk_fuel h) h (Some (r_root t)) in leafKV h o.

(** tree.go:64-68, 74-78, 329-333: Insert, Delete, DeletePrefix on a tree: Txn, one operation, Commit.
    trackMutate is off, so Commit does not notify. *)
Definition withTxn {A} (t : rtree) (m : M (st V) A) : HM (rtree * A) := fun h =>
  match newTxn t h with
  | (Ok tx, h1) =>
      match m (mkS h1 tx) with
      | (Ok a, s) =>
          match commit s with
          | (Ok t', s') => (Ok (t', a), s_h s')
          | (Panic, s') => (Panic, s_h s')
          | (NoFuel, s') => (NoFuel, s_h s')
          end
      | (Panic, s) => (Panic, s_h s)
      | (NoFuel, s) => (NoFuel, s_h s)
      end
  | (Panic, h1) => (Panic, h1)
  | (NoFuel, h1) => (NoFuel, h1)
  end.
Definition treeInsert (t : rtree) (key : bytes) (v : V) : HM (rtree * (V * bool)) := withTxn t (txnInsert key v).
Definition treeDelete (t : rtree) (key : bytes) : HM (rtree * (V * bool)) := withTxn t (txnDelete key).
Definition treeDeletePrefix (t : rtree) (key : bytes) : HM (rtree * bool) := withTxn t (txnDeletePrefix key).

(** tree.go:347-349 Walk and 383-398 recursiveWalk.  The callback is modelled as a function on an
    accumulator; it returns true to stop.  The value passed is that of the inner node, i.e. zero. *)
Section Walk.
Context {A : Type} (fn : bytes -> V -> A -> A * bool).
Fixpoint recursiveWalk (fuel : nat) (h : heap V) (a : addr) (acc : A) : outcome (A * bool) :=
  match fuel with
  | O => NoFuel
  | S fuel' =>
      match h_nodes h !! a with
      | None => Panic
      | Some n =>
          let? '(acc, stop) :=
            (if isLeafN n then
               match n_leaf n with
               | None => Ok (acc, false)
               | Some la => match h_leaves h !! la with
                            | None => Panic
                            | Some l => Ok (fn (getKey (l_key l)) go_zero acc)
                            end
               end
             else Ok (acc, false)) in
          if stop then Ok (acc, true)
          else
            (fix loop (chs : list (option addr)) (acc : A) : outcome (A * bool) :=
               match chs with
               | [] => Ok (acc, false)
               | None :: chs' => loop chs' acc
               | Some c :: chs' =>
                   let? '(acc, stop) := recursiveWalk fuel' h c acc in
                   if stop then Ok (acc, true) else loop chs' acc
               end) (n_children n) acc
      end
  end.
Definition treeWalk (h : heap V) (t : rtree) (acc : A) : outcome A :=
  let? '(acc, _) := recursiveWalk (walk_fuel h) h (r_root t) acc in Ok acc.
End Walk.

(** tree.go:351-353 DFS and 404-415 DFSNode: the addresses visited, in order. *)
Fixpoint dfsNode (fuel : nat) (h : heap V) (a : addr) : outcome (list addr) :=
  match fuel with
  | O => NoFuel
  | S fuel' =>
      match h_nodes h !! a with
      | None => Panic
      | Some n =>
          let? rest :=
            (fix loop (itrs : list nat) : outcome (list addr) :=
               match itrs with
               | [] => Ok []
               | i :: itrs' =>
                   let? e := getChild n i in
                   match e with
                   | None => loop itrs'
                   | Some c => let? l1 := dfsNode fuel' h c in
                               let? l2 := loop itrs' in Ok (l1 ++ l2)
                   end
               end) (seq 0 (n_nch n)) in
          Ok (a :: rest)
      end
  end.

End Tree.

Global Arguments search_fuel : simpl never.
