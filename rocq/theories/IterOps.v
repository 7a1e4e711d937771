(** The four iterators (iterator.go, path_iter.go, lower_bound_iterator.go, reverse_iterator.go).

    Stacks are lists whose head is the top of the stack.  An entry is a value of the interface type
    Node[T]; [None] is nil. *)
From Verif Require Export TreeOps.

Section Iter.
Context {V : Type} `{GoZero V}.

Notation entry := (option ref).
Definition RNo (o : option addr) : entry := RN <$> o.

(** ** Iterator *)

(** iterator.go:9-16.  [depth] and [pos] are never read; seenMismatch belongs to the reverse iterator.
    [it_stack = None] is a nil stack. *)
Record iter := mkIt { it_path : bytes; it_node : option ref; it_stack : option (list entry) }.

(** node_4.go:66-72 and copies: Iterator() *)
Definition newIter (root : addr) : iter := mkIt [] (Some (RN root)) None.

(** iterator.go:27-99 Next; [Ok (None, _)] is (nil, zero, false). *)
Fixpoint nextLoop (fuel : nat) (h : heap V) (path : bytes) (stack : list entry)
  : outcome (option (bytes * V) * list entry) :=
  match fuel with
  | O => NoFuel
  | S fuel' =>
      match stack with
      | [] => Ok (None, [])
      | None :: stack' => Ok (None, stack')
      | Some (RN a) :: stack' =>
          match h_nodes h !! a with
          | None => Panic
          | Some n =>
              let stack'' := (RNo <$> iterChildren n) ++ stack' in
              match n_leaf n with
              | None => nextLoop fuel' h path stack''
              | Some la =>
                  match h_leaves h !! la with
                  | None => Panic
                  | Some l => if hasPrefix (l_key l) path then Ok (Some (getKey (l_key l), l_val l), stack'')
                              else nextLoop fuel' h path stack''
                  end
              end
          end
      | Some (RL la) :: stack' =>
          match h_leaves h !! la with
          | None => Panic
          | Some l =>
              if negb (Nat.eqb (length (l_key l)) 0) && has_prefix (l_key l) path && hasPrefix (l_key l) path
              then Ok (Some (getKey (l_key l), l_val l), stack')
              else nextLoop fuel' h path stack'
          end
      end
  end.
Definition stackOf (o : option (list entry)) : list entry := default [] o.
Definition iterNext (h : heap V) (it : iter) : outcome (option (bytes * V) * iter) :=
  let? '(r, st) := nextLoop (walk_fuel h) h (it_path it) (stackOf (it_stack it)) in
  Ok (r, mkIt (it_path it) (it_node it) (Some st)).

(** iterator.go:106-157 SeekPrefix: the node at which the descent stops.  The iterator's node is an inner
    node (leaves are never handed out as iterator roots by the tree API). *)
Fixpoint seekLoop (fuel : nat) (h : heap V) (a : addr) (prefix : bytes) (depth : nat) : outcome addr :=
  match fuel with
  | O => NoFuel
  | S fuel' =>
      match h_nodes h !! a with
      | None => Panic
      | Some n =>
          let? '(stop, depth) :=
            (if negb (isLeafN n) && Nat.ltb 0 (n_plen n) then
               let? m := prefixMismatch h a n prefix depth in
               if Nat.ltb m (n_plen n) then Ok (true, depth) else Ok (false, depth + n_plen n)
             else Ok (false, depth)) in
          if (stop : bool) then Ok a else
          match prefix !! depth with
          | None => Ok a
          | Some c =>
              let? '(child, _) := findChild n c in
              match child with
              | None => Ok a
              | Some ca => seekLoop fuel' h ca prefix (depth + 1)
              end
          end
      end
  end.
Definition seekPrefix (h : heap V) (it : iter) (prefix : bytes) : outcome iter :=
  match it_node it with
  | Some (RN a) =>
      let? b := seekLoop (length prefix + 2) h a prefix 0 in
      Ok (mkIt prefix (Some (RN b)) (Some [Some (RN b)]))
  | _ => Panic
  end.

(** iterator.go:101-104 SeekPrefixWatch *)
Definition seekPrefixWatch (it : iter) (prefix : bytes) : M (heap V) (iter * chan) :=
  let! h := (fun h => (Ok h, h)) in
  let! it' := lift (seekPrefix h it prefix) in
  match it_node it' with
  | Some (RN b) => let! c := getMutateChN b in ret (it', c)
  | _ => panic
  end.

(** ** PathIterator *)

(** path_iter.go:9-14, node_4.go:74-80 (and copies), tree.go:60-62 *)
Record piter := mkPI { pi_path : bytes; pi_stack : list entry }.
Definition newPathIter (root : addr) (path : bytes) : piter := mkPI (getTreeKey path) [Some (RN root)].

(** node_leaf.go:84-93 prefixContainsMatch *)
Definition prefixContainsMatch (lkey key : bytes) : bool :=
  if Nat.eqb (length key) 0 || Nat.eqb (length lkey) 0 then false else has_prefix (getKey key) (getKey lkey).

(** path_iter.go:16-108 Next.  Nil children are skipped. *)
Fixpoint pathNextLoop (fuel : nat) (h : heap V) (path : bytes) (stack : list entry)
  : outcome (option (bytes * V) * list entry) :=
  match fuel with
  | O => NoFuel
  | S fuel' =>
      match stack with
      | [] => Ok (None, [])
      | None :: _ => Panic          (* type assertion on nil; not reachable *)
      | Some (RL la) :: stack' =>
          match h_leaves h !! la with
          | None => Panic
          | Some l => if prefixContainsMatch (l_key l) path then Ok (Some (getKey (l_key l), l_val l), stack')
                      else pathNextLoop fuel' h path stack'
          end
      | Some (RN a) :: stack' =>
          match h_nodes h !! a with
          | None => Panic
          | Some n =>
              let kids := (fun c => Some (RN c)) <$> omap id (iterChildren n) in
              let lf := match n_leaf n with Some la => [Some (RL la)] | None => [] end in
              pathNextLoop fuel' h path (lf ++ kids ++ stack')
          end
      end
  end.
(** Every node and leaf is popped at most once. *)
Definition pathNext (h : heap V) (it : piter) : outcome (option (bytes * V) * piter) :=
  let? '(r, st) := pathNextLoop (walk_fuel h) h (pi_path it) (pi_stack it) in
  Ok (r, mkPI (pi_path it) st).

(** ** LowerBoundIterator *)

(** lower_bound_iterator.go:13-20 *)
Record liter := mkLI { li_node : option addr; li_stack : list entry }.
(** node_4.go:208-212 and copies *)
Definition newLowerIter (root : addr) : liter := mkLI (Some root) [].

(** lower_bound_iterator.go:31-95 Next *)
Fixpoint lowerNextLoop (fuel : nat) (h : heap V) (stack : list entry)
  : outcome (option (bytes * V) * list entry) :=
  match fuel with
  | O => NoFuel
  | S fuel' =>
      match stack with
      | [] => Ok (None, [])
      | None :: stack' => Ok (None, stack')
      | Some (RN a) :: stack' =>
          match h_nodes h !! a with
          | None => Panic
          | Some n =>
              let stack'' := (RNo <$> iterChildren n) ++ stack' in
              match n_leaf n with
              | None => lowerNextLoop fuel' h stack''
              | Some la =>
                  match h_leaves h !! la with
                  | None => Panic
                  | Some l => Ok (Some (getKey (l_key l), l_val l), stack'')
                  end
              end
          end
      | Some (RL la) :: stack' =>
          match h_leaves h !! la with
          | None => Panic
          | Some l => Ok (Some (getKey (l_key l), l_val l), stack')
          end
      end
  end.
Definition lowerNext (h : heap V) (it : liter) : outcome (option (bytes * V) * liter) :=
  let? '(r, st) := lowerNextLoop (walk_fuel h) h (li_stack it) in
  Ok (r, mkLI (li_node it) st).

(** [n.getNodeLeaf()] with the key of the leaf *)
Definition leafOf (h : heap V) (n : inode) : outcome (option (addr * bytes)) :=
  match n_leaf n with
  | None => Ok None
  | Some la => match h_leaves h !! la with Some l => Ok (Some (la, l_key l)) | None => Panic end
  end.
Definition nodeOf (h : heap V) (a : addr) : outcome inode :=
  match h_nodes h !! a with Some n => Ok n | None => Panic end.

(** The recurring [if parent != nil && parent.getNodeLeaf() != nil && Compare(parent leaf key, path) >= 0]
    push; with [nilpanic] a nil parent is a nil dereference (line 291). *)
Definition pushParent (h : heap V) (path : bytes) (nilpanic : bool) (parent : option addr) (stack : list entry)
  : outcome (list entry) :=
  match parent with
  | None => if nilpanic then Panic else Ok stack
  | Some p =>
      let? pn := nodeOf h p in
      let? pl := leafOf h pn in
      Ok (match pl with
          | Some (la, k) => if bytes_geb k path then Some (RL la) :: stack else stack
          | None => stack
          end)
  end.

(** Lines 279-289, 308-320, 328-340: push the children with indices itrs (descending) whose leaf is nil or
    not below the path.  With [nilpanic] a nil child is dereferenced (line 281). *)
Fixpoint pushKids (h : heap V) (path : bytes) (nilpanic : bool) (n : inode) (itrs : list nat) (stack : list entry)
  : outcome (list entry) :=
  match itrs with
  | [] => Ok stack
  | i :: itrs' =>
      let? c := getChild n i in
      match c with
      | None => if nilpanic then Panic else pushKids h path nilpanic n itrs' stack
      | Some ca =>
          let? cn := nodeOf h ca in
          let? cl := leafOf h cn in
          let push := match cl with None => true | Some (_, k) => bytes_geb k path end in
          pushKids h path nilpanic n itrs' (if push then Some (RN ca) :: stack else stack)
      end
  end.

(** Push the node itself when its leaf is nil or not below the path (found, lines 134-150; 247-254). *)
Definition pushFound (path : bytes) (a : addr) (lf : option (addr * bytes)) (stack : list entry) : list entry :=
  match lf with
  | None => Some (RN a) :: stack
  | Some (_, k) => if bytes_geb k path then Some (RN a) :: stack else stack
  end.

(** [bytes.Compare(n.getPartial()[:plen], ...)]: slicing beyond the capacity (= length) panics. *)
Definition takePartial (n : inode) : outcome bytes :=
  if Nat.leb (n_plen n) (length (n_partial n)) then Ok (take (n_plen n) (n_partial n)) else Panic.

(** lower_bound_iterator.go:168-356: the loop of SeekLowerBound.  The result is the new stack and whether
    the iterator's node has been set to nil (line 212).
    recurseMin (97-118) is only called with nil, in a branch that cannot be reached (findMin is always
    called with a non-nil node), and is not modelled. *)
Definition keepNode (o : outcome (list entry)) : outcome (list entry * bool) := let? s := o in Ok (s, false).
Fixpoint lowerLoop (fuel : nat) (h : heap V) (path : bytes) (node parent : option addr) (depth : nat)
  (seen : bool) (stack : list entry) : outcome (list entry * bool) :=
  match fuel with
  | O => NoFuel
  | S fuel' =>
  match node with
  | None =>                                                           (* line 172; no comparison here *)
      match parent with
      | None => Ok (stack, false)
      | Some p => let? pn := nodeOf h p in
                  let? pl := leafOf h pn in
                  Ok (match pl with Some (la, _) => Some (RL la) :: stack | None => stack end, false)
      end
  | Some a =>
      let? n := nodeOf h a in
      let? lf := leafOf h n in
      let? prefixCmp :=                                               (* lines 179-186 *)
        (if isLeafN n then Ok Eq
         else
           let? part := takePartial n in
           if Nat.ltb (length path) depth then Panic else
           Ok (if Nat.ltb (n_plen n) (length path)
               then bytes_compare part (slice path depth (length path `min` (depth + n_plen n)))
               else bytes_compare part (drop depth path))) in
      match prefixCmp, seen with
      | Gt, false =>                                                  (* lines 188-207 *)
          keepNode (pushParent h path false parent (pushFound path a lf stack))
      | Lt, false =>                                                  (* lines 209-219 *)
          let? s := pushParent h path false parent stack in Ok (s, true)
      | _, _ =>
      if isLeafN n && match lf with Some (_, k) => bytes_geb k path | None => false end then
        keepNode (pushParent h path false parent (pushFound path a lf stack))    (* lines 221-229 *)
      else
      let? m := prefixMismatch h a n path depth in                    (* line 234 *)
      if Nat.ltb m (n_plen n) && negb seen then Ok (stack, false) else
      let seen := seen || Nat.ltb 0 m in
      let depth := depth + n_plen n in
      match path !! depth with
      | None => keepNode (pushParent h path false parent (pushFound path a lf stack))   (* lines 246-261 *)
      | Some c =>
          let? idx := getLowerBoundCh n c in                          (* line 263 *)
          match idx with
          | None =>
              if negb seen then Ok (stack, false) else
              let? stack :=
                (match lf with
                 | Some (_, k) => Ok (if bytes_geb k path then Some (RN a) :: stack else stack)
                 | None => pushKids h path true n (reverse (seq 0 (n_nch n))) stack
                 end) in
              keepNode (pushParent h path true parent stack)          (* line 291 *)
          | Some idx =>
              let idx := if seen then 0 else idx in
              let? pl :=
                (match parent with
                 | None => Ok None
                 | Some p => let? pn := nodeOf h p in leafOf h pn
                 end) in
              match seen, pl with
              | true, Some (pla, pk) =>                               (* lines 298-326 *)
                  let added := match lf with Some (_, k) => bytes_geb k path | None => false end in
                  let? stack :=
                    (if added then Ok (Some (RN a) :: stack)
                     else pushKids h path false n (reverse (seq 0 (n_nch n))) stack) in
                  Ok (if bytes_geb pk path then Some (RL pla) :: stack else stack, false)
              | _, _ =>                                               (* lines 328-354 *)
                  let? stack := pushKids h path false n (reverse (seq (idx + 1) (n_nch n - (idx + 1)))) stack in
                  let? k := getKeyAtIdx n idx in
                  let seen := seen || negb (Nat.eqb k c) in
                  let? ch := getChild n idx in
                  lowerLoop fuel' h path ch (Some a) (depth + 1) seen stack
              end
          end
      end
      end
  end
  end.

(** lower_bound_iterator.go:120-358 SeekLowerBound *)
Definition seekLowerBound (h : heap V) (it : liter) (key : bytes) : outcome liter :=
  match key with
  | [] => Ok (mkLI (li_node it) [RNo (li_node it)])
  | _ =>
      let path := getTreeKey key in
      let? '(st, cleared) := lowerLoop (length path + 2) h path (li_node it) None 0 false [] in
      Ok (mkLI (if (cleared : bool) then None else li_node it) st)
  end.

(** ** ReverseIterator *)

(** reverse_iterator.go:9-21: the wrapped iterator and the set expandedParents *)
Record riter := mkRI { ri_it : iter; ri_exp : list addr }.
(** node_4.go:187-194 and copies *)
Definition newRevIter (root : addr) : riter := mkRI (newIter root) [].

(** reverse_iterator.go:25-32 SeekPrefix *)
Definition revSeekPrefix (h : heap V) (ri : riter) (prefix : bytes) : outcome riter :=
  let? it := seekPrefix h (ri_it ri) prefix in Ok (mkRI it (ri_exp ri)).

(** reverse_iterator.go:200-297: the loop of Previous *)
Fixpoint prevLoop (fuel : nat) (h : heap V) (path : bytes) (exp : list addr) (stack : list entry)
  : outcome (option (bytes * V) * list entry) :=
  match fuel with
  | O => NoFuel
  | S fuel' =>
      match stack with
      | [] => Ok (None, [])
      | None :: stack' => Ok (None, stack')
      | Some (RL la) :: stack' =>
          match h_leaves h !! la with
          | None => Panic
          | Some l => if bytes_leb (getKey (l_key l)) (getKey path)
                      then Ok (Some (getKey (l_key l), l_val l), stack')
                      else prevLoop fuel' h path exp stack'
          end
      | Some (RN a) :: stack' =>
          match h_nodes h !! a with
          | None => Panic
          | Some n =>
              let? lf := (match n_leaf n with
                          | None => Ok None
                          | Some la => match h_leaves h !! la with Some l => Ok (Some (la, l)) | None => Panic end
                          end) in
              let stack1 :=
                match lf with
                | Some (la, l) => if bytes_leb (l_key l) path || Nat.eqb (length path) 0
                                  then Some (RL la) :: stack' else stack'
                | None => stack'
                end in
              if bool_decide (a ∈ exp) then prevLoop fuel' h path exp stack1
              else
                let stack2 := reverse (RNo <$> iterChildren n) ++ stack1 in
                match lf with
                | Some (la, l) => if hasPrefix (getKey (l_key l)) path
                                  then Ok (Some (getKey (l_key l), l_val l), stack2)
                                  else prevLoop fuel' h path exp stack2
                | None => prevLoop fuel' h path exp stack2
                end
          end
      end
  end.

(** reverse_iterator.go:188-298 Previous.  Nodes and their leaves are pushed once each. *)
Definition prev (h : heap V) (ri : riter) : outcome (option (bytes * V) * riter) :=
  let it := ri_it ri in
  let stack := match it_stack it, it_node it with
               | None, Some nd => [Some nd]
               | o, _ => stackOf o
               end in
  let? '(r, st) := prevLoop (walk_fuel h) h (it_path it) (ri_exp ri) stack in
  let st' := match it_stack it, it_node it with None, None => None | _, _ => Some st end in
  Ok (r, mkRI (mkIt (it_path it) (it_node it) st') (ri_exp ri)).

(** reverse_iterator.go:64-183: the loop of SeekReverseLowerBound.  [spare] are the bytes between the
    length and the capacity of the slice returned by getTreeKey: the slice expression at line 71 may reach
    into them (and panics beyond them). *)
Fixpoint revLoop (fuel : nat) (h : heap V) (key prefix spare : bytes) (node : option addr) (depth : nat)
  (seen : bool) (exp : list addr) (stack : list entry) : outcome (list entry * list addr) :=
  match fuel with
  | O => NoFuel
  | S fuel' =>
  match node with
  | None => Ok (stack, exp)
  | Some a =>
      let? n := nodeOf h a in
      let? lf := leafOf h n in
      let? part := takePartial n in
      let? prefixCmp :=
        (if Nat.ltb (n_plen n) (length prefix) then
           if Nat.ltb (length prefix + length spare) (depth + n_plen n) then Panic
           else Ok (bytes_compare part (slice (prefix ++ spare) depth (depth + n_plen n)))
         else
           if Nat.ltb (length prefix) depth then Panic
           else Ok (bytes_compare part (drop depth prefix))) in
      match prefixCmp, seen with
      | Lt, _ => Ok (Some (RN a) :: stack, exp)                       (* line 86 *)
      | Gt, false =>                                                  (* lines 90-99 *)
          Ok (match lf with Some (la, _) => Some (RL la) :: stack | None => stack end, exp)
      | _, _ =>
      let done := isLeafN n && match lf with
                               | Some (_, k) => bytes_eqb (getKey k) key || bytes_leb (getKey k) key
                               | None => false
                               end in
      if done then Ok (Some (RN a) :: stack, exp)                     (* lines 105-123 *)
      else
      let? '(m, plen) :=
        (if Nat.ltb 0 (n_plen n) then let? m := prefixMismatch h a n prefix depth in Ok (m, n_plen n)
         else Ok (0, 0)) in
      if Nat.ltb 0 (n_plen n) && (Nat.ltb m (n_plen n) && negb seen) then   (* lines 132-139 *)
        Ok (match lf with Some (la, _) => Some (RL la) :: stack | None => stack end, exp)
      else
      let seen := seen || (Nat.ltb 0 (n_plen n) && Nat.ltb 0 m) in
      let depth := depth + plen in
      match prefix !! depth with
      | None => Ok (Some (RN a) :: stack, exp)                        (* line 147 *)
      | Some c =>
          let stack := match lf with Some _ => Some (RN a) :: stack | None => stack end in
          let? idx := getLowerBoundCh n c in
          let lastIdx := match n_nch n with O => None | S i => Some i end in
          let idx := if Nat.eqb depth (length prefix - 1) then lastIdx
                     else match idx with None => lastIdx | Some i => Some i end in
          let? seen :=
            (match idx with
             | Some i => let? k := getKeyAtIdx n i in Ok (seen || negb (Nat.eqb k c))
             | None => Ok seen
             end) in
          let idx := if seen then lastIdx else idx in
          match idx with
          | None => Ok (stack, exp)                                   (* line 176 *)
          | Some i =>
              let? stack :=
                (fix push (itrs : list nat) (stack : list entry) : outcome (list entry) :=
                   match itrs with
                   | [] => Ok stack
                   | j :: itrs' => let? ch := getChild n j in
                                   push itrs' (match ch with Some ca => Some (RN ca) :: stack | None => stack end)
                   end) (seq 0 i) stack in
              let? ch := getChild n i in
              revLoop fuel' h key prefix spare ch (depth + 1) seen (a :: exp) stack
          end
      end
      end
  end
  end.

(** reverse_iterator.go:38-185 SeekReverseLowerBound *)
Definition seekReverseLowerBound (h : heap V) (ri : riter) (key spare : bytes) : outcome riter :=
  let prefix := getTreeKey key in
  let start := match it_node (ri_it ri) with Some (RN a) => Some a | _ => None end in
  let? '(st, exp) := revLoop (length prefix + 2) h key prefix spare start 0 false (ri_exp ri) [] in
  Ok (mkRI (mkIt prefix None (Some st)) exp).

End Iter.
