(** The updates of a transaction as programs of single memory accesses.

    The model of TxnOps.v runs a call in one go.  Here the same code is written as a program (a tree of commands), so that
    accesses of several goroutines can be interleaved between any two commands (Machine.v).  The text is that of
    HeapOps.v and TxnOps.v with a p before each name; ProgEq.v proves that a program run alone does what the function there does.
    A plain store writes a whole node or leaf; in Go it is several writes of fields of the same cell. *)
From Verif Require Export TreeOps World.

Section Prog.
Context {V : Type} `{GoZero V}.

(** Commands.  LoadN, LoadL, StoreN, StoreL: plain accesses to an inner node or a leaf (all fields but mutateCh).
    AllocN, AllocL: new(Node4) etc.  CasCh*, SetCh*: atomic accesses to mutateCh (node_4.go:151-166, 196-198 and copies).
    MkChan, Close: channels.  GetT, PutT: the fields of the Txn struct, local to the goroutine.
    LiveN, LiveL: is there a cell (always true in Go).  NextAddr: ghost, the bound of a recursion. *)
Inductive cmd : Type -> Type :=
| LoadN (a : addr) : cmd inode
| LoadL (a : addr) : cmd (lnode V)
| StoreN (a : addr) (n : inode) : cmd unit
| StoreL (a : addr) (l : lnode V) : cmd unit
| AllocN (n : inode) : cmd addr
| AllocL (l : lnode V) : cmd addr
| CasChN (a : addr) (c : chan) : cmd chan
| CasChL (a : addr) (c : chan) : cmd chan
| SetChN (a : addr) (c : chan) : cmd unit
| SetChL (a : addr) (c : chan) : cmd unit
| MkChan : cmd chan
| Close (c : chan) : cmd unit
| GetT : cmd txn
| PutT (t : txn) : cmd unit
| LiveN (a : addr) : cmd bool
| LiveL (a : addr) : cmd bool
| NextAddr : cmd nat.

(** CompareAndSwap(nil, c), then the current channel *)
Definition casChN (a : addr) (c : chan) : M (heap V) chan :=
  let! n := hloadN a in
  match n_ch n with Some c0 => ret c0 | None => hstoreN a (set_ch n (Some c)) ;;; ret c end.
Definition casChL (a : addr) (c : chan) : M (heap V) chan :=
  let! l := hloadL a in
  match l_ch l with Some c0 => ret c0 | None => hstoreL a (setl_ch l (Some c)) ;;; ret c end.

Definition sem {B} (c : cmd B) : M (st V) B :=
  match c with
  | LoadN a => loadN a
  | LoadL a => loadL a
  | StoreN a n => storeN a n
  | StoreL a l => storeL a l
  | AllocN n => liftH (hallocN n)
  | AllocL l => liftH (hallocL l)
  | CasChN a c => liftH (casChN a c)
  | CasChL a c => liftH (casChL a c)
  | SetChN a c => liftH (setMutateChN a c)
  | SetChL a c => liftH (setMutateChL a c)
  | MkChan => liftH hmakeChan
  | Close c => liftH (hcloseIfOpen c)
  | GetT => getT
  | PutT t => putT t
  | LiveN a => fun s => (Ok (bool_decide (is_Some (h_nodes (s_h s) !! a))), s)
  | LiveL a => fun s => (Ok (bool_decide (is_Some (h_leaves (s_h s) !! a))), s)
  | NextAddr => fun s => (Ok (walk_fuel (s_h s)), s)
  end.

Inductive prog (A : Type) : Type :=
| PRet (o : outcome A)
| Do (B : Type) (c : cmd B) (k : B -> prog A).
Global Arguments PRet {A}.
Global Arguments Do {A B}.

Fixpoint pbind {A B} (p : prog A) (f : A -> prog B) : prog B :=
  match p with
  | PRet (Ok a) => f a
  | PRet Panic => PRet Panic
  | PRet NoFuel => PRet NoFuel
  | Do c k => Do c (fun b => pbind (k b) f)
  end.
(** Run a program alone. *)
Fixpoint run {A} (p : prog A) : M (st V) A :=
  match p with
  | PRet o => lift o
  | Do c k => bind (sem c) (fun b => run (k b))
  end.

Definition pret {A} (a : A) : prog A := PRet (Ok a).
Definition ppanic {A} : prog A := PRet Panic.
Definition pnofuel {A} : prog A := PRet NoFuel.
Definition plift {A} (o : outcome A) : prog A := PRet o.
Definition pdo {B} (c : cmd B) : prog B := Do c pret.
Local Notation "'let!' x ':=' m 'in' k" := (pbind m (fun x => k))
  (at level 200, x name, m at level 100, k at level 200, right associativity).
Local Notation "'let!' ' p ':=' m 'in' k" := (pbind m (fun x => match x with p => k end))
  (at level 200, p strict pattern, m at level 100, k at level 200, right associativity).
Local Notation "m ';;;' k" := (pbind m (fun _ => k)) (at level 199, right associativity).

Definition ploadN (a : addr) : prog inode := pdo (LoadN a).
Definition ploadL (a : addr) : prog (lnode V) := pdo (LoadL a).
Definition pstoreN (a : addr) (n : inode) : prog unit := pdo (StoreN a n).
Definition pstoreL (a : addr) (l : lnode V) : prog unit := pdo (StoreL a l).
Definition pallocN (n : inode) : prog addr := pdo (AllocN n).
Definition pallocL (l : lnode V) : prog addr := pdo (AllocL l).
Definition pmakeChan : prog chan := pdo MkChan.
Definition pclose (c : chan) : prog unit := pdo (Close c).
Definition pgetT : prog txn := pdo GetT.
Definition pputT (t : txn) : prog unit := pdo (PutT t).
Definition pliveN (a : addr) : prog bool := pdo (LiveN a).
Definition pliveL (a : addr) : prog bool := pdo (LiveL a).
Definition pfuel : prog nat := pdo NextAddr.

(** getMutateCh (node_4.go:151-166, node_16.go:151-166, node_48.go:160-175, node_256.go:150-165, node_leaf.go:154-172):
    load, else create and compare-and-swap. *)
Definition pgetMutateChN (a : addr) : prog chan :=
  let! n := ploadN a in
  match n_ch n with
  | Some c => pret c
  | None => let! c := pmakeChan in pdo (CasChN a c)
  end.
Definition pgetMutateChL (a : addr) : prog chan :=
  let! l := ploadL a in
  match l_ch l with
  | Some c => pret c
  | None => let! c := pmakeChan in pdo (CasChL a c)
  end.
(** setMutateCh (node_4.go:196-198 and copies) *)
Definition psetMutateChN (a : addr) (c : chan) : prog unit := pdo (SetChN a c).
Definition psetMutateChL (a : addr) (c : chan) : prog unit := pdo (SetChL a c).

(** clone of inner nodes: node_4.go:90-110, node_16.go:91-111, node_48.go:99-119, node_256.go:99-118 *)
Definition pcloneN (a : addr) (keepWatch : bool) : prog addr :=
  let! c := (if keepWatch then let! c := pgetMutateChN a in pret (Some c) else pret None) in
  let! n := ploadN a in
  pallocN (set_ch (set_partial n (clonePartial (n_partial n))) c).
(** clone of leaves: node_leaf.go:121-132 *)
Definition pcloneL (a : addr) (keepWatch : bool) : prog addr :=
  let! c := (if keepWatch then let! c := pgetMutateChL a in pret (Some c) else pret None) in
  let! l := ploadL a in
  pallocL (setl_ch l c).

(** helpers.go:200-252 minimum *)
Fixpoint pminimum (fuel : nat) (o : option addr) : prog (option addr) :=
  match fuel with
  | O => pnofuel
  | S fuel' =>
      match o with
      | None => pret None
      | Some a =>
          let! n := ploadN a in
          if isLeafN n then pret (n_leaf n) else
          match n_leaf n with
          | Some l => pret (Some l)
          | None => let! c := plift (minChild n) in
                    match c with None => pret None | Some _ => pminimum fuel' c end
          end
      end
  end.
(** helpers.go:173-198 prefixMismatch(n, key, len(key), depth) *)
Definition pprefixMismatch (a : addr) (n : inode) (key : bytes) (depth : nat) : prog nat :=
  let maxCmp := (maxPrefixLen `min` n_plen n) `min` (length key - depth) in
  let! idx := plift (cmp_loop maxCmp 0 maxCmp (n_partial n) key depth) in
  if Nat.ltb idx maxCmp then pret idx else
  if Nat.ltb maxPrefixLen (n_plen n) then
    let! f := pfuel in
    let! lo := pminimum f (Some a) in
    match lo with
    | None => pret idx
    | Some la =>
        let! l := ploadL la in
        let maxCmp := (length (l_key l) `min` length key) - depth in
        plift (cmp_loop maxCmp idx maxCmp (drop depth (l_key l)) key depth)
    end
  else pret idx.

(** [t.tree.maxNodeId++] and its new value *)
Definition pnextId : prog nat :=
  let! t := pgetT in
  pputT (set_t_max t (S (t_max t))) ;;; pret (S (t_max t)).

(** txn.go:570-589 trackChannel, for an inner node and for a leaf (the nil case is at the call sites).
    A dangling address (impossible in Go) is ignored here. *)
Definition paddTracked (c : chan) : prog unit :=
  let! t := pgetT in pputT (set_t_chs t (t_chs t ++ [c])).
Definition ptrackN (a : addr) : prog unit :=
  let! t := pgetT in
  let! live := pliveN a in
  if t_track t && live then
    let! c := (pgetMutateChN a) in
    paddTracked c ;;;
    let! c' := pmakeChan in
    (psetMutateChN a c')
  else pret tt.
Definition ptrackL (a : addr) : prog unit :=
  let! t := pgetT in
  let! live := pliveL a in
  if t_track t && live then
    let! c := (pgetMutateChL a) in
    paddTracked c ;;;
    let! c' := pmakeChan in
    (psetMutateChL a c')
  else pret tt.
Definition ptrackOptL (o : option addr) : prog unit :=
  match o with Some l => ptrackL l | None => pret tt end.
Fixpoint ptrackAllN (l : list addr) : prog unit :=
  match l with [] => pret tt | a :: l' => ptrackN a ;;; ptrackAllN l' end.

(** txn.go:24-38 writeNode on an inner node *)
Definition pwriteNode (a : addr) (trackCh : bool) : prog addr :=
  (if trackCh then
     ptrackN a ;;;
     let! n := ploadN a in ptrackOptL (n_leaf n)
   else pret tt) ;;;
  let! n := ploadN a in
  let! t := pgetT in
  if Nat.ltb (t_oldmax t) (n_id n) then pret a
  else
    let! a' := (pcloneN a (negb trackCh)) in
    let! i := pnextId in
    let! n' := ploadN a' in
    pstoreN a' (set_id n' i) ;;;
    pret a'.

(** txn.go:24-38 writeNode on a leaf (getNodeLeaf of a leaf is nil, node_leaf.go:190-192) *)
Definition pwriteLeaf (a : addr) (trackCh : bool) : prog addr :=
  (if trackCh then ptrackL a else pret tt) ;;;
  let! l := ploadL a in
  let! t := pgetT in
  if Nat.ltb (t_oldmax t) (l_id l) then pret a
  else
    let! a' := (pcloneL a (negb trackCh)) in
    let! i := pnextId in
    let! l' := ploadL a' in
    pstoreL a' (setl_id l' i) ;;;
    pret a'.

(** txn.go:541-564 allocNode *)
Definition pallocNode (k : kind) : prog addr :=
  let! i := pnextId in
  (pallocN (set_plen (set_partial (set_id (zero_node k) i) (replicate maxPrefixLen 0)) maxPrefixLen)).
Definition pallocLeaf : prog addr :=
  let! i := pnextId in
  (pallocL (mkL i go_zero [] None)).

Definition pupdN (a : addr) (f : inode -> outcome inode) : prog unit :=
  let! n := ploadN a in
  let! n' := plift (f n) in
  pstoreN a n'.
Definition psetNodeLeaf (a : addr) (l : option addr) : prog unit := pupdN a (fun n => Ok (set_leaf n l)).
Definition psetChild (a : addr) (i : nat) (c : option addr) : prog unit := pupdN a (fun n => setChildN n i c).
Definition psetKV (l : addr) (k : bytes) (v : V) : prog unit :=
  let! x := ploadL l in pstoreL l (setl_key (setl_val x v) k).

(** txn.go:519-539 makeLeaf: a fresh leaf inside a fresh Node4 (both get a second id). *)
Definition pmakeLeaf (key : bytes) (value : V) : prog addr :=
  let! l := pallocLeaf in
  let! i := pnextId in
  let! x := ploadL l in
  pstoreL l (setl_key (setl_val (setl_id x i) value) key) ;;;
  let! n4 := pallocNode K4 in
  psetNodeLeaf n4 (Some l) ;;;
  let! j := pnextId in
  pupdN n4 (fun n => Ok (set_id n j)) ;;;
  pret n4.

(** helpers.go:81-84, 110-113, 137-140, 454-457, 475-478, 503-506: the leaf of [n] is written (tracked and
    copied if needed) and put into [newNode]. *)
Definition pmoveLeaf (newNode : addr) (leaf : option addr) : prog unit :=
  match leaf with
  | None => pret tt
  | Some l => let! nl := pwriteLeaf l true in psetNodeLeaf newNode (Some nl)
  end.

(** helpers.go:151-156 addChild256 *)
Definition paddChild256 (a : addr) (c : byte) (child : addr) : prog addr :=
  pupdN a (fun n => insert256 n c child) ;;; pret a.

(** helpers.go:124-149 addChild48 *)
Definition paddChild48 (a : addr) (c : byte) (child : addr) : prog addr :=
  let! n := ploadN a in
  if Nat.ltb (n_nch n) 48 then
    pupdN a (fun n => insert48 n c child) ;;; pret a
  else
    let! nn := pallocNode K256 in
    pmoveLeaf nn (n_leaf n) ;;;
    pupdN nn (fun d => fill256 d n (seq 0 256)) ;;;
    pupdN nn (fun d => copyHeader d n) ;;;
    paddChild256 nn c child.

(** helpers.go:92-122 addChild16 *)
Definition paddChild16 (a : addr) (c : byte) (child : addr) : prog addr :=
  let! n := ploadN a in
  if Nat.ltb (n_nch n) 16 then
    pupdN a (fun n => insertSorted n c child) ;;; pret a
  else
    let! nn := pallocNode K48 in
    pmoveLeaf nn (n_leaf n) ;;;
    pupdN nn (fun d => Ok (set_children d (go_copy (n_children d) 0 (take (n_nch n) (n_children n))))) ;;;
    pupdN nn (fun d => fill48 d n (seq 0 (n_nch n))) ;;;
    pupdN nn (fun d => copyHeader d n) ;;;
    paddChild48 nn c child.

(** helpers.go:62-90 addChild4 *)
Definition paddChild4 (a : addr) (c : byte) (child : addr) : prog addr :=
  let! n := ploadN a in
  if Nat.ltb (n_nch n) 4 then
    pupdN a (fun n => insertSorted n c child) ;;; pret a
  else
    let! nn := pallocNode K16 in
    pmoveLeaf nn (n_leaf n) ;;;
    pupdN nn (fun d => Ok (set_children d (go_copy (n_children d) 0 (take (n_nch n) (n_children n))))) ;;;
    pupdN nn (fun d => Ok (set_keys d (go_copy (n_keys d) 0 (take (n_nch n) (n_keys n))))) ;;;
    pupdN nn (fun d => copyHeader d n) ;;;
    paddChild16 nn c child.

(** helpers.go:46-60 addChild *)
Definition paddChild (a : addr) (c : byte) (child : addr) : prog addr :=
  let! n := ploadN a in
  match n_kind n with
  | K4 => paddChild4 a c child
  | K16 => paddChild16 a c child
  | K48 => paddChild48 a c child
  | K256 => paddChild256 a c child
  end.

(** helpers.go:372-421 removeChild4.  [n.getArtNodeType() != leafType] (line 400) is always true here. *)
Definition premoveChild4 (a : addr) (c : byte) : prog addr :=
  let! n := ploadN a in
  let! '(stale, n1) := plift (removeSorted n c) in
  ptrackAllN stale ;;;
  let! n0 := ploadN a in
  pstoreN a (set_ch n1 (n_ch n0)) ;;;
  let! n := ploadN a in
  if Nat.eqb (n_nch n) 1 && match n_leaf n with None => true | Some _ => false end then
    let! ch0 := plift (getChild n 0) in
    match ch0 with
    | None => ppanic
    | Some ch =>
        let! nr := pwriteNode ch false in
        let! n := ploadN a in
        let! child := ploadN nr in
        let! '(part, child') := plift (mergePrefix n child) in
        pstoreN a (set_partial n part) ;;;
        pstoreN nr child' ;;;
        ptrackN a ;;;
        pret nr
    end
  else pret a.

(** helpers.go:423-462 removeChild16.  The leaf written at lines 454-457 is overwritten at line 458 by the
    leaf of [n]. *)
Definition premoveChild16 (a : addr) (c : byte) : prog addr :=
  let! n := ploadN a in
  let! '(stale, n1) := plift (removeSorted n c) in
  ptrackAllN stale ;;;
  let! n0 := ploadN a in
  pstoreN a (set_ch n1 (n_ch n0)) ;;;
  let! n := ploadN a in
  if Nat.eqb (n_nch n) 3 then
    ptrackN a ;;;
    let! nn := pallocNode K4 in
    pupdN nn (fun d => copyHeader d n) ;;;
    pupdN nn (fun d => Ok (set_keys d (go_copy (n_keys d) 0 (take 4 (n_keys n))))) ;;;
    pupdN nn (fun d => Ok (set_children d (go_copy (n_children d) 0 (take 4 (n_children n))))) ;;;
    pmoveLeaf nn (n_leaf n) ;;;
    psetNodeLeaf nn (n_leaf n) ;;;
    pret nn
  else pret a.

(** helpers.go:464-491 removeChild48.  [pos-1] is computed in uint8, so an absent byte (pos = 0) gives
    index 255, which panics. *)
Definition premoveChild48 (a : addr) (c : byte) : prog addr :=
  let! n := ploadN a in
  let! pos := plift (getKeyAtIdx n c) in
  pupdN a (fun n => setKeyAtIdx n c 0) ;;;
  let! old := plift (getChild n (u8_decr pos)) in
  match old with Some ch => ptrackN ch | None => pret tt end ;;;
  pupdN a (fun n => setChildN n (u8_decr pos) None) ;;;
  pupdN a (fun n => Ok (set_nch n (u8_decr (n_nch n)))) ;;;
  let! n := ploadN a in
  if Nat.eqb (n_nch n) 12 then
    let! nn := pallocNode K16 in
    ptrackN a ;;;
    pupdN nn (fun d => copyHeader d n) ;;;
    pmoveLeaf nn (n_leaf n) ;;;
    pupdN nn (fun d => fill16 d n 0 (seq 0 256)) ;;;
    pret nn
  else pret a.

(** helpers.go:493-518 removeChild256 *)
Definition premoveChild256 (a : addr) (c : byte) : prog addr :=
  pupdN a (fun n => setChildN n c None) ;;;
  pupdN a (fun n => Ok (set_nch n (u8_decr (n_nch n)))) ;;;
  let! n := ploadN a in
  if Nat.eqb (n_nch n) 37 then
    let! nn := pallocNode K48 in
    pupdN nn (fun d => copyHeader d n) ;;;
    ptrackN a ;;;
    pmoveLeaf nn (n_leaf n) ;;;
    pupdN nn (fun d => fill48from256 d n 0 (seq 0 256)) ;;;
    pret nn
  else pret a.

(** helpers.go:357-370 removeChild *)
Definition premoveChild (a : addr) (c : byte) : prog addr :=
  let! n := ploadN a in
  match n_kind n with
  | K4 => premoveChild4 a c
  | K16 => premoveChild16 a c
  | K48 => premoveChild48 a c
  | K256 => premoveChild256 a c
  end.

Definition pbyteAt (k : bytes) (i : nat) : prog byte :=
  match k !! i with Some b => pret b | None => ppanic end.

(** [copy(dst.partial, src)] *)
Definition pcopyPartial (a : addr) (src : bytes) : prog unit :=
  pupdN a (fun n => Ok (set_partial n (go_copy (n_partial n) 0 src))).

(** txn.go:97-262 recursiveInsert.  Result: (node, value, mutated, *old == 1); the Go function sets [*old]
    only on the path that returns through line 122, so it is a component of the result here.
    The slice expressions key[depth:depth+min(..)] (line 138) and l.key[..] (line 233) are bounded by the
    length instead of the capacity of the slice (simplification: within the length they agree). *)
Fixpoint precursiveInsert (fuel : nat) (node : addr) (key : bytes) (value : V) (depth : nat)
  : prog (addr * V * bool * bool) :=
  match fuel with
  | O => pnofuel
  | S fuel' =>
  let! t := pgetT in
  if (t_tsize t =? 0)%N then                                                     (* line 100 *)
    let! node := pwriteNode node true in
    let! newLeaf := pallocLeaf in
    psetKV newLeaf key value ;;;
    psetNodeLeaf node (Some newLeaf) ;;;
    pret (node, go_zero, true, false)
  else
  let! n := ploadN node in
  match n_leaf n with
  | Some nodeLeaf =>
    let! nl := ploadL nodeLeaf in
    if isLeafN n then                                                            (* line 110 *)
      let nodeKey := l_key nl in
      if Nat.eqb (length key) (length nodeKey) && bytes_eqb nodeKey key then     (* line 114 *)
        let oldVal := l_val nl in
        let! node := pwriteNode node true in
        let! newLeaf := pallocLeaf in
        psetKV newLeaf key value ;;;
        psetNodeLeaf node (Some newLeaf) ;;;
        pret (node, oldVal, true, true)
      else
        let! newLeaf2 := pmakeLeaf key value in                                   (* line 126 *)
        let! nl2 := ploadN newLeaf2 in
        ptrackN node ;;;
        let! node := pwriteNode node false in
        let! longestPrefix := plift (longestCommonPrefix key nodeKey depth) in
        let! newNode := pallocNode K4 in
        pupdN newNode (fun n => Ok (set_plen n longestPrefix)) ;;;
        (if Nat.ltb (length key) (depth + (maxPrefixLen `min` longestPrefix)) then ppanic else
         pcopyPartial newNode (slice key depth (depth + (maxPrefixLen `min` longestPrefix)))) ;;;
        let! newNode :=
          (if has_prefix (getKey nodeKey) (getKey key) then                      (* line 140 *)
             ptrackL nodeLeaf ;;;
             psetNodeLeaf newNode (n_leaf nl2) ;;;
             let! c := pbyteAt nodeKey (depth + longestPrefix) in
             paddChild newNode c node
           else if has_prefix (getKey key) (getKey nodeKey) then                 (* line 146 *)
             psetNodeLeaf newNode (Some nodeLeaf) ;;;
             let! c := pbyteAt key (depth + longestPrefix) in
             paddChild newNode c newLeaf2
           else                                                                  (* lines 152-159 *)
             let! newNode :=
               (if Nat.ltb (depth + longestPrefix) (length nodeKey) then
                  let! c := pbyteAt nodeKey (depth + longestPrefix) in
                  paddChild newNode c node
                else pret newNode) in
             if Nat.ltb (depth + longestPrefix) (length key) then
               let! c := pbyteAt key (depth + longestPrefix) in
               paddChild newNode c newLeaf2
             else pret newNode) in
        pret (newNode, go_zero, true, false)
    else if leafMatches (l_key nl) key then                                      (* line 165 *)
      let! newLeaf := pwriteLeaf nodeLeaf true in
      let! x := ploadL newLeaf in
      pstoreL newLeaf (setl_val x value) ;;;
      let! node := pwriteNode node true in
      psetNodeLeaf node (Some newLeaf) ;;;
      pret (node, go_zero, true, false)
    else pinsertInner fuel' node key value depth
  | None => pinsertInner fuel' node key value depth
  end
  end

(** txn.go:173-262: the part of recursiveInsert below the leaf cases. *)
with pinsertInner (fuel : nat) (node : addr) (key : bytes) (value : V) (depth : nat)
  : prog (addr * V * bool * bool) :=
  match fuel with
  | O => pnofuel
  | S fuel' =>
  let! n := ploadN node in
  if Nat.ltb 0 (n_plen n) then                                                   (* line 174 *)
    let! prefixDiff := pprefixMismatch node n key depth in
    if Nat.leb (n_plen n) prefixDiff then                                        (* line 177 *)
      let depth := depth + n_plen n in
      let! '(child, idx) :=
        (if Nat.ltb depth (length key) then
           let! c := pbyteAt key depth in plift (findChild n c)
         else pret (None, 0)) in
      match child with
      | Some child =>
          let! '(newChild, val, mutatedSubTree, old) := precursiveInsert fuel' child key value (depth + 1) in
          let! node :=
            (if mutatedSubTree || negb (Nat.eqb newChild child) then
               ptrackN node ;;;
               let! node := pwriteNode node false in
               psetChild node idx (Some newChild) ;;;
               pret node
             else pret node) in
          pret (node, val, mutatedSubTree, old)
      | None =>
          let! newLeaf := pmakeLeaf key value in                                  (* line 192 *)
          let! bad :=
            (match n_leaf n with
             | Some nla => let! nl := ploadL nla in
                 pret (negb (Nat.eqb (length (l_key nl)) 0) && has_prefix (getKey (l_key nl)) (getKey key))
             | None => pret false
             end) in
          if bad then                                                            (* lines 196-203 *)
            ptrackN node ;;;
            let! node := pwriteNode node false in
            let! newNode := pallocNode K4 in
            ppanic       (* line 200: newLeaf is a *Node4, the assertion to *NodeLeaf fails *)
          else
            ptrackN node ;;;
            let! node := pwriteNode node false in
            let! node :=
              (if Nat.ltb depth (length key) then
                 let! c := pbyteAt key depth in paddChild node c newLeaf
               else pret node) in
            pret (node, go_zero, true, false)
      end
    else                                                                         (* line 215 *)
      let! newNode := pallocNode K4 in
      pupdN newNode (fun m => Ok (set_plen m prefixDiff)) ;;;
      (if Nat.ltb (length (n_partial n)) (maxPrefixLen `min` prefixDiff) then ppanic else
       pcopyPartial newNode (take (maxPrefixLen `min` prefixDiff) (n_partial n))) ;;;
      ptrackN node ;;;
      let! node := pwriteNode node false in
      let! n := ploadN node in
      let! newNode :=
        (if Nat.leb (n_plen n) maxPrefixLen then                                 (* line 223 *)
           let! c := pbyteAt (n_partial n) prefixDiff in
           let! newNode := paddChild newNode c node in
           let plen' := n_plen n - (prefixDiff + 1) in
           pupdN node (fun m => Ok (set_plen m plen')) ;;;
           let len := maxPrefixLen `min` plen' in
           (if Nat.ltb (length (n_partial n)) (prefixDiff + 1 + len) then ppanic else
            pcopyPartial node (slice (n_partial n) (prefixDiff + 1) (prefixDiff + 1 + len))) ;;;
           pret newNode
         else                                                                    (* line 228 *)
           let plen' := n_plen n - (prefixDiff + 1) in
           pupdN node (fun m => Ok (set_plen m plen')) ;;;
           let! f := pfuel in
           let! lo := pminimum f (Some node) in
           match lo with
           | None => ppanic
           | Some la =>
               let! l := ploadL la in
               let! c := pbyteAt (l_key l) (depth + prefixDiff) in
               let! newNode := paddChild newNode c node in
               let len := maxPrefixLen `min` plen' in
               (if Nat.ltb (length (l_key l)) (depth + prefixDiff + 1 + len) then ppanic else
                pcopyPartial node (slice (l_key l) (depth + prefixDiff + 1) (depth + prefixDiff + 1 + len))) ;;;
               pret newNode
           end) in
      let! newLeaf := pmakeLeaf key value in                                      (* line 236 *)
      let! newNode :=
        (if Nat.ltb (depth + prefixDiff) (length key) then
           let! c := pbyteAt key (depth + prefixDiff) in
           paddChild newNode c newLeaf
         else pret newNode) in
      pret (newNode, go_zero, true, false)
  else                                                                           (* line 243 *)
    let! c := pbyteAt key depth in
    let! '(child, idx) := plift (findChild n c) in
    match child with
    | Some child =>
        let! '(newChild, val, mutatedSubTree, old) := precursiveInsert fuel' child key value (depth + 1) in
        let! node :=
          (if mutatedSubTree || negb (Nat.eqb newChild child) then
             ptrackN node ;;;
             let! node := pwriteNode node false in
             psetChild node idx (Some newChild) ;;;
             pret node
           else pret node) in
        pret (node, val, mutatedSubTree, old)
    | None =>
        let! newLeaf := pmakeLeaf key value in
        if Nat.ltb depth (length key) then
          ptrackN node ;;;
          let! node := pwriteNode node false in
          let! node := paddChild node c newLeaf in
          pret (node, go_zero, true, false)
        else pret (node, go_zero, false, false)
    end
  end.

(** txn.go:86-95 Txn.Insert *)
Definition ptxnInsert (key : bytes) (value : V) : prog (V * bool) :=
  let tk := getTreeKey key in
  let! t := pgetT in
  let! '(newRoot, oldVal, _, old) := precursiveInsert (insert_fuel tk) (t_root t) tk value 0 in
  let! t := pgetT in
  let t := if old then t else set_t_tsize (set_t_size t (u64_incr (t_size t))) (u64_incr (t_tsize t)) in
  pputT (set_t_root t newRoot) ;;;
  pret (oldVal, old).

(** txn.go:289-353 recursiveDelete.  Results: new node (nil = [None]), the removed leaf as a Node value,
    and the mutate flag.  Line 298: getKey of an inner node is the empty slice. *)
Fixpoint precursiveDelete (fuel : nat) (node : option addr) (key : bytes) (depth : nat)
  : prog (option addr * option ref * bool) :=
  match fuel with
  | O => pnofuel
  | S fuel' =>
  match node with
  | None => pret (None, None, false)
  | Some node =>
  let! n := ploadN node in
  (if isLeafN n then ptrackN node else pret tt) ;;;
  if isLeafN n && leafMatches [] key then pret (None, Some (RN node), true)        (* line 298 *)
  else
  let! hit :=
    (match n_leaf n with
     | Some nodeL => let! nl := ploadL nodeL in
                     pret (if leafMatches (l_key nl) key then Some nodeL else None)
     | None => pret None
     end) in
  match hit with
  | Some nodeL =>                                                                (* lines 304-315 *)
      let! node := pwriteNode node true in
      psetNodeLeaf node None ;;;
      let! n := ploadN node in
      if Nat.ltb 0 (n_nch n) then pret (Some node, Some (RL nodeL), true)
      else pret (None, Some (RL nodeL), false)
  | None =>
      let! bail :=
        (if Nat.ltb 0 (n_plen n) then                                            (* line 318 *)
           let! prefixLen := plift (checkPrefix (n_partial n) (n_plen n) key depth) in
           pret (negb (Nat.eqb prefixLen (maxPrefixLen `min` n_plen n)))
         else pret false) in
      if bail then pret (Some node, None, false)
      else
      let depth := depth + n_plen n in
      let! c := pbyteAt key depth in                                              (* line 327 *)
      let! '(child, idx) := plift (findChild n c) in
      match child with
      | None => pret (None, None, false)                                          (* line 329 *)
      | Some child =>
          let! '(newChild, val, mutate) := precursiveDelete fuel' (Some child) key (depth + 1) in
          let! node :=
            (if negb (opt_addr_eqb newChild (Some child)) || is_some val then     (* line 335 *)
               ptrackN node ;;;
               let! node := pwriteNode node false in
               psetChild node idx newChild ;;;
               match newChild with
               | None => premoveChild node c
               | Some _ => pret node
               end
             else pret node) in
          let! n := ploadN node in
          if Nat.eqb (n_nch n) 0 then                                            (* line 344 *)
            if is_some (n_leaf n) then pret (Some node, val, mutate) else pret (None, val, mutate)
          else pret (Some node, val, mutate)
      end
  end
  end
  end.

(** The empty root installed by txn.go:269-275 and 423-429.  The counter of ids, a field of the Txn that only this goroutine
    uses, is raised before the two cells are created instead of after (not visible to the others). *)
Definition pinstallEmptyRoot : prog unit :=
  let! t := pgetT in
  pputT (set_t_max t (t_max t + 2)) ;;;
  let! l := (pallocL (mkL (t_max t + 1) go_zero [] None)) in
  let! r := (pallocN (set_leaf (set_id (zero_node K4) (t_max t)) (Some l))) in
  let! t := pgetT in
  pputT (set_t_root t r).

(** txn.go:264-287 Txn.Delete *)
Definition ptxnDelete (key : bytes) : prog (V * bool) :=
  let tk := getTreeKey key in
  let! t := pgetT in
  let! '(newRoot, l, _) := precursiveDelete (delete_fuel tk) (Some (t_root t)) tk 0 in
  (match newRoot with
   | None => pinstallEmptyRoot
   | Some r => let! t := pgetT in pputT (set_t_root t r)
   end) ;;;
  match l with
  | Some x =>
      let! t := pgetT in
      ptrackN (t_root t) ;;;
      let! t := pgetT in
      pputT (set_t_tsize (set_t_size t (u64_sub (t_size t) 1)) (u64_sub (t_tsize t) 1)) ;;;
      match x with
      | RL la => let! lf := ploadL la in pret (l_val lf, true)
      | RN _ => pret (go_zero, true)        (* getValue of an inner node is the zero value *)
      end
  | None => pret (go_zero, false)
  end.

(** txn.go:444-517 deletePrefix.  The depth (lines 461-466) does not influence the result; checkPrefix is
    still executed because it may panic. *)
Fixpoint pdeletePrefix (fuel : nat) (node : option addr) (key : bytes) (depth : nat)
  : prog (option addr * nat) :=
  match fuel with
  | O => pnofuel
  | S fuel' =>
  match node with
  | None => pret (None, 0)
  | Some node =>
  let! n := ploadN node in
  if isLeafN n then
    match n_leaf n with
    | Some nL =>
        let! nl := ploadL nL in
        if has_prefix (getKey (l_key nl)) (getKey key) then
          ptrackN node ;;; ptrackL nL ;;; pret (None, 1)
        else pret (Some node, 0)
    | None => pret (Some node, 0)
    end
  else
  let! depth :=
    (if Nat.ltb 0 (n_plen n) then
       let! prefixLen := plift (checkPrefix (n_partial n) (n_plen n) key depth) in
       pret (if Nat.ltb prefixLen (maxPrefixLen `min` length (getKey key)) then depth + prefixLen else depth)
     else pret depth) in
  let! numDel :=
    (match n_leaf n with
     | Some nL =>
         let! nl := ploadL nL in
         if has_prefix (getKey (l_key nl)) (getKey key) then ptrackL nL ;;; pret 1 else pret 0
     | None => pret 0
     end) in
  let! '(m, numDel) :=
    (fix loop (chs : list (option addr)) (idx : nat) (m : list (nat * option addr)) (numDel : nat)
       : prog (list (nat * option addr) * nat) :=
       match chs with
       | [] => pret (m, numDel)
       | None :: chs' => loop chs' (idx + 1) m numDel
       | Some ch :: chs' =>
           let! '(newCh, del) := pdeletePrefix fuel' (Some ch) key (depth + 1) in
           (if Nat.ltb 0 del then ptrackN ch else pret tt) ;;;
           loop chs' (idx + 1) (m ++ [(idx, newCh)]) (numDel + del)
       end) (n_children n) 0 [] numDel in
  let! node := pwriteNode node true in
  let! n := ploadN node in
  let! '(n', slow, numCh) := plift (compact_loop m n 0 0 (seq 0 (n_nch n))) in
  pstoreN node (set_nch (set_children n' (clear_from (n_children n') slow)) (u8 numCh)) ;;;
  pret (Some node, numDel)
  end
  end.

(** txn.go:419-442 Txn.DeletePrefix *)
Definition ptxnDeletePrefix (prefix : bytes) : prog bool :=
  let key := getTreeKey prefix in
  let! t := pgetT in
  let! f := pfuel in
  let! '(newRoot, numDeletions) := pdeletePrefix f (Some (t_root t)) key 0 in
  (match newRoot with
   | None => pinstallEmptyRoot
   | Some r => let! t := pgetT in pputT (set_t_root t r)
   end) ;;;
  if Nat.eqb numDeletions 0 then pret false
  else
    let! t := pgetT in
    ptrackN (t_root t) ;;;
    let! t := pgetT in
    let sz := u64_sub (t_tsize t) (N.of_nat numDeletions) in
    pputT (set_t_size (set_t_tsize t sz) sz) ;;;
    pret true.

(** txn.go:404-411 slowNotify and 372-378 Notify (run without interference; see Concurrency.v) *)
Fixpoint pcloseAll (cs : list chan) : prog unit :=
  match cs with [] => pret tt | c :: cs' => pclose c ;;; pcloseAll cs' end.
Definition pslowNotify : prog unit :=
  let! t := pgetT in
  (pcloseAll (t_chs t)) ;;;
  pputT (set_t_chs t []).
Definition pnotify : prog unit :=
  let! t := pgetT in
  if t_track t then pslowNotify else pret tt.

(** txn.go:382-388 Commit *)
Definition pcommit : prog rtree :=
  let! t := pgetT in
  let nt := commitOnly t in
  (if t_track t then pnotify else pret tt) ;;;
  pret nt.

(** txn.go:41-53 RadixTree.Txn; the goroutine's Txn struct is the state that GetT reads *)
Definition pnewTxn (tr : rtree) : prog unit :=
  let! r := pcloneN (r_root tr) true in
  pputT (mkTx r (r_size tr) (r_max tr) (r_size tr) (r_max tr) false []).

(** ** Lookups as programs: tree.go:151-238 iterativeSearch, written as in TreeOps.v *)
Fixpoint pscanChildren (key : bytes) (chs : list (option addr)) : prog (option addr) :=
  match chs with
  | [] => pret None
  | None :: chs' => pscanChildren key chs'
  | Some c :: chs' =>
      let! cn := ploadN c in
      match n_leaf cn with
      | None => pscanChildren key chs'
      | Some la =>
          let! l := ploadL la in
          if leafMatches (l_key l) key then pret (Some la) else pscanChildren key chs'
      end
  end.
Definition pownLeaf (key : bytes) (n : inode) : prog (option addr) :=
  match n_leaf n with
  | None => pret None
  | Some la => let! l := ploadL la in pret (if leafMatches (l_key l) key then Some la else None)
  end.
Definition psearchExit (key : bytes) (a : addr) (n : inode) : prog sres :=
  let! o := pownLeaf key n in
  match o with
  | Some la => pret (Found la)
  | None =>
      let! o := pscanChildren key (n_children n) in
      match o with Some la => pret (Found la) | None => pret (Missing a) end
  end.
Fixpoint psearch (fuel : nat) (a : addr) (key : bytes) (depth : nat) : prog sres :=
  match fuel with
  | O => pnofuel
  | S fuel' =>
      let! n := ploadN a in
      let! early := (if isLeafN n then pownLeaf key n else pret None) in
      match early with
      | Some la => pret (Found la)
      | None =>
          let! prefixLen :=
            (if Nat.ltb 0 (n_plen n) then plift (checkPrefix (n_partial n) (n_plen n) key depth) else pret 0) in
          if Nat.ltb 0 (n_plen n) && negb (Nat.eqb prefixLen (maxPrefixLen `min` n_plen n)) then
            psearchExit key a n
          else
            let depth := depth + n_plen n in
            match key !! depth with
            | None => psearchExit key a n
            | Some c =>
                let! r := plift (findChild n c) in
                match r.1 with
                | None => psearchExit key a n
                | Some ca => psearch fuel' ca key (depth + 1)
                end
            end
      end
  end.
(** tree.go:70-72 Get *)
Definition pgetFrom (root : addr) (key : bytes) : prog (V * bool) :=
  let tk := getTreeKey key in
  let! r := psearch (search_fuel tk) root tk 0 in
  match r with
  | Found la => let! l := ploadL la in pret (l_val l, true)
  | Missing _ => pret (go_zero, false)
  end.
End Prog.

Arguments cmd V : clear implicits.
Arguments prog V A : clear implicits.
