(** Operations on the memory: loads, stores, allocation, channels, clone, and the transaction-level
    routines writeNode, trackChannel, allocNode, makeLeaf, addChild*, removeChild*. *)
From Verif Require Export NodeOps.

Section Ops.
Context {V : Type} `{GoZero V}.

(** ** Heap-level operations *)

Notation HM := (M (heap V)).

Definition set_nodes (h : heap V) (x : gmap nat inode) : heap V := mkH x (h_leaves h) (h_next h) (h_nextch h) (h_closed h).
Definition set_leaves (h : heap V) (x : gmap nat (lnode V)) : heap V := mkH (h_nodes h) x (h_next h) (h_nextch h) (h_closed h).
Definition set_closed (h : heap V) (x : list chan) : heap V := mkH (h_nodes h) (h_leaves h) (h_next h) (h_nextch h) x.

(** Dereference; a dangling address (impossible in Go) counts as a nil dereference. *)
Definition hloadN (a : addr) : HM inode := fun h =>
  match h_nodes h !! a with Some n => (Ok n, h) | None => (Panic, h) end.
Definition hloadL (a : addr) : HM (lnode V) := fun h =>
  match h_leaves h !! a with Some l => (Ok l, h) | None => (Panic, h) end.
Definition hstoreN (a : addr) (n : inode) : HM unit := fun h => (Ok tt, set_nodes h (<[a:=n]> (h_nodes h))).
Definition hstoreL (a : addr) (l : lnode V) : HM unit := fun h => (Ok tt, set_leaves h (<[a:=l]> (h_leaves h))).
Definition hallocN (n : inode) : HM addr := fun h =>
  (Ok (h_next h), mkH (<[h_next h:=n]> (h_nodes h)) (h_leaves h) (S (h_next h)) (h_nextch h) (h_closed h)).
Definition hallocL (l : lnode V) : HM addr := fun h =>
  (Ok (h_next h), mkH (h_nodes h) (<[h_next h:=l]> (h_leaves h)) (S (h_next h)) (h_nextch h) (h_closed h)).
(** make(chan struct{}) *)
Definition hmakeChan : HM chan := fun h =>
  (Ok (h_nextch h), mkH (h_nodes h) (h_leaves h) (h_next h) (S (h_nextch h)) (h_closed h)).

Definition setl_ch (l : lnode V) (c : option chan) : lnode V := mkL (l_id l) (l_val l) (l_key l) c.
Definition setl_id (l : lnode V) (i : nat) : lnode V := mkL i (l_val l) (l_key l) (l_ch l).
Definition setl_val (l : lnode V) (v : V) : lnode V := mkL (l_id l) v (l_key l) (l_ch l).
Definition setl_key (l : lnode V) (k : bytes) : lnode V := mkL (l_id l) (l_val l) k (l_ch l).

(** getMutateCh of inner nodes and leaves (node_4.go:151-166, node_16.go:151-166, node_48.go:160-175,
    node_256.go:150-165, node_leaf.go:154-172), run without interference: load, else create and CAS.
    The concurrent behaviour is modelled in Concurrency.v. *)
Definition getMutateChN (a : addr) : HM chan :=
  let! n := hloadN a in
  match n_ch n with
  | Some c => ret c
  | None => let! c := hmakeChan in hstoreN a (set_ch n (Some c)) ;;; ret c
  end.
Definition getMutateChL (a : addr) : HM chan :=
  let! l := hloadL a in
  match l_ch l with
  | Some c => ret c
  | None => let! c := hmakeChan in hstoreL a (setl_ch l (Some c)) ;;; ret c
  end.

(** setMutateCh (node_4.go:196-198 and copies) *)
Definition setMutateChN (a : addr) (c : chan) : HM unit :=
  let! n := hloadN a in hstoreN a (set_ch n (Some c)).
Definition setMutateChL (a : addr) (c : chan) : HM unit :=
  let! l := hloadL a in hstoreL a (setl_ch l (Some c)).

(** [newPartial := make([]byte, maxPrefixLen); copy(newPartial, n.partial)] (node_4.go:100-101) *)
Definition clonePartial (p : bytes) : bytes := go_copy (replicate maxPrefixLen 0) 0 p.

(** clone of inner nodes: node_4.go:90-110, node_16.go:91-111, node_48.go:99-119, node_256.go:99-118.
    With keepWatch the clone shares the (possibly just created) channel of the original. *)
Definition cloneN (a : addr) (keepWatch : bool) : HM addr :=
  let! c := (if keepWatch then let! c := getMutateChN a in ret (Some c) else ret None) in
  let! n := hloadN a in
  hallocN (set_ch (set_partial n (clonePartial (n_partial n))) c).

(** clone of leaves: node_leaf.go:121-132 *)
Definition cloneL (a : addr) (keepWatch : bool) : HM addr :=
  let! c := (if keepWatch then let! c := getMutateChL a in ret (Some c) else ret None) in
  let! l := hloadL a in
  hallocL (setl_ch l c).

(** close(ch) guarded by [!isClosed(ch)] (txn.go:405-409, 592-599) *)
Definition hcloseIfOpen (c : chan) : HM unit := fun h =>
  (Ok tt, if bool_decide (c ∈ h_closed h) then h else set_closed h (c :: h_closed h)).

(** ** Transaction-level operations *)

Notation TM := (M (st V)).

Definition liftH {A} (m : HM A) : TM A := fun s =>
  let '(o, h) := m (s_h s) in (o, mkS h (s_t s)).
Definition getT : TM txn := fun s => (Ok (s_t s), s).
Definition putT (t : txn) : TM unit := fun s => (Ok tt, mkS (s_h s) t).

Definition loadN (a : addr) : TM inode := liftH (hloadN a).
Definition loadL (a : addr) : TM (lnode V) := liftH (hloadL a).
Definition storeN (a : addr) (n : inode) : TM unit := liftH (hstoreN a n).
Definition storeL (a : addr) (l : lnode V) : TM unit := liftH (hstoreL a l).

Definition set_t_root (t : txn) x := mkTx x (t_tsize t) (t_max t) (t_size t) (t_oldmax t) (t_track t) (t_chs t).
Definition set_t_tsize (t : txn) x := mkTx (t_root t) x (t_max t) (t_size t) (t_oldmax t) (t_track t) (t_chs t).
Definition set_t_max (t : txn) x := mkTx (t_root t) (t_tsize t) x (t_size t) (t_oldmax t) (t_track t) (t_chs t).
Definition set_t_size (t : txn) x := mkTx (t_root t) (t_tsize t) (t_max t) x (t_oldmax t) (t_track t) (t_chs t).
Definition set_t_track (t : txn) x := mkTx (t_root t) (t_tsize t) (t_max t) (t_size t) (t_oldmax t) x (t_chs t).
Definition set_t_chs (t : txn) x := mkTx (t_root t) (t_tsize t) (t_max t) (t_size t) (t_oldmax t) (t_track t) x.

(** [t.tree.maxNodeId++] and its new value *)
Definition nextId : TM nat :=
  let! t := getT in
  putT (set_t_max t (S (t_max t))) ;;; ret (S (t_max t)).

(** txn.go:570-589 trackChannel, for an inner node and for a leaf (the nil case is at the call sites).
    A dangling address (impossible in Go) is ignored here. *)
Definition addTracked (c : chan) : TM unit :=
  let! t := getT in putT (set_t_chs t (t_chs t ++ [c])).
Definition trackN (a : addr) : TM unit :=
  let! t := getT in
  let! live := (fun s => (Ok (bool_decide (is_Some (h_nodes (s_h s) !! a))), s)) in
  if t_track t && live then
    let! c := liftH (getMutateChN a) in
    addTracked c ;;;
    let! c' := liftH hmakeChan in
    liftH (setMutateChN a c')
  else ret tt.
Definition trackL (a : addr) : TM unit :=
  let! t := getT in
  let! live := (fun s => (Ok (bool_decide (is_Some (h_leaves (s_h s) !! a))), s)) in
  if t_track t && live then
    let! c := liftH (getMutateChL a) in
    addTracked c ;;;
    let! c' := liftH hmakeChan in
    liftH (setMutateChL a c')
  else ret tt.
Definition trackOptL (o : option addr) : TM unit :=
  match o with Some l => trackL l | None => ret tt end.
Fixpoint trackAllN (l : list addr) : TM unit :=
  match l with [] => ret tt | a :: l' => trackN a ;;; trackAllN l' end.

(** txn.go:24-38 writeNode on an inner node *)
Definition writeNode (a : addr) (trackCh : bool) : TM addr :=
  (if trackCh then
     trackN a ;;;
     let! n := loadN a in trackOptL (n_leaf n)
   else ret tt) ;;;
  let! n := loadN a in
  let! t := getT in
  if Nat.ltb (t_oldmax t) (n_id n) then ret a
  else
    let! a' := liftH (cloneN a (negb trackCh)) in
    let! i := nextId in
    let! n' := loadN a' in
    storeN a' (set_id n' i) ;;;
    ret a'.

(** txn.go:24-38 writeNode on a leaf (getNodeLeaf of a leaf is nil, node_leaf.go:190-192) *)
Definition writeLeaf (a : addr) (trackCh : bool) : TM addr :=
  (if trackCh then trackL a else ret tt) ;;;
  let! l := loadL a in
  let! t := getT in
  if Nat.ltb (t_oldmax t) (l_id l) then ret a
  else
    let! a' := liftH (cloneL a (negb trackCh)) in
    let! i := nextId in
    let! l' := loadL a' in
    storeL a' (setl_id l' i) ;;;
    ret a'.

(** txn.go:541-564 allocNode *)
Definition allocNode (k : kind) : TM addr :=
  let! i := nextId in
  liftH (hallocN (set_plen (set_partial (set_id (zero_node k) i) (replicate maxPrefixLen 0)) maxPrefixLen)).
Definition allocLeaf : TM addr :=
  let! i := nextId in
  liftH (hallocL (mkL i go_zero [] None)).

Definition updN (a : addr) (f : inode -> outcome inode) : TM unit :=
  let! n := loadN a in
  let! n' := lift (f n) in
  storeN a n'.
Definition setNodeLeaf (a : addr) (l : option addr) : TM unit := updN a (fun n => Ok (set_leaf n l)).
Definition setChild (a : addr) (i : nat) (c : option addr) : TM unit := updN a (fun n => setChildN n i c).
Definition setKV (l : addr) (k : bytes) (v : V) : TM unit :=
  let! x := loadL l in storeL l (setl_key (setl_val x v) k).

(** txn.go:519-539 makeLeaf: a fresh leaf inside a fresh Node4 (both get a second id). *)
Definition makeLeaf (key : bytes) (value : V) : TM addr :=
  let! l := allocLeaf in
  let! i := nextId in
  let! x := loadL l in
  storeL l (setl_key (setl_val (setl_id x i) value) key) ;;;
  let! n4 := allocNode K4 in
  setNodeLeaf n4 (Some l) ;;;
  let! j := nextId in
  updN n4 (fun n => Ok (set_id n j)) ;;;
  ret n4.

(** helpers.go:81-84, 110-113, 137-140, 454-457, 475-478, 503-506: the leaf of [n] is written (tracked and
    copied if needed) and put into [newNode]. *)
Definition moveLeaf (newNode : addr) (leaf : option addr) : TM unit :=
  match leaf with
  | None => ret tt
  | Some l => let! nl := writeLeaf l true in setNodeLeaf newNode (Some nl)
  end.

(** helpers.go:151-156 addChild256 *)
Definition addChild256 (a : addr) (c : byte) (child : addr) : TM addr :=
  updN a (fun n => insert256 n c child) ;;; ret a.

(** helpers.go:124-149 addChild48 *)
Definition addChild48 (a : addr) (c : byte) (child : addr) : TM addr :=
  let! n := loadN a in
  if Nat.ltb (n_nch n) 48 then
    updN a (fun n => insert48 n c child) ;;; ret a
  else
    let! nn := allocNode K256 in
    moveLeaf nn (n_leaf n) ;;;
    updN nn (fun d => fill256 d n (seq 0 256)) ;;;
    updN nn (fun d => copyHeader d n) ;;;
    addChild256 nn c child.

(** helpers.go:92-122 addChild16 *)
Definition addChild16 (a : addr) (c : byte) (child : addr) : TM addr :=
  let! n := loadN a in
  if Nat.ltb (n_nch n) 16 then
    updN a (fun n => insertSorted n c child) ;;; ret a
  else
    let! nn := allocNode K48 in
    moveLeaf nn (n_leaf n) ;;;
    updN nn (fun d => Ok (set_children d (go_copy (n_children d) 0 (take (n_nch n) (n_children n))))) ;;;
    updN nn (fun d => fill48 d n (seq 0 (n_nch n))) ;;;
    updN nn (fun d => copyHeader d n) ;;;
    addChild48 nn c child.

(** helpers.go:62-90 addChild4 *)
Definition addChild4 (a : addr) (c : byte) (child : addr) : TM addr :=
  let! n := loadN a in
  if Nat.ltb (n_nch n) 4 then
    updN a (fun n => insertSorted n c child) ;;; ret a
  else
    let! nn := allocNode K16 in
    moveLeaf nn (n_leaf n) ;;;
    updN nn (fun d => Ok (set_children d (go_copy (n_children d) 0 (take (n_nch n) (n_children n))))) ;;;
    updN nn (fun d => Ok (set_keys d (go_copy (n_keys d) 0 (take (n_nch n) (n_keys n))))) ;;;
    updN nn (fun d => copyHeader d n) ;;;
    addChild16 nn c child.

(** helpers.go:46-60 addChild *)
Definition addChild (a : addr) (c : byte) (child : addr) : TM addr :=
  let! n := loadN a in
  match n_kind n with
  | K4 => addChild4 a c child
  | K16 => addChild16 a c child
  | K48 => addChild48 a c child
  | K256 => addChild256 a c child
  end.

(** helpers.go:372-421 removeChild4.  [n.getArtNodeType() != leafType] (line 400) is always true here. *)
Definition removeChild4 (a : addr) (c : byte) : TM addr :=
  let! n := loadN a in
  let! '(stale, n1) := lift (removeSorted n c) in
  trackAllN stale ;;;
  let! n0 := loadN a in
  storeN a (set_ch n1 (n_ch n0)) ;;;
  let! n := loadN a in
  if Nat.eqb (n_nch n) 1 && match n_leaf n with None => true | Some _ => false end then
    let! ch0 := lift (getChild n 0) in
    match ch0 with
    | None => panic
    | Some ch =>
        let! nr := writeNode ch false in
        let! n := loadN a in
        let! child := loadN nr in
        let! '(part, child') := lift (mergePrefix n child) in
        storeN a (set_partial n part) ;;;
        storeN nr child' ;;;
        trackN a ;;;
        ret nr
    end
  else ret a.

(** helpers.go:423-462 removeChild16.  The leaf written at lines 454-457 is overwritten at line 458 by the
    leaf of [n]. *)
Definition removeChild16 (a : addr) (c : byte) : TM addr :=
  let! n := loadN a in
  let! '(stale, n1) := lift (removeSorted n c) in
  trackAllN stale ;;;
  let! n0 := loadN a in
  storeN a (set_ch n1 (n_ch n0)) ;;;
  let! n := loadN a in
  if Nat.eqb (n_nch n) 3 then
    trackN a ;;;
    let! nn := allocNode K4 in
    updN nn (fun d => copyHeader d n) ;;;
    updN nn (fun d => Ok (set_keys d (go_copy (n_keys d) 0 (take 4 (n_keys n))))) ;;;
    updN nn (fun d => Ok (set_children d (go_copy (n_children d) 0 (take 4 (n_children n))))) ;;;
    moveLeaf nn (n_leaf n) ;;;
    setNodeLeaf nn (n_leaf n) ;;;
    ret nn
  else ret a.

(** helpers.go:464-491 removeChild48.  [pos-1] is computed in uint8, so an absent byte (pos = 0) gives
    index 255, which panics. *)
Definition removeChild48 (a : addr) (c : byte) : TM addr :=
  let! n := loadN a in
  let! pos := lift (getKeyAtIdx n c) in
  updN a (fun n => setKeyAtIdx n c 0) ;;;
  let! old := lift (getChild n (u8_decr pos)) in
  match old with Some ch => trackN ch | None => ret tt end ;;;
  updN a (fun n => setChildN n (u8_decr pos) None) ;;;
  updN a (fun n => Ok (set_nch n (u8_decr (n_nch n)))) ;;;
  let! n := loadN a in
  if Nat.eqb (n_nch n) 12 then
    let! nn := allocNode K16 in
    trackN a ;;;
    updN nn (fun d => copyHeader d n) ;;;
    moveLeaf nn (n_leaf n) ;;;
    updN nn (fun d => fill16 d n 0 (seq 0 256)) ;;;
    ret nn
  else ret a.

(** helpers.go:493-518 removeChild256 *)
Definition removeChild256 (a : addr) (c : byte) : TM addr :=
  updN a (fun n => setChildN n c None) ;;;
  updN a (fun n => Ok (set_nch n (u8_decr (n_nch n)))) ;;;
  let! n := loadN a in
  if Nat.eqb (n_nch n) 37 then
    let! nn := allocNode K48 in
    updN nn (fun d => copyHeader d n) ;;;
    trackN a ;;;
    moveLeaf nn (n_leaf n) ;;;
    updN nn (fun d => fill48from256 d n 0 (seq 0 256)) ;;;
    ret nn
  else ret a.

(** helpers.go:357-370 removeChild *)
Definition removeChild (a : addr) (c : byte) : TM addr :=
  let! n := loadN a in
  match n_kind n with
  | K4 => removeChild4 a c
  | K16 => removeChild16 a c
  | K48 => removeChild48 a c
  | K256 => removeChild256 a c
  end.

End Ops.

Global Arguments clonePartial : simpl never.
