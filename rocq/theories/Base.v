(** Basic infrastructure of the model: outcomes (with Go panics), the state monad, Go slice/array
    primitives, the types of nodes, leaves, heaps, trees and transactions.

    All source references are to /repo at the pinned commit. *)
From stdpp Require Export prelude gmap list numbers.

(** ** Outcomes *)

(** The result of a Go computation.  [Panic] is a run-time panic (index out of range, nil dereference,
    failed type assertion); [NoFuel] means that the fuel of a modelled loop was exhausted: it is never the
    result of a normal run and every theorem excludes it explicitly or proves it impossible. *)
Inductive outcome (A : Type) : Type :=
| Ok (a : A)
| Panic
| NoFuel.
Arguments Ok {A} a.
Arguments Panic {A}.
Arguments NoFuel {A}.

Definition obind {A B} (m : outcome A) (f : A -> outcome B) : outcome B :=
  match m with Ok a => f a | Panic => Panic | NoFuel => NoFuel end.

Notation "'let?' x ':=' m 'in' k" := (obind m (fun x => k))
  (at level 200, x name, m at level 100, k at level 200, right associativity).
Notation "'let?' ' p ':=' m 'in' k" := (obind m (fun x => match x with p => k end))
  (at level 200, p strict pattern, m at level 100, k at level 200, right associativity).

(** State-and-outcome monad.  The state is returned also when the computation panics: a panicking Go
    call keeps the writes it has already done. *)
Definition M (S A : Type) : Type := S -> outcome A * S.

Definition ret {S A} (a : A) : M S A := fun s => (Ok a, s).
Definition bind {S A B} (m : M S A) (f : A -> M S B) : M S B := fun s =>
  match m s with
  | (Ok a, s') => f a s'
  | (Panic, s') => (Panic, s')
  | (NoFuel, s') => (NoFuel, s')
  end.
Definition panic {S A} : M S A := fun s => (Panic, s).
Definition nofuel {S A} : M S A := fun s => (NoFuel, s).
Definition lift {S A} (o : outcome A) : M S A := fun s => (o, s).

Notation "'let!' x ':=' m 'in' k" := (bind m (fun x => k))
  (at level 200, x name, m at level 100, k at level 200, right associativity).
Notation "'let!' ' p ':=' m 'in' k" := (bind m (fun x => match x with p => k end))
  (at level 200, p strict pattern, m at level 100, k at level 200, right associativity).
Notation "m ';;;' k" := (bind m (fun _ => k)) (at level 199, right associativity).

Lemma bind_ok {S A B} (m : M S A) (k : A -> M S B) s a s' : m s = (Ok a, s') -> bind m k s = k a s'.
Proof. intros E. unfold bind. by rewrite E. Qed.
Lemma bind_panic {S A B} (m : M S A) (k : A -> M S B) s s' : m s = (Panic, s') -> bind m k s = (Panic, s').
Proof. intros E. unfold bind. by rewrite E. Qed.
Lemma bind_nofuel {S A B} (m : M S A) (k : A -> M S B) s s' : m s = (NoFuel, s') -> bind m k s = (NoFuel, s').
Proof. intros E. unfold bind. by rewrite E. Qed.

(** ** Bytes and Go primitives *)

(** Bytes are natural numbers; a Go [byte] is < 256.  Keys are byte strings. *)
Notation byte := nat (only parsing).
Notation bytes := (list nat) (only parsing).

(** The terminator appended by getTreeKey: '$' = 0x24 (helpers.go:345-347). *)
Definition dollar : byte := 36.

(** tree.go:12 *)
Definition maxPrefixLen : nat := 10.

(** uint8 arithmetic (numChildren is uint8, node_4.go:15). *)
Definition u8 (x : nat) : nat := x mod 256.
Definition u8_incr (x : nat) : nat := u8 (x + 1).
Definition u8_decr (x : nat) : nat := u8 (x + 255).

(** uint64 arithmetic (size, tree.go:26; txn.go:15). *)
Definition u64 (x : N) : N := (x mod 2 ^ 64)%N.
Definition u64_incr (x : N) : N := u64 (x + 1)%N.
Definition u64_sub (x y : N) : N := u64 (x + (2 ^ 64 - y mod 2 ^ 64))%N.

(** Go's builtin [copy(dst[lo:], src)] on a list (no bounds failure when lo <= len dst). *)
Definition go_copy {A} (dst : list A) (lo : nat) (src : list A) : list A :=
  let k := length src `min` (length dst - lo) in
  take lo dst ++ take k src ++ drop (lo + k) dst.

(** The sub-slice [l[lo:hi]] for lo <= hi <= len l. *)
Definition slice {A} (l : list A) (lo hi : nat) : list A := take (hi - lo) (drop lo l).

(** [bytes.HasPrefix(s, p)] of the Go standard library. *)
Fixpoint has_prefix (s p : bytes) : bool :=
  match p, s with
  | [], _ => true
  | _ :: _, [] => false
  | a :: p', b :: s' => if Nat.eqb a b then has_prefix s' p' else false
  end.

(** [bytes.Compare] of the Go standard library. *)
Fixpoint bytes_compare (x y : bytes) : comparison :=
  match x, y with
  | [], [] => Eq
  | [], _ :: _ => Lt
  | _ :: _, [] => Gt
  | a :: x', b :: y' =>
      if Nat.ltb a b then Lt else if Nat.ltb b a then Gt else bytes_compare x' y'
  end.
Definition bytes_eqb (x y : bytes) : bool := match bytes_compare x y with Eq => true | _ => false end.
Definition bytes_leb (x y : bytes) : bool := match bytes_compare x y with Gt => false | _ => true end.
Definition bytes_geb (x y : bytes) : bool := match bytes_compare x y with Lt => false | _ => true end.

(** [sort.Search(n, f)] of the Go standard library: the binary search loop
    [for i < j { h := (i+j)/2; if !f(h) { i = h+1 } else { j = h } }; return i].
    The loop runs at most [j - i] times, so [n] units of fuel suffice. *)
Fixpoint search_loop (fuel i j : nat) (f : nat -> bool) : nat :=
  match fuel with
  | O => i
  | S fuel' =>
      if Nat.ltb i j then
        let h := Nat.div (i + j) 2 in
        if f h then search_loop fuel' i h f else search_loop fuel' (h + 1) j f
      else i
  end.
Definition sort_Search (n : nat) (f : nat -> bool) : nat := search_loop n 0 n f.

(** helpers.go:345-347 getTreeKey: the key with the terminator (as a value; aliasing of the backing
    array is modelled separately in Slices.v). *)
Definition getTreeKey (k : bytes) : bytes := k ++ [dollar].

(** helpers.go:349-355 getKey: drops the last byte. *)
Definition getKey (k : bytes) : bytes := take (length k - 1) k.

(** helpers.go:22-29 leafMatches(nodeKey, key) == 0 *)
Definition leafMatches (nodeKey key : bytes) : bool :=
  if negb (Nat.eqb (length nodeKey) (length key)) then false else bytes_eqb nodeKey key.

(** helpers.go:520-525 hasPrefix *)
Definition hasPrefix (key prefix : bytes) : bool :=
  match prefix with [] => true | _ => has_prefix key prefix end.

(** ** Heap objects *)

Notation addr := nat (only parsing).
Notation chan := nat (only parsing).

(** The static node types (tree.go:14-20) of inner nodes; leaves are a separate record. *)
Inductive kind := K4 | K16 | K48 | K256.
Global Instance kind_eq_dec : EqDecision kind.
Proof. solve_decision. Defined.

(** Length of the children array: node_4.go:18, node_16.go:18, node_48.go:17, node_256.go:15. *)
Definition cap_of (k : kind) : nat := match k with K4 => 4 | K16 => 16 | K48 => 48 | K256 => 256 end.
(** Length of the keys array: node_4.go:17, node_16.go:17, node_48.go:16; Node256 has none. *)
Definition keycap_of (k : kind) : nat := match k with K4 => 4 | K16 => 16 | K48 => 256 | K256 => 0 end.

(** Node4/Node16/Node48/Node256 (node_4.go:12-21, node_16.go:12-21, node_48.go:11-20, node_256.go:10-18).
    [n_children]: children are always inner nodes in this code base (every call of addChild/setChild passes
    an inner node), hence [option addr] of inner nodes.  Simplification: ids (uint64) and partialLen
    (uint32) are unbounded. *)
Record inode := mkN {
  n_kind : kind;
  n_id : nat;
  n_plen : nat;                     (* partialLen *)
  n_nch : nat;                      (* numChildren (uint8) *)
  n_partial : bytes;                (* the partial slice; len = cap, 10 or 0 (nil) *)
  n_keys : list nat;
  n_children : list (option addr);
  n_ch : option chan;               (* mutateCh (nil until first use) *)
  n_leaf : option addr              (* leaf *)
}.

(** NodeLeaf (node_leaf.go:11-16) *)
Record lnode (V : Type) := mkL {
  l_id : nat;
  l_val : V;
  l_key : bytes;
  l_ch : option chan
}.
Arguments mkL {V}.
Arguments l_id {V}.
Arguments l_val {V}.
Arguments l_key {V}.
Arguments l_ch {V}.

(** Go's zero value of the type parameter T. *)
Class GoZero (V : Type) := go_zero : V.
Global Instance nat_go_zero : GoZero nat := 0.

(** The memory: inner nodes, leaves, the next free address, the next fresh channel and the closed
    channels. *)
Record heap (V : Type) := mkH {
  h_nodes : gmap nat inode;
  h_leaves : gmap nat (lnode V);
  h_next : nat;
  h_nextch : nat;
  h_closed : list chan
}.
Arguments mkH {V}.
Arguments h_nodes {V}.
Arguments h_leaves {V}.
Arguments h_next {V}.
Arguments h_nextch {V}.
Arguments h_closed {V}.

Definition h_init {V} : heap V := mkH ∅ ∅ 0 0 [].

(** RadixTree (tree.go:24-28).  A published RadixTree is never assigned to, so it is a value. *)
Record rtree := mkT { r_root : addr; r_size : N; r_max : nat }.

(** Txn (txn.go:12-22) together with its private RadixTree [t.tree]. *)
Record txn := mkTx {
  t_root : addr;       (* t.tree.root *)
  t_tsize : N;         (* t.tree.size *)
  t_max : nat;         (* t.tree.maxNodeId *)
  t_size : N;          (* t.size *)
  t_oldmax : nat;      (* t.oldMaxNodeId *)
  t_track : bool;      (* t.trackMutate *)
  t_chs : list chan    (* t.trackChnSlice *)
}.

Record st (V : Type) := mkS { s_h : heap V; s_t : txn }.
Arguments mkS {V}.
Arguments s_h {V}.
Arguments s_t {V}.

(** A value of the interface type Node[T]: an inner node or a leaf. *)
Inductive ref := RN (a : addr) | RL (a : addr).
Global Instance ref_eq_dec : EqDecision ref.
Proof. solve_decision. Defined.

Global Arguments Nat.ltb : simpl never.
Global Arguments Nat.leb : simpl never.
Global Arguments Nat.eqb : simpl never.
Global Arguments Nat.min : simpl never.
Global Arguments u8 : simpl never.
Global Arguments u64 : simpl never.
Global Arguments go_copy : simpl never.
Global Arguments slice : simpl never.
Global Arguments replicate : simpl never.
Global Arguments getKey : simpl never.
Global Arguments getTreeKey : simpl never.
