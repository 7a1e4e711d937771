(** Go byte slices and their backing arrays, for the question who owns the memory of a key.

    An array is a list of bytes; a slice is a window into an array.  Only what getTreeKey and setKey do with
    the caller's slice is modelled; the tree is reduced to the slices its leaves hold. *)
From Verif Require Export Spec.
From stdpp Require Import gmap list.
Local Open Scope nat_scope.

(** All arrays of the program. *)
Notation memory := (gmap nat bytes).
Record gslice := mkSl { sl_arr : nat; sl_off : nat; sl_len : nat; sl_cap : nat }.
(** A slice the runtime can produce: the window with its spare capacity lies inside its array. *)
Definition slice_ok (M : memory) (s : gslice) : Prop :=
  sl_len s <= sl_cap s /\ exists xs, M !! sl_arr s = Some xs /\ sl_off s + sl_cap s <= length xs.
(** The bytes of the slice. *)
Definition slice_bytes (M : memory) (s : gslice) : bytes :=
  match M !! sl_arr s with Some xs => take (sl_len s) (drop (sl_off s) xs) | None => [] end.
(** [xs[i] = b] by anybody who holds the array. *)
Definition poke (M : memory) (a i : nat) (b : byte) : memory :=
  match M !! a with Some xs => <[a := <[i := b]> xs]> M | None => M end.

(** [append(s, b)]: in place if there is spare capacity, else into a new array.  The array [fresh] must be unused;
    [extra] is the spare capacity the runtime gives to the new array (unspecified by the language). *)
Definition append1 (M : memory) (s : gslice) (b : byte) (fresh extra : nat) : memory * gslice :=
  if Nat.ltb (sl_len s) (sl_cap s) then
    (poke M (sl_arr s) (sl_off s + sl_len s) b, mkSl (sl_arr s) (sl_off s) (S (sl_len s)) (sl_cap s))
  else
    (<[fresh := slice_bytes M s ++ [b] ++ replicate extra 0]> M, mkSl fresh 0 (S (sl_len s)) (S (sl_len s) + extra)).

(** helpers.go:345-347 getTreeKey *)
Definition goTreeKey (M : memory) (key : gslice) (fresh extra : nat) : memory * gslice := append1 M key dollar fresh extra.
(** helpers.go:349-355 getKey: the window without its last byte, same array *)
Definition goKey (key : gslice) : gslice :=
  match sl_len key with 0 => key | S n => mkSl (sl_arr key) (sl_off key) n (sl_cap key) end.

(** The memory side of Insert: txn.go:87 makes the tree key, setKey (node_leaf.go:71-73) stores that slice
    in the new leaf without copying it.  The result is the memory and the key slice of the leaf. *)
Definition goInsertKey (M : memory) (key : gslice) (fresh extra : nat) : memory * gslice := goTreeKey M key fresh extra.
(** The key that iterators and Walk hand to the client for a leaf with key slice s (getKey, no copy). *)
Definition goLeafKey (M : memory) (s : gslice) : bytes := slice_bytes M (goKey s).
