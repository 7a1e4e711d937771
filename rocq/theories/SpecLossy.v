(** The reference for histories in which Delete may be called with keys that are not stored. *)
From Verif Require Export Spec.
Local Open Scope nat_scope.
Local Open Scope list_scope.

Section SpecLossy.
Context {V : Type} `{GoZero V}.
Notation kmap := (gmap (list nat) V).

(** No stored key agrees with k, terminators included, on the first ten bytes. *)
Definition near (m : kmap) (k : bytes) : Prop :=
  forall k', is_Some (m !! k') -> take 10 (k' ++ [dollar]) <> take 10 (k ++ [dollar]).
(** m without the keys that start, terminator included, with q. *)
Definition cut (q : bytes) (m : kmap) : kmap := filter (fun kv => ~ q `prefix_of` (kv.1 ++ [dollar])) m.

(** [lossy os rs m x]: the updates os, on a map that is empty at first, may return rs and leave m, with a
    length of x more than the number of keys.  Insert and Delete of a stored key are those of a map, save that
    Insert of a key with a stored extension may report a new key and count it; Delete of an absent key reports
    that it is absent, does not count, and loses the keys that start with some q. *)
Inductive lossy : list (op V) -> list (result V) -> kmap -> nat -> Prop :=
| lossy_nil : lossy [] [] ∅ 0
| lossy_new os rs m x k v : lossy os rs m x -> m !! k = None ->
    lossy (os ++ [OInsert k v]) (rs ++ [RVal go_zero false]) (<[k := v]> m) x
| lossy_over os rs m x k v w : lossy os rs m x -> m !! k = Some w ->
    lossy (os ++ [OInsert k v]) (rs ++ [RVal w true]) (<[k := v]> m) x
| lossy_shadow os rs m x k v : lossy os rs m x -> shadowed m k ->
    lossy (os ++ [OInsert k v]) (rs ++ [RVal go_zero false]) (<[k := v]> m) (S x)
| lossy_delete os rs m x k w : lossy os rs m x -> m !! k = Some w ->
    lossy (os ++ [ODelete k]) (rs ++ [RVal w true]) (delete k m) x
| lossy_absent os rs m x k q : lossy os rs m x -> m !! k = None -> (near m k -> q `prefix_of` (k ++ [dollar])) ->
    lossy (os ++ [ODelete k]) (rs ++ [RVal go_zero false]) (cut q m) (x + (size m - size (cut q m))).

(** The histories covered: Inserts of non-empty keys, Deletes of any keys, no DeletePrefix. *)
Definition plain_op (o : op V) : Prop :=
  match o with
  | OInsert k _ => valid_key k /\ k <> []
  | ODelete k => valid_key k
  | ODeletePrefix _ => False
  end.
(** After every byte string q some byte is not taken by the inserted keys (with their terminator). *)
Definition roomy_ops (os : list (op V)) : Prop :=
  forall q, exists b, b < 256 /\ forall k v, OInsert k v ∈ os -> ~ (q ++ [b]) `prefix_of` (k ++ [dollar]).
End SpecLossy.
