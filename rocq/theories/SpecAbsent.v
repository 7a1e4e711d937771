(** Where a Delete of a key that is not stored ends. *)
From Verif Require Export Spec.
Local Open Scope nat_scope.
Local Open Scope list_scope.

Section SpecAbsent.
Context {V : Type}.
Notation kmap := (gmap (list nat) V).

(** k, with its terminator, leaves the keys of m after q, and not at a single key: q is the longest beginning of k
    that stored keys have, and two stored keys have it. *)
Definition leaves_at (m : kmap) (k q : bytes) : Prop :=
  q `prefix_of` (k ++ [dollar]) /\
  (exists k1 k2, is_Some (m !! k1) /\ is_Some (m !! k2) /\ k1 <> k2 /\ q `prefix_of` (k1 ++ [dollar]) /\ q `prefix_of` (k2 ++ [dollar])) /\
  (forall k' q', is_Some (m !! k') -> q' `prefix_of` (k' ++ [dollar]) -> q' `prefix_of` (k ++ [dollar]) -> q' `prefix_of` q).

(** Two stored keys go on differently after q. *)
Definition parts (m : kmap) (q : bytes) : Prop :=
  exists k1 k2 b1 b2, is_Some (m !! k1) /\ is_Some (m !! k2) /\ b1 <> b2 /\
    (q ++ [b1]) `prefix_of` (k1 ++ [dollar]) /\ (q ++ [b2]) `prefix_of` (k2 ++ [dollar]).
End SpecAbsent.
