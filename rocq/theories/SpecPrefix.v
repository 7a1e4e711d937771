(** What DeletePrefix is measured by: finite maps and prefixes only. *)
From Verif Require Export Spec.
From stdpp Require Export list.
Local Open Scope nat_scope.

(** The number of stored keys that start with p. *)
Definition starting {V} (m : gmap (list nat) V) (p : bytes) : nat := size (filter (fun kv => p `prefix_of` kv.1) m).

(** For every stored key k1 that starts with p: either k comes before k1, or some other stored key k2 shares with k1 a
    prefix that k does not have.  This is so, for instance, for every k without the prefix p when two stored keys start
    with p, or none. *)
Definition clear_of {V} (m : gmap (list nat) V) (p k : bytes) : Prop :=
  forall k1, is_Some (m !! k1) -> p `prefix_of` k1 ->
    klt (k ++ [dollar]) (k1 ++ [dollar]) \/
    exists k2 q, is_Some (m !! k2) /\ k2 <> k1 /\ q `prefix_of` k1 /\ q `prefix_of` k2 /\ ~ q `prefix_of` k.
