(** Specification of Walk and LongestPrefix. *)
From Verif Require Export SpecRead.
Local Open Scope nat_scope.

(** The callback on a list of keys, with the zero value, until it returns true. *)
Section Visit.
Context {V A : Type} `{GoZero V} (fn : bytes -> V -> A -> A * bool).
Fixpoint visit (l : list bytes) (acc : A) : A * bool :=
  match l with
  | [] => (acc, false)
  | k :: l' => let '(acc, stop) := fn k go_zero acc in if (stop : bool) then (acc, true) else visit l' acc
  end.
End Visit.
(** The pair of m with the longest key that is a prefix of q. *)
Definition longest_stored {V} (m : gmap (list nat) V) (q k : bytes) (v : V) : Prop :=
  m !! k = Some v /\ k `prefix_of` q /\ forall k', is_Some (m !! k') -> k' `prefix_of` q -> length k' <= length k.
(** No stored key is a prefix of q. *)
Definition none_stored {V} (m : gmap (list nat) V) (q : bytes) : Prop := forall k, is_Some (m !! k) -> ~ k `prefix_of` q.
(** Some stored key is a prefix of all stored keys. *)
Definition has_stem {V} (m : gmap (list nat) V) : Prop := exists k, is_Some (m !! k) /\ forall k', is_Some (m !! k') -> k `prefix_of` k'.
