(** Iterators that are used again: what a caller can do with an iterator besides one seek and one walk. *)
From Verif Require Export SpecRead.

Section Reuse.
Context {V : Type} `{GoZero V}.

(** [used h it0 it]: the caller started with the iterator [it0] and now holds [it], after calls of SeekPrefix
    with any byte strings and of Next in any order, and possibly after asking the node that a seek returned for
    a new iterator. *)
Inductive used (h : heap V) (it0 : iter) : iter -> Prop :=
| used_start : used h it0 it0
| used_seek it p it' : used h it0 it -> is_bytes p -> seekPrefix h it p = Ok it' -> used h it0 it'
| used_next it r it' : used h it0 it -> iterNext h it = Ok (r, it') -> used h it0 it'
| used_node it b : used h it0 it -> it_node it = Some (RN b) -> used h it0 (newIter b).

(** As [used], where all seeks had the empty prefix. *)
Inductive rewound (h : heap V) (it0 : iter) : iter -> Prop :=
| rewound_start : rewound h it0 it0
| rewound_seek it it' : rewound h it0 it -> seekPrefix h it [] = Ok it' -> rewound h it0 it'
| rewound_next it r it' : rewound h it0 it -> iterNext h it = Ok (r, it') -> rewound h it0 it'.

(** Some of the pairs of [m] whose key starts with [p], each at most once. *)
Definition some_pairs_with (m : kmap V) (p : bytes) (l : list (bytes * V)) : Prop :=
  NoDup l.*1 /\ forall k v, (k, v) ∈ l -> m !! k = Some v /\ has_prefix k p = true.

(** The same for the lower bound iterator and the reverse iterator. *)
Inductive lused (h : heap V) (it0 : liter) : liter -> Prop :=
| lused_start : lused h it0 it0
| lused_seek it k it' : lused h it0 it -> seekLowerBound h it k = Ok it' -> lused h it0 it'
| lused_next it r it' : lused h it0 it -> lowerNext h it = Ok (r, it') -> lused h it0 it'.
Inductive rused (h : heap V) (it0 : riter) : riter -> Prop :=
| rused_start : rused h it0 it0
| rused_prefix it p it' : rused h it0 it -> revSeekPrefix h it p = Ok it' -> rused h it0 it'
| rused_seek it k spare it' : rused h it0 it -> seekReverseLowerBound h it k spare = Ok it' -> rused h it0 it'
| rused_prev it r it' : rused h it0 it -> prev h it = Ok (r, it') -> rused h it0 it'.
End Reuse.
