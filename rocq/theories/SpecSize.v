(** How much memory a tree holds: what C63 speaks about. *)
From Verif Require Export SpecGraph SpecRead.
From stdpp Require Import list relations.
Local Open Scope nat_scope.

Section Size.
Context {V : Type}.

(** The nodes and the leaves that the garbage collector must keep as long as the node at a is in use. *)
Definition holds_node (h : heap V) (a x : addr) : Prop := rtc (edge h) a x.
Definition holds_leaf (h : heap V) (a x : addr) : Prop := exists y n, holds_node h a y /\ h_nodes h !! y = Some n /\ n_leaf n = Some x.

(** As [edge], where a Node4 or a Node16 counts only its first numChildren slots. *)
Definition live_edge (h : heap V) (a b : addr) : Prop :=
  exists n i, h_nodes h !! a = Some n /\ n_children n !! i = Some (Some b) /\ (n_kind n = K4 \/ n_kind n = K16 -> i < n_nch n).
Definition live_node (h : heap V) (a x : addr) : Prop := rtc (live_edge h) a x.
Definition live_leaf (h : heap V) (a x : addr) : Prop := exists y n, live_node h a y /\ h_nodes h !! y = Some n /\ n_leaf n = Some x.
End Size.

(** There are at most n addresses with P. *)
Definition at_most (n : nat) (P : addr -> Prop) : Prop := forall l, NoDup l -> (forall x, x ∈ l -> P x) -> length l <= n.
