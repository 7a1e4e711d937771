(** Cycles and ends: what C52 speaks about.  Nothing here refers to how the code keeps its memory in order. *)
From Verif Require Export World.
From stdpp Require Import list relations.
Local Open Scope nat_scope.

Section Graph.
Context {V : Type}.
(** some child slot of the node at a holds b (slots beyond numChildren included) *)
Definition edge (h : heap V) (a b : addr) : Prop := exists n, h_nodes h !! a = Some n /\ Some b ∈ n_children n.
Definition acyclic (h : heap V) : Prop := forall a, ~ tc (edge h) a a.

(** [ends next st]: calling Next again and again, from stack [st], ends: every call returns (with enough fuel the result
    does not depend on the fuel and is not NoFuel), and after finitely many calls one reports the end or panics. *)
Inductive ends (next : nat -> list (option ref) -> outcome (option (bytes * V) * list (option ref))) (st : list (option ref)) : Prop :=
| ends_intro f r : (forall f', f <= f' -> next f' st = r) -> r <> NoFuel -> (forall kv st', r = Ok (Some kv, st') -> ends next st') -> ends next st.
End Graph.
