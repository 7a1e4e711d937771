(** Specification of Walk and LongestPrefix on the trees of a history, and of histories that remove nothing. *)
From Verif Require Export SpecWalk SpecConcMap.
Local Open Scope nat_scope.

Section SpecScan.
Context {V : Type} `{GoZero V}.
Notation kmap := (gmap (list nat) V).

(** The calls that remove keys *)
Definition removes (c : call V) : Prop :=
  match c with CDelete _ _ | CDeletePrefix _ _ | CTDelete _ _ | CTDeletePrefix _ _ => True | _ => False end.
(** A client that removes no key, whatever it is told *)
Fixpoint adds_only (c : client V) : Prop :=
  match c with
  | GInsert _ _ next => forall r, adds_only (next r)
  | GGet _ next => forall r, adds_only (next r)
  | GTrack _ next => adds_only next
  | GDelete _ _ | GDeletePrefix _ _ => False
  | GCommit | GStop => True
  end.
Definition job_adds (g : job V) : Prop := match g with JTxn _ c => adds_only c | _ => True end.

(** After every prefix the stored keys go on in at most w ways (the end of a key is one of them). *)
Definition ways (w : nat) (m : kmap) : Prop :=
  forall q, exists bs, length bs <= w /\ forall b k, is_Some (m !! k) -> (q ++ [b]) `prefix_of` k ++ [dollar] -> b ∈ bs.
(** [scans_as h t m]: Walk on the tree t calls the callback on keys of m only, on none twice, on every key that is not a proper
    prefix of another one, and stops when the callback returns true; LongestPrefix answers as the map m, on the queries of C18_partial;
    DFS shows every pair of m once if no node can be a Node256. *)
Record scans_as (h : heap V) (t : rtree) (m : kmap) : Prop := mk_scans {
  sc_walk : exists l, NoDup l /\ (forall k, k ∈ l -> is_Some (m !! k)) /\
    (forall k, is_Some (m !! k) -> (forall k', is_Some (m !! k') -> k `prefix_of` k' -> k' = k) -> k ∈ l) /\
    forall A (fn : bytes -> V -> A -> A * bool) acc, treeWalk fn h t acc = Ok (visit fn l acc).1;
  sc_longest : narrow m -> forall q, is_bytes q -> orderly_along m q -> (exists k, is_Some (m !! k) /\ k `prefix_of` q) \/ ~ has_stem m ->
    exists o, treeLongestPrefix h t q = Ok o /\ match o with Some (k, v) => longest_stored m q k v | None => none_stored m q end;
  sc_dfs : ways 37 m -> exists l, treeDfs h t = Ok l /\ omap id l ≡ₚ map_to_list m }.
End SpecScan.
