(** When two trees, in two memories, cannot be told apart by reading them. *)
From Verif Require Export IterOps SpecDfs.
From stdpp Require Import list.
Local Open Scope nat_scope.

(** What a client gets by calling Next again and again: the list of the results; [e] says whether the last call reports the end (false) or panics
    (true).  The first argument of [next] is the fuel of the model; any amount that is enough will do. *)
Inductive gives {I A : Type} (next : nat -> I -> outcome (option A * I)) : I -> list A -> bool -> Prop :=
| gives_end f it it' : next f it = Ok (None, it') -> gives next it [] false
| gives_panic f it : next f it = Panic -> gives next it [] true
| gives_more f it x it' l e : next f it = Ok (Some x, it') -> gives next it' l e -> gives next it (x :: l) e.
(** The same after a seek *)
Inductive seq_of {I A : Type} (seek : outcome I) (next : nat -> I -> outcome (option A * I)) : list A -> bool -> Prop :=
| so_panic : seek = Panic -> seq_of seek next [] true
| so_gives it l e : seek = Ok it -> gives next it l e -> seq_of seek next l e.

Section SpecReads.
Context {V : Type} `{GoZero V}.

(** iterNext, pathNext, lowerNext and prev of IterOps.v, with any fuel *)
Definition iterNextF (h : heap V) (f : nat) (it : IterOps.iter) : outcome (option (bytes * V) * IterOps.iter) :=
  let? '(r, st) := nextLoop f h (it_path it) (stackOf (it_stack it)) in Ok (r, mkIt (it_path it) (it_node it) (Some st)).
Definition pathNextF (h : heap V) (f : nat) (it : piter) : outcome (option (bytes * V) * piter) :=
  let? '(r, st) := pathNextLoop f h (pi_path it) (pi_stack it) in Ok (r, mkPI (pi_path it) st).
Definition lowerNextF (h : heap V) (f : nat) (it : liter) : outcome (option (bytes * V) * liter) :=
  let? '(r, st) := lowerNextLoop f h (li_stack it) in Ok (r, mkLI (li_node it) st).
Definition prevF (h : heap V) (f : nat) (ri : riter) : outcome (option (bytes * V) * riter) :=
  let it := ri_it ri in
  let stack := match it_stack it, it_node it with None, Some nd => [Some nd] | o, _ => stackOf o end in
  let? '(r, st) := prevLoop f h (it_path it) (ri_exp ri) stack in
  let st' := match it_stack it, it_node it with None, None => None | _, _ => Some st end in
  Ok (r, mkRI (mkIt (it_path it) (it_node it) st') (ri_exp ri)).

Record reads_alike (h : heap V) (t : rtree) (h' : heap V) (t' : rtree) : Prop := mk_alike {
  ra_len : treeLen t = treeLen t';
  ra_get : forall k, treeGet h t k = treeGet h' t' k;
  ra_longest : forall k, treeLongestPrefix h t k = treeLongestPrefix h' t' k;
  ra_min : treeMinimum h t = treeMinimum h' t';
  ra_max : treeMaximum h t = treeMaximum h' t';
  ra_walk : forall {B} (fn : bytes -> V -> B -> B * bool) acc, treeWalk fn h t acc = treeWalk fn h' t' acc;
  ra_dfs : treeDfs h t = treeDfs h' t';
  ra_iter : forall p l e, seq_of (seekPrefix h (newIter (r_root t)) p) (iterNextF h) l e <-> seq_of (seekPrefix h' (newIter (r_root t')) p) (iterNextF h') l e;
  ra_path : forall p l e, gives (pathNextF h) (newPathIter (r_root t) p) l e <-> gives (pathNextF h') (newPathIter (r_root t') p) l e;
  ra_lower : forall k l e, seq_of (seekLowerBound h (newLowerIter (r_root t)) k) (lowerNextF h) l e <-> seq_of (seekLowerBound h' (newLowerIter (r_root t')) k) (lowerNextF h') l e;
  ra_reverse : forall l e, gives (prevF h) (newRevIter (r_root t)) l e <-> gives (prevF h') (newRevIter (r_root t')) l e;
  ra_revprefix : forall p l e, seq_of (revSeekPrefix h (newRevIter (r_root t)) p) (prevF h) l e <-> seq_of (revSeekPrefix h' (newRevIter (r_root t')) p) (prevF h') l e;
  ra_revlower : forall k spare l e, seq_of (seekReverseLowerBound h (newRevIter (r_root t)) k spare) (prevF h) l e <->
     seq_of (seekReverseLowerBound h' (newRevIter (r_root t')) k spare) (prevF h') l e }.

(** Every read of a tree ends, and every iteration gives one sequence of results. *)
Definition one {A} (P : A -> bool -> Prop) : Prop := exists l e, P l e /\ forall l' e', P l' e' -> l' = l /\ e' = e.
Record reads_total (h : heap V) (t : rtree) : Prop := mk_total {
  rt_get : forall k, treeGet h t k <> NoFuel;
  rt_longest : forall k, treeLongestPrefix h t k <> NoFuel;
  rt_min : treeMinimum h t <> NoFuel;
  rt_max : treeMaximum h t <> NoFuel;
  rt_walk : forall {B} (fn : bytes -> V -> B -> B * bool) acc, treeWalk fn h t acc <> NoFuel;
  rt_dfs : treeDfs h t <> NoFuel;
  rt_iter : forall p, one (seq_of (seekPrefix h (newIter (r_root t)) p) (iterNextF h));
  rt_path : forall p, one (gives (pathNextF h) (newPathIter (r_root t) p));
  rt_lower : forall k, one (seq_of (seekLowerBound h (newLowerIter (r_root t)) k) (lowerNextF h));
  rt_reverse : one (gives (prevF h) (newRevIter (r_root t)));
  rt_revprefix : forall p, one (seq_of (revSeekPrefix h (newRevIter (r_root t)) p) (prevF h));
  rt_revlower : forall k spare, one (seq_of (seekReverseLowerBound h (newRevIter (r_root t)) k spare) (prevF h)) }.
End SpecReads.
