(** The specification side: reference maps, orders, iteration sequences.  Nothing here mentions nodes. *)
From Verif Require Export World.

(** The keys for which the tree is a map: bytes other than '$'. *)
Definition valid_key (k : bytes) : Prop := Forall (fun b => b < 256 /\ b <> dollar) k.
(** Byte strings. *)
Definition is_bytes (k : bytes) : Prop := Forall (fun b => b < 256) k.

(** Strict bytewise (lexicographic) order. *)
Fixpoint klt (x y : bytes) : Prop :=
  match x, y with
  | _, [] => False
  | [], _ :: _ => True
  | a :: x', b :: y' => a < b \/ (a = b /\ klt x' y')
  end.

Section Spec.
Context {V : Type} `{GoZero V}.

Notation kmap := (gmap bytes V).

(** Reference semantics of one update. *)
Definition ref_op (o : op V) (m : kmap) : kmap :=
  match o with
  | OInsert k v => <[k := v]> m
  | ODelete k => delete k m
  | ODeletePrefix p => filter (fun kv => has_prefix kv.1 p = false) m
  end.
Definition ref_ops (os : list (op V)) (m : kmap) : kmap := foldl (fun m o => ref_op o m) m os.
(** Reference result of a lookup: the value and true, or the zero value and false. *)
Definition ref_get (m : kmap) (k : bytes) : V * bool :=
  match m !! k with Some v => (v, true) | None => (go_zero, false) end.

(** [yields next it l]: repeated calls of [next], starting at [it], return the elements of [l] and then
    report the end. *)
Inductive yields {I A : Type} (next : I -> outcome (option A * I)) : I -> list A -> Prop :=
| yields_nil it it' : next it = Ok (None, it') -> yields next it []
| yields_cons it x it' l : next it = Ok (Some x, it') -> yields next it' l -> yields next it (x :: l).

Lemma yields_det {I A : Type} (next : I -> outcome (option A * I)) it l l' :
  yields next it l -> yields next it l' -> l = l'.
Proof.
  intros Hy. revert l'. induction Hy as [it it' E|it x it' l E Hy IH]; intros l' H'; inversion H'; subst.
  - done.
  - congruence.
  - congruence.
  - f_equal; [congruence|]. apply IH. congruence.
Qed.

(** ** The histories on which the tree is a map *)

(** k is stored and so is a proper extension of k. *)
Definition shadowed (m : kmap) (k : bytes) : Prop :=
  is_Some (m !! k) /\ exists k', is_Some (m !! k') /\ k' <> k /\ k `prefix_of` k'.
(** After q some byte is not taken by the keys of m (with their terminator). *)
Definition room_at (m : kmap) (q : bytes) : Prop :=
  exists b, b < 256 /\ forall k, is_Some (m !! k) -> ~ (q ++ [b]) `prefix_of` (k ++ [dollar]).
(** ... after every q. *)
Definition roomy (m : kmap) : Prop := forall q, room_at m q.
(** The Delete of k touches no full branching point that survives it.  Such a point is a q after which k goes on with
    c, together with another key; or, when all the other keys that agree with k on q go on with r, the end of r. *)
Definition deletable (m : kmap) (k : bytes) : Prop :=
  (forall q c k', (q ++ [c]) `prefix_of` (k ++ [dollar]) -> is_Some (m !! k') -> k' <> k ->
     (q ++ [c]) `prefix_of` (k' ++ [dollar]) -> room_at m q) /\
  (forall q r, q `prefix_of` (k ++ [dollar]) -> ~ (q ++ r) `prefix_of` (k ++ [dollar]) ->
     (forall k', is_Some (m !! k') -> k' <> k -> q `prefix_of` (k' ++ [dollar]) -> (q ++ r) `prefix_of` (k' ++ [dollar])) ->
     room_at m (q ++ r)).
Lemma roomy_deletable m k : roomy m -> deletable m k.
Proof. intros Hr. split; intros; apply Hr. Qed.

(** [tame_op m d o d']: the update o is covered when the contents are m; d and d' bound the number of
    inserts so far that may have been miscounted (overwrites of shadowed keys). *)
Definition tame_op (m : kmap) (d : nat) (o : op V) (d' : nat) : Prop :=
  match o with
  | OInsert k _ => valid_key k /\ ((~ shadowed m k /\ d' = d) \/ (shadowed m k /\ d' = S d))
  | ODelete k => is_Some (m !! k) /\ deletable m k /\ d' = d /\ (d = 0 \/ delete k m <> ∅)
  | ODeletePrefix _ => False
  end.
(** Histories of updates, each applied to the latest tree. *)
Inductive tame : list (op V) -> nat -> Prop :=
| tame_nil : tame [] 0
| tame_snoc os d o d' : tame os d -> tame_op (ref_ops os ∅) d o d' -> tame (os ++ [o]) d'.
(** What an update may return when the contents are m. *)
Definition result_ok (m : kmap) (o : op V) (r : result V) : Prop :=
  match o with
  | OInsert k v => (r = RVal (ref_get m k).1 (ref_get m k).2) \/ (shadowed m k /\ r = RVal go_zero false)
  | ODelete k => r = RVal (ref_get m k).1 (ref_get m k).2
  | ODeletePrefix p => exists b, r = RBool b
  end.
(** The results of a history that starts with contents m. *)
Definition results_ok (m : kmap) (os : list (op V)) (rs : list (result V)) : Prop :=
  length rs = length os /\
  forall i o r, os !! i = Some o -> rs !! i = Some r -> result_ok (ref_ops (take i os) m) o r.
(** Batches of updates inside one transaction: as above, and the transaction does not insert into a tree
    that it has itself emptied. *)
Inductive tame_in (m : kmap) (d : nat) : list (op V) -> nat -> Prop :=
| tame_in_nil : tame_in m d [] d
| tame_in_snoc os d1 o d2 : tame_in m d os d1 -> tame_op (ref_ops os m) d1 o d2 ->
    (os <> [] -> ref_ops os m = ∅ -> forall k v, o <> OInsert k v) -> tame_in m d (os ++ [o]) d2.
(** Histories of transactions, each started on the latest tree and committed. *)
Inductive tame_txns : list (list (op V)) -> nat -> Prop :=
| tame_txns_nil : tame_txns [] 0
| tame_txns_snoc oss d os d' : tame_txns oss d -> tame_in (ref_ops (concat oss) ∅) d os d' ->
    tame_txns (oss ++ [os]) d'.

(** The pairs of a reference map whose key starts with p, as a set of pairs. *)
Definition pairs_with (m : kmap) (p : bytes) (l : list (bytes * V)) : Prop :=
  NoDup l.*1 /\ forall k v, (k, v) ∈ l <-> (m !! k = Some v /\ has_prefix k p = true).

(** Full iteration of a tree: an iterator positioned with prefix p. *)
Definition iterates (h : heap V) (root : addr) (p : bytes) (l : list (bytes * V)) : Prop :=
  exists it, seekPrefix h (newIter root) p = Ok it /\ yields (iterNext h) it l.
End Spec.

Notation kmap V := (gmap (list nat) V).
