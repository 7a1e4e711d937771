(** How a tree was made: the transactions and clones on the path from NewRadixTree to it.  What other goroutines do with other
    trees, or with the same trees, is not part of it. *)
From Verif Require Export SpecReads SpecSerial SpecScan.
Local Open Scope nat_scope.

Section SpecLine.
Context {V : Type} `{GoZero V}.

Inductive making :=
| MNew                                  (* NewRadixTree *)
| MTxn (r : making) (c : client V)      (* a transaction of the client c on a tree that was made as r says *)
| MClone (r : making).                  (* Clone of a tree that was made as r says *)

(** [hands_out js g]: the job g hands out a tree when it runs after the jobs js. *)
Definition hands_out (js : list (job V)) (g : job V) : Prop := length (serial (js ++ [g])).2 = S (length (serial js).2).
(** [made js i r]: tree i of the jobs js, run one after the other, was made as r says. *)
Inductive made : list (job V) -> nat -> making -> Prop :=
| made_new js : made (js ++ [JNew]) (length (serial js).2) MNew
| made_txn js k c r : made js k r -> hands_out js (JTxn k c) -> made (js ++ [JTxn k c]) (length (serial js).2) (MTxn r c)
| made_clone js k r : made js k r -> hands_out js (JClone k) -> made (js ++ [JClone k]) (length (serial js).2) (MClone r)
| made_later js g i r : made js i r -> made (js ++ [g]) i r.

(** The jobs that make a tree as r says and nothing else; it is the last tree that they hand out, number [age r]. *)
Fixpoint age (r : making) : nat := match r with MNew => 0 | MTxn r _ | MClone r => S (age r) end.
Fixpoint line (r : making) : list (job V) :=
  match r with
  | MNew => [JNew]
  | MTxn r c => line r ++ [JTxn (age r) c]
  | MClone r => line r ++ [JClone (age r)]
  end.

(** The same without the clones, and whether the last step is a Clone *)
Fixpoint strip (r : making) : making := match r with MNew => MNew | MTxn r c => MTxn (strip r) c | MClone r => strip r end.
Definition cloned (r : making) : bool := match r with MClone _ => true | _ => false end.
(** A client that only looks: Get, TrackMutate, and then Commit (or nothing) *)
Fixpoint looks (c : client V) : Prop :=
  match c with
  | GGet _ next => forall r, looks (next r)
  | GTrack _ next => looks next
  | GCommit | GStop => True
  | GInsert _ _ _ | GDelete _ _ | GDeletePrefix _ _ => False
  end.
(** [like r r']: r and r' differ in clones and in transactions that only look. *)
Inductive like : making -> making -> Prop :=
| like_new : like MNew MNew
| like_txn r r' c : like r r' -> like (MTxn r c) (MTxn r' c)
| like_clone r r' : like r r' -> like (MClone r) r'
| like_look r r' c : looks c -> like r r' -> like (MTxn r c) r'
| like_sym r r' : like r r' -> like r' r.

(** One tree.Insert, Delete or DeletePrefix as a transaction (tree.go:64-79, 329-337), and the making of a tree by such updates, each applied to the tree of the one before *)
Definition op_client (o : op V) : client V :=
  match o with OInsert k v => GInsert k v (fun _ => GCommit) | ODelete k => GDelete k (fun _ => GCommit) | ODeletePrefix k => GDeletePrefix k (fun _ => GCommit) end.
Definition ops_making (os : list (op V)) : making := foldl (fun r o => MTxn r (op_client o)) MNew os.
(** Several updates in one transaction, and the making of a tree by such transactions *)
Definition ops_client (os : list (op V)) : client V :=
  foldr (fun o c => match o with OInsert k v => GInsert k v (fun _ => c) | ODelete k => GDelete k (fun _ => c) | ODeletePrefix k => GDeletePrefix k (fun _ => c) end) GCommit os.
Definition txns_making (oss : list (list (op V))) : making := foldl (fun r os => MTxn r (ops_client os)) MNew oss.
End SpecLine.
Arguments making V : clear implicits.
