(** Goroutines that share memory.

    A goroutine starts a transaction on a tree that has been handed out, makes any updates and lookups on it, and commits or gives up.
    Its program is run one command at a time, in any order with the commands of the others.  Goroutines are created at any time.
    In between, watchers may read, create and close channels.  The memory is sequentially consistent (a Go program without data races
    behaves so).  A goroutine does not use its Txn after Commit. *)
From Verif Require Export Prog Views.
Local Open Scope nat_scope.

Section Machine.
Context {V : Type} `{GoZero V}.

(** What a goroutine does with its Txn; each call may depend on the results of the calls before. *)
Inductive client :=
| GInsert (k : bytes) (v : V) (next : V * bool -> client)        (* txn.go:86 *)
| GDelete (k : bytes) (next : V * bool -> client)                (* txn.go:264 *)
| GDeletePrefix (k : bytes) (next : bool -> client)              (* txn.go:419 *)
| GGet (k : bytes) (next : V * bool -> client)                   (* txn.go:81 *)
| GTrack (b : bool) (next : client)                              (* txn.go:74 TrackMutate *)
| GCommit                                                        (* txn.go:382 *)
| GStop.
Fixpoint pclient (c : client) : prog V (option rtree) :=
  match c with
  | GInsert k v next => pbind (ptxnInsert k v) (fun r => pclient (next r))
  | GDelete k next => pbind (ptxnDelete k) (fun r => pclient (next r))
  | GDeletePrefix k next => pbind (ptxnDeletePrefix k) (fun r => pclient (next r))
  | GGet k next => pbind pgetT (fun t => pbind (pgetFrom (t_root t) k) (fun r => pclient (next r)))
  | GTrack b next => pbind pgetT (fun t => pbind (pputT (set_t_track t b)) (fun _ => pclient next))
  | GCommit => pbind pcommit (fun tr => pret (Some tr))
  | GStop => pret None
  end.
(** The whole goroutine: tree.Txn(), then the client.  (tree.go:64-79 and 329-337: Insert, Delete and DeletePrefix of a tree
    are of this form.) *)
Definition goroutine (tr : rtree) (c : client) : prog V (option rtree) := pbind (pnewTxn tr) (fun _ => pclient c).
(** tree.go:46-53 RadixTree.Clone *)
Definition cloner (tr : rtree) : prog V (option rtree) := pbind (pcloneN (r_root tr) true) (fun r => pret (Some (mkT r (r_size tr) (r_max tr)))).
(** The Txn fields before tree.Txn() has set them (never read before that) *)
Definition noTxn (tr : rtree) : txn := mkTx (r_root tr) (r_size tr) (r_max tr) (r_size tr) (r_max tr) false [].

(** The memory, the goroutines (None: ended), the trees handed out so far *)
Record cfg := mkC { c_h : heap V; c_th : list (option (prog V (option rtree) * txn)); c_pub : list rtree }.

(** Two memories that differ in channels only *)
Definition chanOnly (h h' : heap V) : Prop := h_next h' = h_next h /\ forall x, er_n <$> h_nodes h' !! x = er_n <$> h_nodes h !! x /\ er_l <$> h_leaves h' !! x = er_l <$> h_leaves h !! x.

Inductive mstep : cfg -> cfg -> Prop :=
| m_new h h' ths pub tr :              (* NewRadixTree: the cells are not shared before the tree is handed out *)
    newTree h = (Ok tr, h') -> mstep (mkC h ths pub) (mkC h' ths (pub ++ [tr]))
| m_spawn h ths pub tr c :
    tr ∈ pub -> mstep (mkC h ths pub) (mkC h (ths ++ [Some (goroutine tr c, noTxn tr)]) pub)
| m_clone h ths pub tr :
    tr ∈ pub -> mstep (mkC h ths pub) (mkC h (ths ++ [Some (cloner tr, noTxn tr)]) pub)
| m_cmd h ths pub i t B (c : cmd V B) k b s :
    ths !! i = Some (Some (Do c k, t)) -> sem c (mkS h t) = (Ok b, s) ->
    mstep (mkC h ths pub) (mkC (s_h s) (<[i := Some (k b, s_t s)]> ths) pub)
| m_fault h ths pub i t B (c : cmd V B) k s :        (* nil dereference *)
    ths !! i = Some (Some (Do c k, t)) -> sem c (mkS h t) = (Panic, s) ->
    mstep (mkC h ths pub) (mkC (s_h s) (<[i := None]> ths) pub)
| m_done h ths pub i t r :
    ths !! i = Some (Some (PRet (Ok r), t)) ->
    mstep (mkC h ths pub) (mkC h (<[i := None]> ths) (pub ++ match r with Some tr => [tr] | None => [] end))
| m_stop h ths pub i t o :             (* panic in a computation *)
    ths !! i = Some (Some (PRet o, t)) -> (o = Panic \/ o = NoFuel) ->
    mstep (mkC h ths pub) (mkC h (<[i := None]> ths) pub)
| m_watch h h' ths pub :
    chanOnly h h' -> mstep (mkC h ths pub) (mkC h' ths pub).

Inductive msteps : cfg -> cfg -> Prop :=
| ms_refl c : msteps c c
| ms_step c1 c2 c3 : msteps c1 c2 -> mstep c2 c3 -> msteps c1 c3.
Definition cfg0 : cfg := mkC (mkH ∅ ∅ 0 0 []) [] [].
Definition reachable (c : cfg) : Prop := msteps cfg0 c.

(** ** Which cells a command accesses *)
(** plain (non-atomic) write of a cell *)
Definition writes {B} (c : cmd V B) (a : addr) : Prop := match c with StoreN b _ | StoreL b _ => a = b | _ => False end.
(** any access to a cell *)
Definition touches {B} (c : cmd V B) (a : addr) : Prop :=
  match c with
  | LoadN b | LoadL b | StoreN b _ | StoreL b _ | CasChN b _ | CasChL b _ | SetChN b _ | SetChL b _ | LiveN b | LiveL b => a = b
  | _ => False
  end.

(** ** Readers of a tree that run meanwhile: programs of loads only, observed over the successive memories.  A reader sees
    the fields of a cell but the channel (which is accessed atomically).  It takes any number of its steps in each memory. *)
Definition seen (h : heap V) : st V := mkS (mkH (er_n <$> h_nodes h) (er_l <$> h_leaves h) (h_next h) 0 []) (mkTx 0 0%N 0 0%N 0 false []).
Inductive obs {A} : list (heap V) -> prog V A -> outcome A -> Prop :=
| obs_ret h hs o : obs (h :: hs) (PRet o) o
| obs_wait h hs p o : obs hs p o -> obs (h :: hs) p o
| obs_load h hs B (c : cmd V B) k b s o : sem c (seen h) = (Ok b, s) -> obs (h :: hs) (k b) o -> obs (h :: hs) (Do c k) o
| obs_fault h hs B (c : cmd V B) k s : sem c (seen h) = (Panic, s) -> obs (h :: hs) (Do c k) Panic.
(** It starts with the addresses of K and follows only pointers it has loaded. *)
Fixpoint follows (K : addr -> Prop) {A} (p : prog V A) : Prop :=
  match p with
  | PRet _ => True
  | @Do _ _ B c k =>
      match c with LoadN a | LoadL a => K a | _ => False end /\
      forall b : B, follows (fun x => K x \/ match c in cmd _ B0 return B0 -> Prop with LoadN _ => fun n => points n x | _ => fun _ => False end b) (k b)
  end.
(** the memories of an execution *)
Inductive trace : cfg -> list (heap V) -> cfg -> Prop :=
| tr_one c : trace c [c_h c] c
| tr_more c1 c2 hs c3 : mstep c1 c2 -> trace c2 hs c3 -> trace c1 (c_h c1 :: hs) c3.
End Machine.
Arguments client V : clear implicits.
Arguments cfg V : clear implicits.
