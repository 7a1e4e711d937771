(** What clients of concurrent goroutines may rely on, stated with maps only.

    Every tree handed out has a reference map.  A job starts from the map of its tree and applies its updates to it; nothing is said about the
    other goroutines. *)
From Verif Require Export SpecWorld SpecSerial SpecReads.
From stdpp Require Import list.
Local Open Scope nat_scope.

Section SpecConcMap.
Context {V : Type} `{GoZero V}.
Notation kmap := (gmap (list nat) V).

(** [client_ok n c m d fresh]: the client c makes at most n calls other than Get, all of them covered (see [tame_op] and [on_txn] in Spec.v and
    SpecWorld.v), when its transaction has the map m, whatever it is told of what the specification leaves open. *)
Fixpoint client_ok (n : nat) (c : client V) (m : kmap) (d : nat) (fresh : bool) {struct c} : Prop :=
  match c with
  | GInsert k v next => 0 < n /\ (m = ∅ -> fresh = true) /\ exists d', tame_op m d (OInsert k v) d' /\
      forall x b, result_ok m (OInsert k v) (RVal x b) -> client_ok (n - 1) (next (x, b)) (ref_op (OInsert k v) m) d' false
  | GDelete k next => 0 < n /\ exists d', tame_op m d (ODelete k) d' /\
      forall x b, result_ok m (ODelete k) (RVal x b) -> client_ok (n - 1) (next (x, b)) (ref_op (ODelete k) m) d' false
  | GDeletePrefix _ _ => False
  | GGet k next => is_bytes k /\ client_ok n (next (ref_get m k)) m d fresh
  | GTrack _ next => 0 < n /\ client_ok (n - 1) next m d fresh
  | GCommit => 0 < n
  | GStop => True
  end.
(** [client_run c m d o]: the client, started on the map m, may commit the map o (None: it stops without a commit). *)
Inductive client_run : client V -> kmap -> nat -> option (kmap * nat) -> Prop :=
| run_insert k v next m d d' x b o : tame_op m d (OInsert k v) d' -> result_ok m (OInsert k v) (RVal x b) ->
    client_run (next (x, b)) (<[k := v]> m) d' o -> client_run (GInsert k v next) m d o
| run_delete k next m d d' x b o : tame_op m d (ODelete k) d' -> (x, b) = ref_get m k ->
    client_run (next (x, b)) (delete k m) d' o -> client_run (GDelete k next) m d o
| run_get k next m d o : client_run (next (ref_get m k)) m d o -> client_run (GGet k next) m d o
| run_track b next m d o : client_run next m d o -> client_run (GTrack b next) m d o
| run_commit m d : client_run GCommit m d (Some (m, d))
| run_stop m d : client_run GStop m d None.

(** The maps of the trees after a job *)
Inductive job_run : job V -> list (kmap * nat) -> list (kmap * nat) -> Prop :=
| job_new ts : job_run JNew ts (ts ++ [(∅, 0)])
| job_clone i t ts : ts !! i = Some t -> job_run (JClone i) ts (ts ++ [t])
| job_txn i c m d o ts : ts !! i = Some (m, d) -> client_run c m d o -> job_run (JTxn i c) ts (ts ++ match o with Some t => [t] | None => [] end)
| job_none g ts : g <> JNew -> ts !! jbase g = None -> job_run g ts ts.
Inductive jobs_run : list (job V) -> list (kmap * nat) -> Prop :=
| jobs_nil : jobs_run [] []
| jobs_snoc js g ts ts' : jobs_run js ts -> job_run g ts ts' -> jobs_run (js ++ [g]) ts'.
Definition job_ok (ts : list (kmap * nat)) (n : nat) (g : job V) : Prop :=
  0 < n /\ match g with JTxn i c => forall m d, ts !! i = Some (m, d) -> client_ok (n - 1) c m d true | _ => True end.
(** Every job is covered when it is run on the maps that the jobs before it may leave; ns bounds the numbers of calls. *)
Definition jobs_ok (js : list (job V)) (ns : list nat) : Prop :=
  length ns = length js /\ (N.of_nat (sum_list ns) < 2 ^ 64)%N /\
  forall i g n ts, js !! i = Some g -> ns !! i = Some n -> jobs_run (take i js) ts -> job_ok ts n g.

(** [answers_as h t m]: the tree t answers as the map m.  A seek to a bound may panic (then l = [] and e = true). *)
Record answers_as (h : heap V) (t : rtree) (m : kmap) : Prop := mk_answers {
  aa_get : forall k, is_bytes k -> treeGet h t k = Ok (ref_get m k);
  aa_iter : forall p, is_bytes p -> last p <> Some dollar -> (m = ∅ -> p <> []) ->
    exists l, seq_of (seekPrefix h (newIter (r_root t)) p) (iterNextF h) l false /\ pairs_with m p l /\ (orderly m -> ascending l);
  aa_path : forall p, exists l, gives (pathNextF h) (newPathIter (r_root t) p) l false /\ pairs_on_path m p l /\ (orderly m -> shortest_first l);
  aa_minmax : m <> ∅ -> exists k v k' v', treeMinimum h t = Ok (Some (k, v)) /\ treeMaximum h t = Ok (Some (k', v')) /\
    m !! k = Some v /\ m !! k' = Some v' /\ (orderly m -> least m k v /\ greatest m k' v');
  aa_lower_all : m <> ∅ -> exists l, seq_of (seekLowerBound h (newLowerIter (r_root t)) []) (lowerNextF h) l false /\ l ≡ₚ map_to_list m /\ (orderly m -> ascending l);
  aa_lower : m <> ∅ -> prefix_free m -> narrow m -> forall k l e, neat m k -> seq_of (seekLowerBound h (newLowerIter (r_root t)) k) (lowerNextF h) l e ->
    (l = [] /\ e = true) \/ (pairs_from m k l /\ e = false);
  aa_reverse : m <> ∅ -> m !! [] = None -> exists l, gives (prevF h) (newRevIter (r_root t)) l false /\ l ≡ₚ map_to_list m /\ (prefix_free m -> descending l);
  aa_revprefix : m !! [] = None -> forall p, is_bytes p -> last p <> Some dollar -> (exists k, is_Some (m !! k) /\ p `prefix_of` k) ->
    exists l, seq_of (revSeekPrefix h (newRevIter (r_root t)) p) (prevF h) l false /\ pairs_with m p l /\ (prefix_free m -> descending l);
  aa_revlower : m <> ∅ -> orderly m -> narrow m -> forall k spare l e, neat m k -> seq_of (seekReverseLowerBound h (newRevIter (r_root t)) k spare) (prevF h) l e ->
    (l = [] /\ e = true) \/ (pairs_upto m k l /\ e = false);
  aa_dfs : m <> ∅ -> exists l, treeDfs h t = Ok l /\ NoDup (omap id l).*1 /\ (forall k v, Some (k, v) ∈ l -> m !! k = Some v) /\
    (narrow m -> omap id l ≡ₚ map_to_list m /\ (orderly m -> ascending (omap id l))) }.
End SpecConcMap.
