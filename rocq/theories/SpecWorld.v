(** Specification of arbitrary client histories: every tree value and every transaction has a reference
    map.  Nothing here mentions nodes or memory. *)
From Verif Require Export SpecRead SpecDfs.
From stdpp Require Import list.
Local Open Scope nat_scope.

Section SpecWorld.
Context {V : Type} `{GoZero V}.
Notation kmap := (gmap (list nat) V).

(** The reference state.  A tree: its map, and a bound on the number of inserts that may have been
    miscounted.  A transaction: the same, and whether it has made no update yet. *)
Record gstate := mkG { g_trees : list (kmap * nat); g_txns : list (kmap * nat * bool) }.
Definition g_init : gstate := mkG [] [].
Definition add_tree (g : gstate) (t : kmap * nat) : gstate := mkG (g_trees g ++ [t]) (g_txns g).
Definition add_txn (g : gstate) (x : kmap * nat * bool) : gstate := mkG (g_trees g) (g_txns g ++ [x]).

(** An update of tree i yields a new tree. *)
Definition on_tree (g : gstate) (i : nat) (o : op V) (g' : gstate) : Prop :=
  match g_trees g !! i with
  | None => g' = g
  | Some (m, d) => exists d', tame_op m d o d' /\ g' = add_tree g (ref_op o m, d')
  end.
(** An update inside transaction j changes that transaction only.  A transaction that has emptied the
    tree does not insert into it again. *)
Definition on_txn (g : gstate) (j : nat) (o : op V) (g' : gstate) : Prop :=
  match g_txns g !! j with
  | None => g' = g
  | Some (m, d, fresh) => exists d', tame_op m d o d' /\ (m = ∅ -> (exists k v, o = OInsert k v) -> fresh = true) /\
      g' = mkG (g_trees g) (<[j := (ref_op o m, d', false)]> (g_txns g))
  end.
(** [gstep c g g']: the call c is covered in state g and leads to g'. *)
Definition gstep (c : call V) (g g' : gstate) : Prop :=
  match c with
  | CNew => g' = add_tree g (∅, 0)
  | CInsert i k v => on_tree g i (OInsert k v) g'
  | CDelete i k => on_tree g i (ODelete k) g'
  | CDeletePrefix i k => on_tree g i (ODeletePrefix k) g'
  | CClone i => g' = match g_trees g !! i with Some t => add_tree g t | None => g end
  | CTxn i => g' = match g_trees g !! i with Some t => add_txn g (t, true) | None => g end
  | CTInsert j k v => on_txn g j (OInsert k v) g'
  | CTDelete j k => on_txn g j (ODelete k) g'
  | CTDeletePrefix j k => on_txn g j (ODeletePrefix k) g'
  | CCommit j | CCommitOnly j => g' = match g_txns g !! j with Some x => add_tree g x.1 | None => g end
  | CTClone j => g' = match g_txns g !! j with Some x => add_txn g (x.1, true) | None => g end
  | CGetWatch _ k | CSeekWatch _ k | CTGetWatch _ k => is_bytes k /\ g' = g
  | CTrack _ _ | CNotify _ => g' = g
  end.
(** The histories that are covered, and the reference state they lead to. *)
Inductive covered : list (call V) -> gstate -> Prop :=
| covered_nil : covered [] g_init
| covered_snoc cs g c g' : covered cs g -> gstep c g g' -> covered (cs ++ [c]) g'.

(** What a call in state g may return. *)
Definition tree_result (g : gstate) (i : nat) (P : kmap -> result V -> Prop) (r : result V) : Prop :=
  match g_trees g !! i with None => r = RUnit | Some (m, _) => P m r end.
Definition txn_result (g : gstate) (j : nat) (P : kmap -> result V -> Prop) (r : result V) : Prop :=
  match g_txns g !! j with None => r = RUnit | Some (m, _, _) => P m r end.
Definition watch_result (k : bytes) (m : kmap) (r : result V) : Prop := exists ch, r = RWatch ch (ref_get m k).1 (ref_get m k).2.
Definition returns (c : call V) (g : gstate) (r : result V) : Prop :=
  match c with
  | CInsert i k v => tree_result g i (fun m => result_ok m (OInsert k v)) r
  | CDelete i k => tree_result g i (fun m => result_ok m (ODelete k)) r
  | CDeletePrefix i k => tree_result g i (fun m => result_ok m (ODeletePrefix k)) r
  | CTInsert j k v => txn_result g j (fun m => result_ok m (OInsert k v)) r
  | CTDelete j k => txn_result g j (fun m => result_ok m (ODelete k)) r
  | CTDeletePrefix j k => txn_result g j (fun m => result_ok m (ODeletePrefix k)) r
  | CGetWatch i k => tree_result g i (watch_result k) r
  | CTGetWatch j k => txn_result g j (watch_result k) r
  | CSeekWatch i _ => tree_result g i (fun _ r => exists ch, r = RWatch ch go_zero true) r
  | _ => r = RUnit
  end.

(** [reads_as h a m]: the reads of the tree with root a answer as the map m; the claims from ra_lower_all to ra_revlower are
    on the lower bound and reverse iterators, the last one is on DFS. *)
Record reads_as (h : heap V) (a : addr) (m : kmap) : Prop := mk_reads {
  ra_get : forall k, is_bytes k -> getFrom h a k = Ok (ref_get m k);
  ra_iter : forall p, is_bytes p -> last p <> Some dollar -> (m = ∅ -> p <> []) ->
    exists l, iterates h a p l /\ pairs_with m p l /\ (orderly m -> ascending l);
  ra_path : forall p, exists l, yields (pathNext h) (newPathIter a p) l /\ pairs_on_path m p l /\ (orderly m -> shortest_first l);
  ra_minmax : m <> ∅ -> forall s x, exists k v k' v', treeMinimum h (mkT a s x) = Ok (Some (k, v)) /\ treeMaximum h (mkT a s x) = Ok (Some (k', v')) /\
    m !! k = Some v /\ m !! k' = Some v' /\ (orderly m -> least m k v /\ greatest m k' v');
  ra_lower_all : m <> ∅ -> exists it l, seekLowerBound h (newLowerIter a) [] = Ok it /\ yields (lowerNext h) it l /\ l ≡ₚ map_to_list m /\ (orderly m -> ascending l);
  ra_lower : m <> ∅ -> prefix_free m -> narrow m -> forall k it, neat m k -> seekLowerBound h (newLowerIter a) k = Ok it ->
    exists l, yields (lowerNext h) it l /\ pairs_from m k l;
  ra_reverse : m <> ∅ -> m !! [] = None -> exists l, yields (prev h) (newRevIter a) l /\ l ≡ₚ map_to_list m /\ (prefix_free m -> descending l);
  ra_revprefix : m !! [] = None -> forall p, is_bytes p -> last p <> Some dollar -> (exists k, is_Some (m !! k) /\ p `prefix_of` k) ->
    exists ri l, revSeekPrefix h (newRevIter a) p = Ok ri /\ yields (prev h) ri l /\ pairs_with m p l /\ (prefix_free m -> descending l);
  ra_revlower : m <> ∅ -> orderly m -> narrow m -> forall k spare ri, neat m k -> seekReverseLowerBound h (newRevIter a) k spare = Ok ri ->
    exists l, yields (prev h) ri l /\ pairs_upto m k l;
  ra_dfs : m <> ∅ -> forall s x, exists l, treeDfs h (mkT a s x) = Ok l /\ NoDup (omap id l).*1 /\ (forall k v, Some (k, v) ∈ l -> m !! k = Some v) /\
    (narrow m -> omap id l ≡ₚ map_to_list m /\ (orderly m -> ascending (omap id l)))
}.
End SpecWorld.
Arguments gstate V : clear implicits.
