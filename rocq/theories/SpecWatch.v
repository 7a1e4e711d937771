(** Specification of watches: which transactions track, and the histories in which a watch on a stored key
    must fire.  Nothing here mentions nodes, leaves or memory. *)
From Verif Require Export SpecWorld WorldInv.
From stdpp Require Import list.
Local Open Scope nat_scope.

Section SpecWatch.
Context {V : Type} `{GoZero V}.

(** Whether transaction j tracks after the calls cs if it did not before: the argument of the last TrackMutate. *)
Definition tracks (cs : list (call V)) (j : nat) : bool :=
  foldl (fun b c => match c with CTrack j' b' => if Nat.eqb j' j then b' else b | _ => b end) false cs.
(** An Insert or Delete of key k in transaction j. *)
Definition changes (c : call V) (j : nat) (k : bytes) : Prop := c = CTDelete j k \/ exists v, c = CTInsert j k v.
(** [fair j past cs]: in the calls cs, which follow past, no transaction other than j updates anything while it tracks. *)
Definition fair (j : nat) (past cs : list (call V)) : Prop :=
  forall a c b j', cs = a ++ c :: b -> updates c = Some j' -> j' <> j -> tracks (past ++ a) j' = false.
(** The calls on a new transaction j: all its updates happen while it tracks, so does the final Commit, and
    at least one of them changes k. *)
Record tracked_change (j : nat) (body : list (call V)) (k : bytes) : Prop := mk_tracked {
  tc_own : forall a c b, body = a ++ c :: b -> updates c = Some j -> tracks a j = true;
  tc_commit : tracks body j = true;
  tc_hit : exists c, c ∈ body /\ changes c j k }.
(** Every stored key that agrees with k on its first ten bytes is a prefix of k. *)
Definition no_long_twin (m : gmap (list nat) V) (k : bytes) : Prop :=
  forall k', is_Some (m !! k') -> 10 <= length k -> take 10 k `prefix_of` k' -> k' `prefix_of` k.

(** [touches m k u j]: the update u of transaction j, made while the transaction holds m, changes k, or inserts a new
    key that is a prefix or an extension of k, or deletes an extension of k. *)
Definition touches (m : gmap (list nat) V) (k : bytes) (u : call V) (j : nat) : Prop :=
  match u with
  | CTInsert j' k' _ => j' = j /\ (k' = k \/ (m !! k' = None /\ (k `prefix_of` k' \/ k' `prefix_of` k)))
  | CTDelete j' k' => j' = j /\ k `prefix_of` k'
  | _ => False
  end.
(** Among the calls cs, transaction j has made such an update while it tracked. *)
Definition culprit (cs : list (call V)) (j : nat) (k : bytes) : Prop :=
  exists a u b g m d f, cs = a ++ u :: b /\ covered a g /\ g_txns g !! j = Some (m, d, f) /\ tracks a j = true /\ touches m k u j.
(** A GetWatch among the calls cs with results rs has found k and has returned the channel c. *)
Definition handed_out (cs : list (call V)) (rs : list (outcome (result V))) (k : bytes) (c : chan) : Prop :=
  exists n i v, (cs !! n = Some (CGetWatch i k) \/ cs !! n = Some (CTGetWatch i k)) /\ rs !! n = Some (Ok (RWatch c v true)).
(** A GetWatch that has not found its key, or a SeekPrefixWatch, has returned the channel c. *)
Definition handed_node (cs : list (call V)) (rs : list (outcome (result V))) (c : chan) : Prop :=
  exists n i k v b, ((cs !! n = Some (CGetWatch i k) \/ cs !! n = Some (CTGetWatch i k)) /\ b = false \/ cs !! n = Some (CSeekWatch i k)) /\
    rs !! n = Some (Ok (RWatch c v b)).
End SpecWatch.
