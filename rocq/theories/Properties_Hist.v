(** Facts about every history: any keys, any use of the API, panics included.  The proofs are in PropHist.v, with
    concrete cases. *)
From Verif Require Import Twin PropWorld PropHist Refute.
From stdpp Require Import list.
Local Open Scope nat_scope.
Local Open Scope list_scope.


(** C44: after every history, whatever its keys, prefix iteration below any root (of a tree, a transaction or an
    inner node) yields only keys with that prefix, for prefixes that do not end in '$'. *)
Theorem C44 : forall {V} `{GoZero V} (cs : list (call V)) rs w root p it l, exec cs w_init = (rs, w) -> last p <> Some dollar ->
  seekPrefix (w_h w) (newIter root) p = Ok it ->
  (forall it' k v it'', it_path it' = p -> iterNext (w_h w) it' = Ok (Some (k, v), it'') -> p `prefix_of` k /\ it_path it'' = p) /\
  (yields (iterNext (w_h w)) it l -> Forall (fun kv => p `prefix_of` kv.1) l).
Proof. exact @C44_proof. Qed.
Print Assumptions C44.

(** C45: after every history, Get on any root returns only values that were inserted under exactly that key. *)
Theorem C45 : forall {V} `{GoZero V} (cs : list (call V)) rs w root k v, exec cs w_init = (rs, w) ->
  getFrom (w_h w) root k = Ok (v, true) -> inserts cs k v.
Proof. exact @C45_proof. Qed.
Print Assumptions C45.

(** C46: after every history, every pair that any read returns (forward, path, lower bound and reverse iterators in
    any state, Minimum, Maximum, LongestPrefix) was inserted, or is the pair (nil, zero) of an empty tree. *)
Theorem C46 : forall {V} `{GoZero V} (cs : list (call V)) rs w kv, exec cs w_init = (rs, w) -> let h := w_h w in
  (exists it it', iterNext h it = Ok (Some kv, it')) \/ (exists it it', pathNext h it = Ok (Some kv, it')) \/
  (exists it it', lowerNext h it = Ok (Some kv, it')) \/ (exists ri ri', prev h ri = Ok (Some kv, ri')) \/
  (exists t, treeMinimum h t = Ok (Some kv)) \/ (exists t, treeMaximum h t = Ok (Some kv)) \/
  (exists root k, longestPrefixFrom h root k = Ok (Some kv)) -> known cs kv.
Proof. exact @C46_proof. Qed.
Print Assumptions C46.

(** C29: while TrackMutate(true) is never called, no channel is closed. *)
Theorem C29 : forall {V} `{GoZero V} (cs : list (call V)) rs w, exec cs w_init = (rs, w) -> (forall j, CTrack j true ∉ cs) -> h_closed (w_h w) = [].
Proof. exact @C29_proof. Qed.
Print Assumptions C29.

(** C31: only Notify and Commit close channels; of a tracking transaction they close exactly the recorded
    channels and forget them, otherwise they close nothing; no channel is ever closed twice; a second Notify
    closes nothing. *)
Theorem C31 : forall {V} `{GoZero V} (cs : list (call V)) rs w c r w', exec cs w_init = (rs, w) -> step c w = (r, w') ->
  NoDup (h_closed (w_h w')) /\
  (notifies c = None -> h_closed (w_h w') = h_closed (w_h w)) /\
  forall j x, notifies c = Some j -> w_txns w !! j = Some x ->
    (forall ch, ch ∈ h_closed (w_h w') <-> ch ∈ h_closed (w_h w) \/ (t_track x = true /\ ch ∈ t_chs x)) /\
    (forall r' w'', step (CNotify j) w' = (r', w'') -> h_closed (w_h w'') = h_closed (w_h w')).
Proof. exact @C31_proof. Qed.
Print Assumptions C31.
