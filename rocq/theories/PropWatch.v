(** Watches: when they must fire, with examples (restated in Properties_Watch.v). *)
From Verif Require Import PropWorld PropWorldRef WatchWorld NodeAbsent Refute ChanWorld.
From stdpp Require Import list.
Local Open Scope nat_scope.

(** *** C26: a watch on a stored key does not fire when the transaction that changes the key has deleted an
    absent key before. *)
Lemma C26_refuted_proof : exists (cs cs' : list (call nat)) c k,
  list.last cs = Some (CGetWatch 2 k) /\ list.last (wres cs) = Some (Ok (RWatch c 2 true)) /\
  cs' = cs ++ [CTxn 2; CTrack 0 true; CTDelete 0 (B "b"); CTInsert 0 k 3; CCommit 0] /\
  Forall (fun r => r <> Panic) (wres cs') /\ c ∉ h_closed (w_h (wrun cs')).
Proof.
  exists [CNew; CInsert 0 (B "") 1; CInsert 1 (B "a") 2; CGetWatch 2 (B "a")].
  eexists. exists 2, (B "a"). split; [done|]. split; [vc|]. split; [done|].
  split; [vm_compute; repeat constructor; done|]. apply (bool_decide_unpack _). vc.
Qed.

(** *** C26: in a covered history, let GetWatch find k on tree i and return the channel c.  After any other calls
    (mid) a transaction j of tree i is started; among other calls (body) it changes k, and commits.  If all updates
    of j happen while j tracks, and no other transaction updates while it tracks, then c is closed. *)
Lemma C26_partial_proof (V : Type) (H : GoZero V) (i : nat) (k : bytes) (c : chan) (v : V) (cs1 mid body : list (call V)) (rs1 rs : list (outcome (result V)))
    (w1 w : world V) (g : gstate V) :
  let before := cs1 ++ CGetWatch i k :: mid in
  let j := length (w_txns w1) in
  let cs := before ++ CTxn i :: body ++ [CCommit j] in
  covered cs g -> disciplined cs -> (N.of_nat (length cs) < 2 ^ 64)%N ->
  exec before w_init = (rs1, w1) -> rs1 !! length cs1 = Some (Ok (RWatch c v true)) ->
  fair j (cs1 ++ [CGetWatch i k]) (mid ++ CTxn i :: body) -> tracked_change j body k ->
  exec cs w_init = (rs, w) -> c ∈ h_closed (w_h w).
Proof. exact (watch_fires i k c v cs1 mid rs1 w1 body g rs w). Qed.

(** *** C27: in a covered history, let GetWatch not find k on tree i and return the channel c, and let every stored key
    that agrees with k on its first ten bytes be a prefix of k.  After any other calls (mid) a transaction j of tree i is
    started; among other calls (body) it inserts k, and commits.  If all updates of j happen while j tracks, and no other
    transaction updates while it tracks, then c is closed. *)
Lemma C27_partial_proof (V : Type) (H : GoZero V) (i : nat) (k : bytes) (c : chan) (v : V) (cs1 mid body : list (call V)) (rs1 rs : list (outcome (result V)))
    (w1 w : world V) (g g1 : gstate V) (m : gmap (list nat) V) (d : nat) :
  let before := cs1 ++ CGetWatch i k :: mid in
  let j := length (w_txns w1) in
  let cs := before ++ CTxn i :: body ++ [CCommit j] in
  covered cs g -> disciplined cs -> (N.of_nat (length cs) < 2 ^ 64)%N ->
  covered cs1 g1 -> g_trees g1 !! i = Some (m, d) -> valid_key k -> no_long_twin m k ->
  exec before w_init = (rs1, w1) -> rs1 !! length cs1 = Some (Ok (RWatch c v false)) ->
  fair j (cs1 ++ [CGetWatch i k]) (mid ++ CTxn i :: body) -> tracked_change j body k ->
  exec cs w_init = (rs, w) -> c ∈ h_closed (w_h w).
Proof. exact (absent_fires i k c v cs1 mid rs1 w1 body g rs w g1 m d). Qed.

(** *** C37: a prefix watch does not fire when the transaction that changes a key with the prefix has deleted an
    absent key before. *)
Lemma C37_refuted_proof : exists (cs cs' : list (call nat)) c p k,
  list.last cs = Some (CSeekWatch 2 p) /\ list.last (wres cs) = Some (Ok (RWatch c 0 true)) /\ p `prefix_of` k /\ valid_key k /\
  cs' = cs ++ [CTxn 2; CTrack 0 true; CTDelete 0 (B "b"); CTInsert 0 k 3; CCommit 0] /\
  Forall (fun r => r <> Panic) (wres cs') /\ c ∉ h_closed (w_h (wrun cs')).
Proof.
  exists [CNew; CInsert 0 (B "") 1; CInsert 1 (B "a") 2; CSeekWatch 2 (B "a")].
  eexists. exists 2, (B "a"), (B "a"). split; [done|]. split; [vc|]. split; [done|]. split; [valid|]. split; [done|].
  split; [vm_compute; repeat constructor; done|]. apply (bool_decide_unpack _). vc.
Qed.

(** *** C37: in a covered history, let SeekPrefixWatch(p) on tree i return the channel c.  After any other calls (mid)
    a transaction j of tree i is started; among other calls (body) it changes a key that starts with p, and commits.
    If all updates of j happen while j tracks, and no other transaction updates while it tracks, then c is closed. *)
Lemma C37_partial_proof (V : Type) (H : GoZero V) (i : nat) (p k : bytes) (c : chan) (v : V) (cs1 mid body : list (call V)) (rs1 rs : list (outcome (result V)))
    (w1 w : world V) (g : gstate V) :
  let before := cs1 ++ CSeekWatch i p :: mid in
  let j := length (w_txns w1) in
  let cs := before ++ CTxn i :: body ++ [CCommit j] in
  covered cs g -> disciplined cs -> (N.of_nat (length cs) < 2 ^ 64)%N ->
  exec before w_init = (rs1, w1) -> rs1 !! length cs1 = Some (Ok (RWatch c v true)) ->
  fair j (cs1 ++ [CSeekWatch i p]) (mid ++ CTxn i :: body) -> tracked_change j body k -> p `prefix_of` k ->
  exec cs w_init = (rs, w) -> c ∈ h_closed (w_h w).
Proof. exact (seek_fires c i p k v cs1 mid rs1 w1 body g rs w). Qed.

(** *** C30: in a covered history, if a call closes a channel that a GetWatch has handed out with k, then the call is the Commit
    or Notify of a transaction j that tracks, and j has changed k, or has inserted a new key that is a prefix or an
    extension of k, or has deleted an extension of k, while it tracked. *)
Lemma C30_partial_proof (V : Type) (H : GoZero V) (cs : list (call V)) (cl : call V) (g : gstate V) (rs : list (outcome (result V))) (w w' : world V)
    (r : outcome (result V)) (k : bytes) (c : chan) :
  covered (cs ++ [cl]) g -> disciplined (cs ++ [cl]) -> (N.of_nat (length (cs ++ [cl])) < 2 ^ 64)%N ->
  exec cs w_init = (rs, w) -> handed_out cs rs k c -> step cl w = (r, w') -> c ∉ h_closed (w_h w) -> c ∈ h_closed (w_h w') ->
  exists j, (cl = CCommit j \/ cl = CNotify j) /\ tracks cs j = true /\ culprit cs j k.
Proof. exact (watch_cause cs cl g rs w r w' k c). Qed.

(** *** C30: a transaction that only inserts extensions of "a" fires the watch on "a". *)
Lemma C30_grow_refuted_proof : exists (cs cs' : list (call nat)) c k,
  list.last cs = Some (CGetWatch 2 k) /\ list.last (wres cs) = Some (Ok (RWatch c 1 true)) /\ k = B "a" /\
  cs' = cs ++ [CTxn 2; CTrack 0 true; CTInsert 0 (B "ac") 3; CTInsert 0 (B "ad") 4; CTInsert 0 (B "ae") 5; CTInsert 0 (B "af") 6; CCommit 0] /\
  c ∈ h_closed (w_h (wrun cs')).
Proof.
  exists [CNew; CInsert 0 (B "a") 1; CInsert 1 (B "ab") 2; CGetWatch 2 (B "a")].
  eexists. exists 2, (B "a"). split; [done|]. split; [vc|]. split; [done|]. split; [done|]. apply (bool_decide_unpack _). vc.
Qed.
(** *** C30: a transaction that only deletes extensions of "a" fires the watch on "a". *)
Lemma C30_shrink_refuted_proof : exists (cs cs' : list (call nat)) c k,
  list.last cs = Some (CGetWatch 6 k) /\ list.last (wres cs) = Some (Ok (RWatch c 1 true)) /\ k = B "a" /\
  cs' = cs ++ [CTxn 6; CTrack 0 true; CTDelete 0 (B "ab"); CTDelete 0 (B "ac"); CTDelete 0 (B "ad"); CCommit 0] /\
  Forall (fun r => r <> Panic) (wres cs') /\ c ∈ h_closed (w_h (wrun cs')).
Proof.
  exists [CNew; CInsert 0 (B "a") 1; CInsert 1 (B "ab") 2; CInsert 2 (B "ac") 3; CInsert 3 (B "ad") 4; CInsert 4 (B "ae") 5; CInsert 5 (B "af") 6; CGetWatch 6 (B "a")].
  eexists. exists 3, (B "a"). split; [done|]. split; [vc|]. split; [done|]. split; [done|]. split; [vm_compute; repeat constructor; done|]. apply (bool_decide_unpack _). vc.
Qed.

(** *** C57: in every history, a channel that GetWatch has returned with a key it has found is returned with no other key, and
    not by a GetWatch that has not found its key, nor by SeekPrefixWatch. *)
Lemma C57_kinds_proof (V : Type) (H : GoZero V) (cs : list (call V)) (rs : list (outcome (result V))) (w : world V) (k : bytes) (c : chan) :
  exec cs w_init = (rs, w) -> handed_out cs rs k c -> (forall k', handed_out cs rs k' c -> k' = k) /\ ~ handed_node cs rs c.
Proof. exact (watch_kinds cs rs w k c). Qed.

(** ** A concrete case *)
Fixpoint fairb {V} (j : nat) (past cs : list (call V)) : bool :=
  match cs with
  | [] => true
  | c :: cs' => match updates c with Some j' => Nat.eqb j' j || negb (tracks past j') | None => true end && fairb j (past ++ [c]) cs'
  end.
Lemma fairb_ok {V} j (cs : list (call V)) : forall past, fairb j past cs = true -> fair j past cs.
Proof.
  induction cs as [|c cs IH]; intros past Hb a d b j' E Hu Hj; [by destruct a|]. cbn in Hb. apply andb_true_iff in Hb as [H1 H2].
  destruct a as [|c1 a]; injection E as -> E.
  - rewrite Hu in H1. rewrite app_nil_r. destruct (Nat.eqb_spec j' j); [done|]. by destruct (tracks past j').
  - specialize (IH _ H2 a d b j' E Hu Hj). by rewrite <- app_assoc in IH.
Qed.
Fixpoint ownb {V} (j : nat) (past body : list (call V)) : bool :=
  match body with
  | [] => true
  | c :: cs' => (negb (bool_decide (updates c = Some j)) || tracks past j) && ownb j (past ++ [c]) cs'
  end.
Lemma ownb_ok {V} j (cs : list (call V)) : forall past, ownb j past cs = true -> forall a d b, cs = a ++ d :: b -> updates d = Some j -> tracks (past ++ a) j = true.
Proof.
  induction cs as [|c cs IH]; intros past Hb a d b E Hu; [by destruct a|]. cbn in Hb. apply andb_true_iff in Hb as [H1 H2].
  destruct a as [|c1 a]; injection E as -> E.
  - rewrite app_nil_r. by rewrite bool_decide_eq_true_2 in H1.
  - specialize (IH _ H2 a d b E Hu). by rewrite <- app_assoc in IH.
Qed.

(** Keys "abc", "abd", "a", "ab" on tree 4.  After the watch on "abc", another tree grows from tree 4 and transaction 0 runs
    without tracking.  Transaction 1 splits and deletes around "abc" before it overwrites it. *)
Definition exw_1 : list (call nat) := [CNew; CInsert 0 (B "abc") 1; CInsert 1 (B "abd") 2; CInsert 2 (B "a") 3; CInsert 3 (B "ab") 4].
Definition exw_mid : list (call nat) := [CInsert 4 (B "abce") 5; CTxn 4; CTInsert 0 (B "abc") 6; CDelete 4 (B "abc"); CGetWatch 4 (B "abd")].
Definition exw_body : list (call nat) :=
  [CTrack 1 true; CTDelete 1 (B "abd"); CTInsert 1 (B "q") 7; CTDelete 0 (B "ab"); CTInsert 1 (B "abx") 8; CTDelete 1 (B "abc"); CTInsert 1 (B "abc") 10; CTrack 0 true].
Example ex_watch : let before := exw_1 ++ CGetWatch 4 (B "abc") :: exw_mid in let j := length (w_txns (wrun before)) in
  let cs := before ++ CTxn 4 :: exw_body ++ [CCommit j] in
  (exists g, covered cs g) /\ disciplined cs /\ (exists c, wres before !! length exw_1 = Some (Ok (RWatch c 1 true))) /\
  fair j (exw_1 ++ [CGetWatch 4 (B "abc")]) (exw_mid ++ CTxn 4 :: exw_body) /\ tracked_change j exw_body (B "abc").
Proof.
  cbv zeta. split; [|split; [|split; [|split]]].
  - eexists. apply covered_start. refine (_ : coveredb _ _ = Some (default g_init (coveredb (exw_1 ++ CGetWatch 4 (B "abc") :: exw_mid ++ CTxn 4 :: exw_body ++ [CCommit 1]) g_init))). vm_compute. reflexivity.
  - apply disc_b_sound. vc.
  - eexists. vc.
  - apply fairb_ok. vc.
  - replace (length (w_txns (wrun (exw_1 ++ CGetWatch 4 (B "abc") :: exw_mid)))) with 1 by vc. split.
    + refine (ownb_ok 1 exw_body [] _). vc.
    + vc.
    + exists (CTDelete 1 (B "abc")). split; [|by left]. unfold exw_body. do 5 apply elem_of_list_further. apply elem_of_list_here.
Qed.

(** The same tree; the watch is on the prefix "ab", below which the transaction deletes before it inserts "abq". *)
Definition exs_body : list (call nat) :=
  [CTrack 1 true; CTInsert 1 (B "q") 7; CTDelete 0 (B "ab"); CTDelete 1 (B "a"); CTInsert 1 (B "abq") 8; CTrack 0 true].
Example ex_seek_watch : let before := exw_1 ++ CSeekWatch 4 (B "ab") :: exw_mid in let j := length (w_txns (wrun before)) in
  let cs := before ++ CTxn 4 :: exs_body ++ [CCommit j] in
  (exists g, covered cs g) /\ disciplined cs /\ (exists c, wres before !! length exw_1 = Some (Ok (RWatch c 0 true))) /\
  fair j (exw_1 ++ [CSeekWatch 4 (B "ab")]) (exw_mid ++ CTxn 4 :: exs_body) /\ tracked_change j exs_body (B "abq") /\ B "ab" `prefix_of` B "abq".
Proof.
  cbv zeta. split; [|split; [|split; [|split; [|split]]]].
  - eexists. apply covered_start. refine (_ : coveredb _ _ = Some (default g_init (coveredb (exw_1 ++ CSeekWatch 4 (B "ab") :: exw_mid ++ CTxn 4 :: exs_body ++ [CCommit 1]) g_init))). vm_compute. reflexivity.
  - apply disc_b_sound. vc.
  - eexists. vc.
  - apply fairb_ok. vc.
  - replace (length (w_txns (wrun (exw_1 ++ CSeekWatch 4 (B "ab") :: exw_mid)))) with 1 by vc. split.
    + refine (ownb_ok 1 exs_body [] _). vc.
    + vc.
    + exists (CTInsert 1 (B "abq") 8). split; [|right; by eexists]. unfold exs_body. do 4 apply elem_of_list_further. apply elem_of_list_here.
  - by exists (B "q").
Qed.

(** The same tree; the watch is on the absent key "abq". *)
Example ex_absent_watch : let before := exw_1 ++ CGetWatch 4 (B "abq") :: exw_mid in let j := length (w_txns (wrun before)) in
  let cs := before ++ CTxn 4 :: exs_body ++ [CCommit j] in
  (exists g, covered cs g) /\ disciplined cs /\ (exists c, wres before !! length exw_1 = Some (Ok (RWatch c 0 false))) /\
  (exists g1 m d, covered exw_1 g1 /\ g_trees g1 !! 4 = Some (m, d) /\ no_long_twin m (B "abq")) /\ valid_key (B "abq") /\
  fair j (exw_1 ++ [CGetWatch 4 (B "abq")]) (exw_mid ++ CTxn 4 :: exs_body) /\ tracked_change j exs_body (B "abq").
Proof.
  cbv zeta. split; [|split; [|split; [|split; [|split; [|split]]]]].
  - eexists. apply covered_start. refine (_ : coveredb _ _ = Some (default g_init (coveredb (exw_1 ++ CGetWatch 4 (B "abq") :: exw_mid ++ CTxn 4 :: exs_body ++ [CCommit 1]) g_init))). vm_compute. reflexivity.
  - apply disc_b_sound. vc.
  - eexists. vc.
  - exists (default g_init (coveredb exw_1 g_init)). eexists _, _. split; [|split; [vm_compute; reflexivity|]].
    + apply covered_start. vm_compute. reflexivity.
    + intros k' _ Hl. cbn in Hl. lia.
  - valid.
  - apply fairb_ok. vc.
  - replace (length (w_txns (wrun (exw_1 ++ CGetWatch 4 (B "abq") :: exw_mid)))) with 1 by vc. split.
    + refine (ownb_ok 1 exs_body [] _). vc.
    + vc.
    + exists (CTInsert 1 (B "abq") 8). split; [|right; by eexists]. unfold exs_body. do 4 apply elem_of_list_further. apply elem_of_list_here.
Qed.

(** The watch on "ab" is closed by transaction 0, which has inserted "a"; before, transaction 1 has changed other keys without closing it. *)
Definition exc : list (call nat) := [CNew; CInsert 0 (B "ab") 1; CInsert 1 (B "x") 2; CGetWatch 2 (B "ab"); CTxn 2; CTxn 2; CTrack 0 true; CTrack 1 true;
  CTInsert 1 (B "ac") 3; CTDelete 1 (B "x"); CCommit 1; CTInsert 0 (B "a") 4].
Example ex_cause : exists c, (exists g, covered (exc ++ [CCommit 0]) g) /\ disciplined (exc ++ [CCommit 0]) /\ handed_out exc (wres exc) (B "ab") c /\
  h_closed (w_h (wrun exc)) <> [] /\ c ∉ h_closed (w_h (wrun exc)) /\ c ∈ h_closed (w_h (step (CCommit 0) (wrun exc)).2).
Proof.
  exists 2. split; [|split; [|split; [|split; [|split]]]].
  - eexists. apply covered_start. refine (_ : coveredb _ _ = Some (default g_init (coveredb (exc ++ [CCommit 0]) g_init))). vm_compute. reflexivity.
  - apply disc_b_sound. vc.
  - exists 3, 2, 1. split; [by left|]. vc.
  - vm_compute. done.
  - apply (bool_decide_unpack _). vc.
  - apply (bool_decide_unpack _). vc.
Qed.
(** Every transaction changes some other key; the channels of "ab", of the absent "q" and of the prefix "a" differ. *)
Example ex_kinds : exists c c' c'' c3, wres (exc ++ [CGetWatch 2 (B "x"); CGetWatch 2 (B "q"); CSeekWatch 2 (B "a"); CTGetWatch 1 (B "ab")]) =
  wres exc ++ [Ok (RWatch c 2 true); Ok (RWatch c' 0 false); Ok (RWatch c'' 0 true); Ok (RWatch c3 1 true)] /\ NoDup [c; c'; c''; c3].
Proof. eexists _, _, _, _. split; [vm_compute; reflexivity|]. apply (bool_decide_unpack _). vc. Qed.
