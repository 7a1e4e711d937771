(** Counterexamples: properties of properties.jsonl that the code does not have, with the shortest witnesses
    found.  All witnesses are runs of the model on values of type nat. *)
From Verif Require Export Witness.
Local Open Scope string_scope.
Local Open Scope nat_scope.
Local Open Scope list_scope.

Notation I k v := (OInsert (V:=nat) (B k) v).
Notation D k := (ODelete (V:=nat) (B k)).
Notation P k := (ODeletePrefix (V:=nat) (B k)).

Definition op_key {V} (o : op V) : bytes :=
  match o with OInsert k _ => k | ODelete k => k | ODeletePrefix k => k end.
Definition is_insert {V} (o : op V) : Prop := match o with OInsert _ _ => True | _ => False end.

Lemma run_intro {S A} (m : M S A) s r : (m s).1 = r -> m s = (r, (m s).2).
Proof. intros <-. by destruct (m s). Qed.

Ltac vc := vm_compute; try reflexivity.
Ltac valid := repeat constructor; vm_compute; lia.

(** *** C01, C24: three Insert calls with keys that contain '$' panic (txn.go:200). *)
Lemma C01_panic_refuted_proof : exists os : list (op nat), Forall is_insert os /\ build_panics os.
Proof. exists [I "a$" 1; I "a$b" 2; I "a" 3]. split; [by repeat constructor|]. vc. Qed.

(** *** C01: with keys that contain '$' an inserted pair may be lost silently: the key is in the reference
    map, no call panicked, and Get does not find it. *)
Lemma C01_lost_refuted_proof : exists (os : list (op nat)) h t rs k v,
  Forall is_insert os /\ build os h t rs /\ ref_ops os ∅ !! k = Some v /\ treeGet h t k = Ok (0, false).
Proof.
  exists [I "a$b" 1; I "a$c" 2; I "a" 3]. do 3 eexists. exists (B "a"), 3.
  split; [by repeat constructor|]. split; [apply build_intro; vc|]. split; vc.
Qed.

(** *** C04: Delete of an absent key wipes other keys and leaves Len as it was. *)
Lemma C04_refuted_proof : exists (os : list (op nat)) h t rs k h' t' r k' v',
  Forall (fun o => valid_key (op_key o)) os /\ valid_key k /\
  build os h t rs /\ ref_ops os ∅ !! k = None /\ treeDelete t k h = (Ok (t', r), h') /\
  ref_ops os ∅ !! k' = Some v' /\ treeGet h t k' = Ok (v', true) /\ treeGet h' t' k' = Ok (0, false) /\
  treeLen t' = treeLen t.
Proof.
  exists [I "ab" 1; I "ac" 2]. do 3 eexists. exists (B "ad"). do 3 eexists. exists (B "ab"), 1.
  split; [valid|]. split; [valid|]. split; [apply build_intro; vc|]. split; [vc|].
  split; [apply run_intro; vc|]. split_and!; vc.
Qed.

(** *** C05: Insert of a stored key reports (zero, false) when the key lives in an inner node
    (txn.go:165-171). *)
Lemma C05_refuted_proof : exists (os : list (op nat)) h t rs k v h' t' r,
  Forall (fun o => valid_key (op_key o)) os /\ valid_key k /\
  build os h t rs /\ treeGet h t k = Ok (1, true) /\ treeInsert t k v h = (Ok (t', r), h') /\ r = (0, false).
Proof.
  exists [I "a" 1; I "ab" 2]. do 3 eexists. exists (B "a"), 3. do 3 eexists.
  split; [valid|]. split; [valid|]. split; [apply build_intro; vc|]. split; [vc|].
  split; [apply run_intro; vc|]. vc.
Qed.

(** *** C06: and then Len counts the key twice. *)
Lemma C06_refuted_proof : exists (os : list (op nat)) h t rs,
  Forall (fun o => valid_key (op_key o) /\ is_insert o) os /\ build os h t rs /\
  treeLen t = 3%N /\ size (ref_ops os ∅) = 2.
Proof.
  exists [I "a" 1; I "ab" 2; I "a" 3]. do 3 eexists.
  split; [valid|]. split; [apply build_intro; vc|]. split; vc.
Qed.

(** *** C10: further use of a transaction after Commit changes the committed tree. *)
Lemma C10_refuted_proof : exists (cs : list (call nat)) (j : nat) k v i t,
  let w := wrun cs in let w' := (step (CTInsert j k v) w).2 in
  valid_key k /\ w_trees w !! i = Some t /\
  treeGet (w_h w) t k = Ok (1, true) /\ treeGet (w_h w') t k = Ok (2, true).
Proof.
  exists [CNew; CTxn 0; CTInsert 0 (B "a") 1; CCommit 0], 0, (B "a"), 2, 1. eexists.
  cbv zeta. split; [valid|]. split; [vc|]. split; vc.
Qed.

(** *** C11: after c := txn.Clone(), Insert on the original transaction is visible in the clone. *)
Lemma C11_refuted_proof : exists (cs : list (call nat)) k v x,
  let w := wrun (cs ++ [CTClone 0]) in let w' := (step (CTInsert 0 k v) w).2 in
  valid_key k /\ w_txns w !! 1 = Some x /\ w_txns w' !! 1 = Some x /\
  txnGet (w_h w) x k = Ok (1, true) /\ txnGet (w_h w') x k = Ok (9, true).
Proof.
  exists [CNew; CTxn 0; CTInsert 0 (B "ab") 1; CTInsert 0 (B "ac") 1], (B "ab"), 9. eexists.
  cbv zeta. split; [valid|]. split_and!; vc.
Qed.

(** *** C12, C16: iterating an empty tree yields the pair (nil, zero). *)
Lemma C16_refuted_proof : exists h t rs,
  build (V:=nat) [] h t rs /\ treeLen t = 0%N /\ iterates h (r_root t) [] [([], 0)].
Proof.
  do 3 eexists. split; [apply build_intro; vc|]. split; [vc|]. apply collect_iterates. vc.
Qed.
(** ... and LongestPrefix reports a match. *)
Lemma C16_longest_refuted_proof : exists h t rs k,
  build (V:=nat) [] h t rs /\ treeLen t = 0%N /\ treeLongestPrefix h t k = Ok (Some ([], 0)).
Proof. do 3 eexists. exists (B "x"). split; [apply build_intro; vc|]. split; vc. Qed.

(** *** C13: bytes below '$' are yielded before the shorter key. *)
Lemma C13_refuted_proof : exists (os : list (op nat)) h t rs l k k' v v' l',
  Forall (fun o => valid_key (op_key o) /\ is_insert o) os /\ build os h t rs /\
  iterates h (r_root t) [] l /\ l = (k, v) :: (k', v') :: l' /\ klt k' k.
Proof.
  exists [I "ab" 1; I "ac" 2; I "a" 3; I "a!" 4]. do 9 eexists.
  split; [valid|]. split; [apply build_intro; vc|]. split; [apply collect_iterates; vc|].
  split; [vc|]. vm_compute. lia.
Qed.

(** *** C14: a prefix ending in '$' selects the key without the '$'. *)
Lemma C14_refuted_proof : exists (os : list (op nat)) h t rs p k v,
  Forall (fun o => valid_key (op_key o) /\ is_insert o) os /\ build os h t rs /\
  iterates h (r_root t) p [(k, v)] /\ has_prefix k p = false.
Proof.
  exists [I "a" 1]. do 3 eexists. exists (B "a$"). do 2 eexists.
  split; [valid|]. split; [apply build_intro; vc|]. split; [apply collect_iterates; vc|]. vc.
Qed.

(** *** C17: Minimum and Maximum are wrong in the presence of bytes below '$'. *)
Lemma C17_min_refuted_proof : exists (os : list (op nat)) h t rs k v k',
  Forall (fun o => valid_key (op_key o) /\ is_insert o) os /\ build os h t rs /\
  treeMinimum h t = Ok (Some (k, v)) /\ is_Some (ref_ops os ∅ !! k') /\ klt k' k.
Proof.
  exists [I "ab" 1; I "ac" 2; I "a" 3; I "a!" 4]. do 5 eexists. exists (B "a").
  split; [valid|]. split; [apply build_intro; vc|]. split; [vc|]. split; [vm_compute; eauto|vm_compute; lia].
Qed.
Lemma C17_max_refuted_proof : exists (os : list (op nat)) h t rs k v k',
  Forall (fun o => valid_key (op_key o) /\ is_insert o) os /\ build os h t rs /\
  treeMaximum h t = Ok (Some (k, v)) /\ is_Some (ref_ops os ∅ !! k') /\ klt k k'.
Proof.
  exists [I "a!" 1; I "a#" 2; I "a" 3]. do 5 eexists. exists (B "a#").
  split; [valid|]. split; [apply build_intro; vc|]. split; [vc|]. split; [vm_compute; eauto|vm_compute; lia].
Qed.

(** *** C18: LongestPrefix returns a key that is not a prefix of the query. *)
Lemma C18_refuted_proof : exists (os : list (op nat)) h t rs q k v,
  Forall (fun o => valid_key (op_key o) /\ is_insert o) os /\ build os h t rs /\ valid_key q /\
  treeLongestPrefix h t q = Ok (Some (k, v)) /\ has_prefix q k = false.
Proof.
  exists [I "foo" 1]. do 3 eexists. exists (B "bar"). do 2 eexists.
  split; [valid|]. split; [apply build_intro; vc|]. split; [valid|]. split; vc.
Qed.
(** ... or not the longest one. *)
Lemma C18_longer_refuted_proof : exists (os : list (op nat)) h t rs q k v k',
  Forall (fun o => valid_key (op_key o) /\ is_insert o) os /\ build os h t rs /\ valid_key q /\
  treeLongestPrefix h t q = Ok (Some (k, v)) /\ is_Some (ref_ops os ∅ !! k') /\ has_prefix q k' = true /\
  List.length k < List.length k'.
Proof.
  exists [I "ab" 1; I "ac" 2; I "a" 3; I "a!" 4]. do 3 eexists. exists (B "a!"). do 2 eexists. exists (B "a!").
  split; [valid|]. split; [apply build_intro; vc|]. split; [valid|]. split; [vc|].
  split; [vm_compute; eauto|]. split; [vc|vm_compute; lia].
Qed.

(** *** C19: the path iterator yields the longer prefix first when its next byte is below '$'. *)
Lemma C19_refuted_proof : exists (os : list (op nat)) h t rs p k v k' v',
  Forall (fun o => valid_key (op_key o) /\ is_insert o) os /\ build os h t rs /\ valid_key p /\
  yields (pathNext h) (newPathIter (r_root t) p) [(k, v); (k', v')] /\ List.length k' < List.length k.
Proof.
  exists [I "ab" 1; I "ac" 2; I "a" 3; I "a!" 4]. do 3 eexists. exists (B "a!"). do 4 eexists.
  split; [valid|]. split; [apply build_intro; vc|]. split; [valid|].
  split; [apply (drain_yields 5); vc|vm_compute; lia].
Qed.

(** *** C20: Walk misses keys that live in inner nodes and passes zero values. *)
Lemma C20_refuted_proof : exists (os : list (op nat)) h t rs,
  Forall (fun o => valid_key (op_key o) /\ is_insert o) os /\ build os h t rs /\
  ref_ops os ∅ !! B "a" = Some 1 /\ ref_ops os ∅ !! B "ab" = Some 2 /\
  treeWalk (fun k v acc => (acc ++ [(k, v)], false)) h t [] = Ok [(B "ab", 0)].
Proof.
  exists [I "a" 1; I "ab" 2]. do 3 eexists.
  split; [valid|]. split; [apply build_intro; vc|]. split_and!; vc.
Qed.

(** *** C21: DeletePrefix does not remove a key that lives in an inner node, although Len counts it as
    removed. *)
Lemma C21_refuted_proof : exists (os : list (op nat)) h t rs p k v,
  Forall (fun o => valid_key (op_key o)) os /\ build (os ++ [ODeletePrefix p]) h t rs /\
  has_prefix k p = true /\ treeGet h t k = Ok (v, true) /\ treeLen t = 1%N /\
  iterates h (r_root t) [] [(B "a", 1); (B "b", 3)].
Proof.
  exists [I "a" 1; I "ab" 2; I "b" 3]. do 3 eexists. exists (B "a"), (B "a"), 1.
  split; [valid|]. split; [apply build_intro; vc|]. split; [vc|]. split; [vc|]. split; [vc|].
  apply collect_iterates. vc.
Qed.

(** *** C22: SeekLowerBound panics (lower_bound_iterator.go:291). *)
Lemma C22_refuted_proof : exists (os : list (op nat)) h t rs k,
  Forall (fun o => valid_key (op_key o) /\ is_insert o) os /\ build os h t rs /\ valid_key k /\
  seekLowerBound h (newLowerIter (r_root t)) k = Panic.
Proof.
  exists [I "ab" 1; I "ac" 2]. do 3 eexists. exists (B "ax").
  split; [valid|]. split; [apply build_intro; vc|]. split; [valid|vc].
Qed.

(** *** C23: the reverse iterator yields a key before its extensions. *)
Lemma C23_refuted_proof : exists (os : list (op nat)) h t rs k v k' v',
  Forall (fun o => valid_key (op_key o) /\ is_insert o) os /\ build os h t rs /\
  yields (prev h) (newRevIter (r_root t)) [(k, v); (k', v')] /\ klt k k'.
Proof.
  exists [I "a" 1; I "ab" 2]. do 7 eexists.
  split; [valid|]. split; [apply build_intro; vc|]. split; [apply (drain_yields 5); vc|].
  vm_compute. lia.
Qed.

(** *** C24: a history with keys free of '$' that panics (Insert after the tree has been emptied while Len
    was too large). *)
Lemma C24_refuted_proof : exists os : list (op nat),
  Forall (fun o => valid_key (op_key o)) os /\ build_panics os.
Proof.
  exists [I "a" 1; I "ab" 2; I "a" 3; D "a"; D "ab"; I "" 5]. split; [valid|]. vc.
Qed.

(** *** C27: GetWatch on an absent key whose path differs only behind the stored part of a long prefix:
    inserting the key does not close the channel. *)
Lemma C27_refuted_proof : exists (cs cs' : list (call nat)) c k v,
  valid_key k /\
  list.last (wres cs) = Some (Ok (RWatch c 0 false)) /\
  cs' = cs ++ [CTxn 3; CTrack 0 true; CTInsert 0 k v; CCommit 0] /\
  Forall (fun r => r <> Panic) (wres cs') /\
  c ∉ h_closed (w_h (wrun cs')).
Proof.
  exists [CNew; CInsert 0 (B "aaaaaaaaaaaaaab") 1; CInsert 1 (B "aaaaaaaaaaaaaac") 1;
          CInsert 2 (B "aaaaaaaaaaaaaabx") 1; CGetWatch 3 (B "aaaaaaaaaaaxaab")].
  eexists. exists 3, (B "aaaaaaaaaaaxaab"), 3. split; [valid|]. split; [vc|]. split; [done|].
  split; [vm_compute; repeat constructor; done|].
  apply (bool_decide_unpack _). vc.
Qed.

(** *** C28: an abandoned transaction makes an earlier watch deaf: the channel of the stored key is not
    closed by a later committed update. *)
Lemma C28_refuted_proof : exists (cs cs' cs'' : list (call nat)) c k,
  valid_key k /\
  list.last (wres cs) = Some (Ok (RWatch c 1 true)) /\
  cs' = cs ++ [CTxn 1; CTrack 0 true; CTInsert 0 k 3; CCommit 0] /\
  c ∈ h_closed (w_h (wrun cs')) /\
  cs'' = cs ++ [CTxn 1; CTrack 0 true; CTInsert 0 k 2;
                CTxn 1; CTrack 1 true; CTInsert 1 k 3; CCommit 1] /\
  c ∉ h_closed (w_h (wrun cs'')).
Proof.
  exists [CNew; CInsert 0 (B "a") 1; CGetWatch 1 (B "a")].
  do 2 eexists. exists 1, (B "a"). split; [valid|]. split; [vc|]. split; [done|].
  split; [apply (bool_decide_unpack _); vc|]. split; [done|].
  apply (bool_decide_unpack _). vc.
Qed.

(** *** C30: inserting "a" fires the watch on the stored key "ab". *)
Lemma C30_refuted_proof : exists (cs cs' : list (call nat)) c k,
  list.last cs = Some (CGetWatch 1 k) /\ list.last (wres cs) = Some (Ok (RWatch c 1 true)) /\
  cs' = cs ++ [CTxn 1; CTrack 0 true; CTInsert 0 (B "a") 3; CCommit 0] /\
  k <> B "a" /\ c ∈ h_closed (w_h (wrun cs')).
Proof.
  exists [CNew; CInsert 0 (B "ab") 1; CGetWatch 1 (B "ab")].
  eexists. exists 1, (B "ab"). split; [done|]. split; [vc|]. split; [done|]. split; [vc; done|].
  apply (bool_decide_unpack _). vc.
Qed.

(** 255 one-byte keys and the empty key below the root, then two keys below 'a'. *)
Definition full_root : list (op nat) :=
  ((fun b => OInsert [b] b) <$> filter (fun b => b <> dollar) (seq 0 256)) ++ [OInsert [] 7; I "aa" 1; I "ab" 2].
Definition root_children (h : heap nat) (t : rtree) : nat :=
  match h_nodes h !! r_root t with Some n => List.length (filter is_Some (n_children n)) | None => 0 end.
(** *** C36: when the root has 256 children, Delete of a stored key wipes the other keys. *)
Lemma C36_refuted_proof : exists (os : list (op nat)) h t rs k h' t' r k' v',
  Forall (fun o => valid_key (op_key o) /\ is_insert o) os /\ build os h t rs /\ root_children h t = 256 /\
  ref_ops os ∅ !! k = Some 2 /\ k' <> k /\ ref_ops os ∅ !! k' = Some v' /\ treeGet h t k' = Ok (v', true) /\
  treeDelete t k h = (Ok (t', r), h') /\ treeGet h' t' k' = Ok (0, false).
Proof.
  exists full_root. do 3 eexists. exists (B "ab"). do 3 eexists. exists (B "aa"), 1.
  split. { apply Forall_app. split; [|valid]. apply Forall_fmap, list.Forall_forall. intros b Hb. apply elem_of_list_filter in Hb as [Hn Hb]. apply elem_of_seq in Hb.
    split; [|done]. constructor; [|done]. split; [lia|done]. }
  split; [apply build_intro; vc|]. split; [vc|]. split; [vc|]. split; [done|]. split; [vc|]. split; [vc|]. 
  split; [apply run_intro; vc|]. vc.
Qed.
