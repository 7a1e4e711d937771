(** Properties that the code does not have: each theorem states the negation on a concrete history.
    The proofs are in Refute.v. *)
From Verif Require Import Refute.
Local Open Scope nat_scope.
Local Open Scope list_scope.


(** C01, C24: three Insert calls with keys that contain '$' panic (txn.go:200). *)
Theorem C01_panic_refuted : exists os : list (op nat), Forall is_insert os /\ build_panics os.
Proof. exact C01_panic_refuted_proof. Qed.
Print Assumptions C01_panic_refuted.

(** C01: with keys that contain '$' an inserted pair may be lost silently: the key is in the reference
    map, no call panicked, and Get does not find it. *)
Theorem C01_lost_refuted : exists (os : list (op nat)) h t rs k v,
  Forall is_insert os /\ build os h t rs /\ ref_ops os ∅ !! k = Some v /\ treeGet h t k = Ok (0, false).
Proof. exact C01_lost_refuted_proof. Qed.
Print Assumptions C01_lost_refuted.

(** C04: Delete of an absent key wipes other keys and leaves Len as it was. *)
Theorem C04_refuted : exists (os : list (op nat)) h t rs k h' t' r k' v',
  Forall (fun o => valid_key (op_key o)) os /\ valid_key k /\
  build os h t rs /\ ref_ops os ∅ !! k = None /\ treeDelete t k h = (Ok (t', r), h') /\
  ref_ops os ∅ !! k' = Some v' /\ treeGet h t k' = Ok (v', true) /\ treeGet h' t' k' = Ok (0, false) /\
  treeLen t' = treeLen t.
Proof. exact C04_refuted_proof. Qed.
Print Assumptions C04_refuted.

(** C05: Insert of a stored key reports (zero, false) when the key lives in an inner node
    (txn.go:165-171). *)
Theorem C05_refuted : exists (os : list (op nat)) h t rs k v h' t' r,
  Forall (fun o => valid_key (op_key o)) os /\ valid_key k /\
  build os h t rs /\ treeGet h t k = Ok (1, true) /\ treeInsert t k v h = (Ok (t', r), h') /\ r = (0, false).
Proof. exact C05_refuted_proof. Qed.
Print Assumptions C05_refuted.

(** C06: and then Len counts the key twice. *)
Theorem C06_refuted : exists (os : list (op nat)) h t rs,
  Forall (fun o => valid_key (op_key o) /\ is_insert o) os /\ build os h t rs /\
  treeLen t = 3%N /\ size (ref_ops os ∅) = 2.
Proof. exact C06_refuted_proof. Qed.
Print Assumptions C06_refuted.

(** C10: further use of a transaction after Commit changes the committed tree. *)
Theorem C10_refuted : exists (cs : list (call nat)) (j : nat) k v i t,
  let w := wrun cs in let w' := (step (CTInsert j k v) w).2 in
  valid_key k /\ w_trees w !! i = Some t /\
  treeGet (w_h w) t k = Ok (1, true) /\ treeGet (w_h w') t k = Ok (2, true).
Proof. exact C10_refuted_proof. Qed.
Print Assumptions C10_refuted.

(** C11: after c := txn.Clone(), Insert on the original transaction is visible in the clone. *)
Theorem C11_refuted : exists (cs : list (call nat)) k v x,
  let w := wrun (cs ++ [CTClone 0]) in let w' := (step (CTInsert 0 k v) w).2 in
  valid_key k /\ w_txns w !! 1 = Some x /\ w_txns w' !! 1 = Some x /\
  txnGet (w_h w) x k = Ok (1, true) /\ txnGet (w_h w') x k = Ok (9, true).
Proof. exact C11_refuted_proof. Qed.
Print Assumptions C11_refuted.

(** C12, C16: iterating an empty tree yields the pair (nil, zero). *)
Theorem C16_refuted : exists h t rs,
  build (V:=nat) [] h t rs /\ treeLen t = 0%N /\ iterates h (r_root t) [] [([], 0)].
Proof. exact C16_refuted_proof. Qed.
Print Assumptions C16_refuted.

(** ... and LongestPrefix reports a match. *)
Theorem C16_longest_refuted : exists h t rs k,
  build (V:=nat) [] h t rs /\ treeLen t = 0%N /\ treeLongestPrefix h t k = Ok (Some ([], 0)).
Proof. exact C16_longest_refuted_proof. Qed.
Print Assumptions C16_longest_refuted.

(** C13: bytes below '$' are yielded before the shorter key. *)
Theorem C13_refuted : exists (os : list (op nat)) h t rs l k k' v v' l',
  Forall (fun o => valid_key (op_key o) /\ is_insert o) os /\ build os h t rs /\
  iterates h (r_root t) [] l /\ l = (k, v) :: (k', v') :: l' /\ klt k' k.
Proof. exact C13_refuted_proof. Qed.
Print Assumptions C13_refuted.

(** C14: a prefix ending in '$' selects the key without the '$'. *)
Theorem C14_refuted : exists (os : list (op nat)) h t rs p k v,
  Forall (fun o => valid_key (op_key o) /\ is_insert o) os /\ build os h t rs /\
  iterates h (r_root t) p [(k, v)] /\ has_prefix k p = false.
Proof. exact C14_refuted_proof. Qed.
Print Assumptions C14_refuted.

(** C17: Minimum and Maximum are wrong in the presence of bytes below '$'. *)
Theorem C17_min_refuted : exists (os : list (op nat)) h t rs k v k',
  Forall (fun o => valid_key (op_key o) /\ is_insert o) os /\ build os h t rs /\
  treeMinimum h t = Ok (Some (k, v)) /\ is_Some (ref_ops os ∅ !! k') /\ klt k' k.
Proof. exact C17_min_refuted_proof. Qed.
Print Assumptions C17_min_refuted.

Theorem C17_max_refuted : exists (os : list (op nat)) h t rs k v k',
  Forall (fun o => valid_key (op_key o) /\ is_insert o) os /\ build os h t rs /\
  treeMaximum h t = Ok (Some (k, v)) /\ is_Some (ref_ops os ∅ !! k') /\ klt k k'.
Proof. exact C17_max_refuted_proof. Qed.
Print Assumptions C17_max_refuted.

(** C18: LongestPrefix returns a key that is not a prefix of the query. *)
Theorem C18_refuted : exists (os : list (op nat)) h t rs q k v,
  Forall (fun o => valid_key (op_key o) /\ is_insert o) os /\ build os h t rs /\ valid_key q /\
  treeLongestPrefix h t q = Ok (Some (k, v)) /\ has_prefix q k = false.
Proof. exact C18_refuted_proof. Qed.
Print Assumptions C18_refuted.

(** ... or not the longest one. *)
Theorem C18_longer_refuted : exists (os : list (op nat)) h t rs q k v k',
  Forall (fun o => valid_key (op_key o) /\ is_insert o) os /\ build os h t rs /\ valid_key q /\
  treeLongestPrefix h t q = Ok (Some (k, v)) /\ is_Some (ref_ops os ∅ !! k') /\ has_prefix q k' = true /\
  List.length k < List.length k'.
Proof. exact C18_longer_refuted_proof. Qed.
Print Assumptions C18_longer_refuted.

(** C19: the path iterator yields the longer prefix first when its next byte is below '$'. *)
Theorem C19_refuted : exists (os : list (op nat)) h t rs p k v k' v',
  Forall (fun o => valid_key (op_key o) /\ is_insert o) os /\ build os h t rs /\ valid_key p /\
  yields (pathNext h) (newPathIter (r_root t) p) [(k, v); (k', v')] /\ List.length k' < List.length k.
Proof. exact C19_refuted_proof. Qed.
Print Assumptions C19_refuted.

(** C20: Walk misses keys that live in inner nodes and passes zero values. *)
Theorem C20_refuted : exists (os : list (op nat)) h t rs,
  Forall (fun o => valid_key (op_key o) /\ is_insert o) os /\ build os h t rs /\
  ref_ops os ∅ !! B "a" = Some 1 /\ ref_ops os ∅ !! B "ab" = Some 2 /\
  treeWalk (fun k v acc => (acc ++ [(k, v)], false)) h t [] = Ok [(B "ab", 0)].
Proof. exact C20_refuted_proof. Qed.
Print Assumptions C20_refuted.

(** C21: DeletePrefix does not remove a key that lives in an inner node, although Len counts it as
    removed. *)
Theorem C21_refuted : exists (os : list (op nat)) h t rs p k v,
  Forall (fun o => valid_key (op_key o)) os /\ build (os ++ [ODeletePrefix p]) h t rs /\
  has_prefix k p = true /\ treeGet h t k = Ok (v, true) /\ treeLen t = 1%N /\
  iterates h (r_root t) [] [(B "a", 1); (B "b", 3)].
Proof. exact C21_refuted_proof. Qed.
Print Assumptions C21_refuted.

(** C22: SeekLowerBound panics (lower_bound_iterator.go:291). *)
Theorem C22_refuted : exists (os : list (op nat)) h t rs k,
  Forall (fun o => valid_key (op_key o) /\ is_insert o) os /\ build os h t rs /\ valid_key k /\
  seekLowerBound h (newLowerIter (r_root t)) k = Panic.
Proof. exact C22_refuted_proof. Qed.
Print Assumptions C22_refuted.

(** C23: the reverse iterator yields a key before its extensions. *)
Theorem C23_refuted : exists (os : list (op nat)) h t rs k v k' v',
  Forall (fun o => valid_key (op_key o) /\ is_insert o) os /\ build os h t rs /\
  yields (prev h) (newRevIter (r_root t)) [(k, v); (k', v')] /\ klt k k'.
Proof. exact C23_refuted_proof. Qed.
Print Assumptions C23_refuted.

(** C24: a history with keys free of '$' that panics (Insert after the tree has been emptied while Len
    was too large). *)
Theorem C24_refuted : exists os : list (op nat),
  Forall (fun o => valid_key (op_key o)) os /\ build_panics os.
Proof. exact C24_refuted_proof. Qed.
Print Assumptions C24_refuted.

(** C27: GetWatch on an absent key whose path differs only behind the stored part of a long prefix:
    inserting the key does not close the channel. *)
Theorem C27_refuted : exists (cs cs' : list (call nat)) c k v,
  valid_key k /\
  list.last (wres cs) = Some (Ok (RWatch c 0 false)) /\
  cs' = cs ++ [CTxn 3; CTrack 0 true; CTInsert 0 k v; CCommit 0] /\
  Forall (fun r => r <> Panic) (wres cs') /\
  c ∉ h_closed (w_h (wrun cs')).
Proof. exact C27_refuted_proof. Qed.
Print Assumptions C27_refuted.

(** C28: an abandoned transaction makes an earlier watch deaf: the channel of the stored key is not
    closed by a later committed update. *)
Theorem C28_refuted : exists (cs cs' cs'' : list (call nat)) c k,
  valid_key k /\
  list.last (wres cs) = Some (Ok (RWatch c 1 true)) /\
  cs' = cs ++ [CTxn 1; CTrack 0 true; CTInsert 0 k 3; CCommit 0] /\
  c ∈ h_closed (w_h (wrun cs')) /\
  cs'' = cs ++ [CTxn 1; CTrack 0 true; CTInsert 0 k 2;
                CTxn 1; CTrack 1 true; CTInsert 1 k 3; CCommit 1] /\
  c ∉ h_closed (w_h (wrun cs'')).
Proof. exact C28_refuted_proof. Qed.
Print Assumptions C28_refuted.

(** C30: inserting "a" fires the watch on the stored key "ab". *)
Theorem C30_refuted : exists (cs cs' : list (call nat)) c k,
  list.last cs = Some (CGetWatch 1 k) /\ list.last (wres cs) = Some (Ok (RWatch c 1 true)) /\
  cs' = cs ++ [CTxn 1; CTrack 0 true; CTInsert 0 (B "a") 3; CCommit 0] /\
  k <> B "a" /\ c ∈ h_closed (w_h (wrun cs')).
Proof. exact C30_refuted_proof. Qed.
Print Assumptions C30_refuted.

(** C36: when the root has 256 children, Delete of a stored key wipes the other keys. *)
Theorem C36_refuted : exists (os : list (op nat)) h t rs k h' t' r k' v',
  Forall (fun o => valid_key (op_key o) /\ is_insert o) os /\ build os h t rs /\ root_children h t = 256 /\
  ref_ops os ∅ !! k = Some 2 /\ k' <> k /\ ref_ops os ∅ !! k' = Some v' /\ treeGet h t k' = Ok (v', true) /\
  treeDelete t k h = (Ok (t', r), h') /\ treeGet h' t' k' = Ok (0, false).
Proof. exact C36_refuted_proof. Qed.
Print Assumptions C36_refuted.
