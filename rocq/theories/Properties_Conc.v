(** Concurrent watch channels and notifications, and the memory of keys.  The proofs are in PropConc.v, with
    concrete cases. *)
From Verif Require Import PropConc.
From stdpp Require Import gmap list.
Local Open Scope nat_scope.
Local Open Scope list_scope.


(** C33: whatever the number of goroutines and the schedule, no getMutateCh call crashes, and all calls that have
    returned by then or return later (the schedule goes on with sched') return the same channel, the one in the node. *)
Theorem C33 : forall n cell next sched sched' i j c c',
  let s := grun sched (gstart n cell next) in let s' := grun sched' s in
  ~ (GCrash ∈ gs_pcs s) /\
  (gs_pcs s !! i = Some (GDone c) -> gs_pcs s' !! j = Some (GDone c') -> c' = c /\ gs_cell s' = Some c /\ (forall c0, cell = Some c0 -> c = c0)).
Proof. exact @C33_proof. Qed.
Print Assumptions C33.

(** C33 (progress): a goroutine that has had four turns has returned, so getMutateCh never waits for another goroutine. *)
Theorem C33_returns : forall n cell next sched i, i < n -> 4 <= turns i sched ->
  exists c, gs_pcs (grun sched (gstart n cell next)) !! i = Some (GDone c).
Proof. exact @C33_returns_proof. Qed.
Print Assumptions C33_returns.

(** C32 when no two of the transactions have tracked the same channel: no schedule of the Notify calls panics, and once all have
    returned every tracked channel is closed. *)
Theorem C32_partial : forall closed css sched, (forall i j cs cs', i <> j -> css !! i = Some cs -> css !! j = Some cs' -> forall c, c ∈ cs -> c ∉ cs') ->
  let s := nrun sched (nstart closed css) in
  NPanic ∉ ns_pcs s /\ (Forall (fun pc => pc = NCheck []) (ns_pcs s) -> forall cs c, cs ∈ css -> c ∈ cs -> c ∈ ns_closed s).
Proof. exact @C32_partial_proof. Qed.
Print Assumptions C32_partial.

(** C32: two transactions of one tree share the channel of the root (txn.go:42-43 clones it with its channel), both track it,
    and two concurrent Commits can both find it open: the second close panics. *)
Theorem C32_refuted : exists (cs : list (call nat)) x y sched,
  w_txns (wrun cs) = [x; y] /\ t_track x = true /\ t_track y = true /\
  NPanic ∈ ns_pcs (nrun sched (nstart (h_closed (w_h (wrun cs))) [t_chs x; t_chs y])).
Proof. exact C32_refuted_proof. Qed.
Print Assumptions C32_refuted.

(** C34 for keys without spare capacity: Insert (likewise Get, Delete and the seeks, which only make the tree key) changes no byte of any
    array that existed, and the key held by the leaf stays the inserted key whatever is written later to any other array. *)
Theorem C34_partial : forall (M : memory) key fresh extra, slice_ok M key -> M !! fresh = None -> sl_cap key = sl_len key ->
  let '(M', leaf) := goInsertKey M key fresh extra in
  (forall a, a <> fresh -> M' !! a = M !! a) /\ slice_bytes M' leaf = slice_bytes M key ++ [dollar] /\
  forall writes : list (nat * nat * byte), Forall (fun w => w.1.1 <> fresh) writes ->
    goLeafKey (foldl (fun M w => poke M w.1.1 w.1.2 w.2) M' writes) leaf = slice_bytes M key.
Proof. exact @C34_partial_proof. Qed.
Print Assumptions C34_partial.

(** C34 in general: at most one byte of the caller's memory is written, the one behind the key, and it becomes '$'. *)
Theorem C34_one_byte : forall (M : memory) key fresh extra a i, slice_ok M key -> M !! fresh = None -> a <> fresh ->
  (a <> sl_arr key \/ i <> sl_off key + sl_len key) -> (M !! a ≫= (fun xs => xs !! i)) = ((goInsertKey M key fresh extra).1 !! a ≫= (fun xs => xs !! i)).
Proof. exact @C34_one_byte_proof. Qed.
Print Assumptions C34_one_byte.

(** C34: Insert with the key buf[:1] of buf = "abc" overwrites buf[1] with '$'. *)
Theorem C34_write_refuted : exists (M : memory) key fresh extra, slice_ok M key /\ M !! fresh = None /\ slice_bytes M key = B "a" /\
  M !! 0 = Some (B "abc") /\ (goInsertKey M key fresh extra).1 !! 0 = Some (B "a$c").
Proof. exact C34_write_refuted_proof. Qed.
Print Assumptions C34_write_refuted.

(** C34: and the leaf keeps the caller's array: writing "z" to buf[0] later renames the stored key "a" to "z". *)
Theorem C34_alias_refuted : exists (M : memory) key fresh extra a i b, slice_ok M key /\ M !! fresh = None /\ is_Some (M !! a) /\
  let '(M', leaf) := goInsertKey M key fresh extra in goLeafKey M' leaf = B "a" /\ goLeafKey (poke M' a i b) leaf = B "z".
Proof. exact C34_alias_refuted_proof. Qed.
Print Assumptions C34_alias_refuted.
