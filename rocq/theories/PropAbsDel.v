(** C04 as far as it holds: what Delete of an absent key does, whenever it returns. *)
From Verif Require Export AbsDel PropMap Refute.
From stdpp Require Export list.
Local Open Scope nat_scope.
Local Open Scope list_scope.

(** *** C04 after tame histories: if Delete of an absent key returns, it returns (zero, false) and leaves Len
    alone; it removes exactly the keys that start with some byte string q, and nothing else; and when no
    stored key agrees with k on ten bytes, q is a prefix of k and its terminator, so that only keys sharing
    that prefix with k can disappear.  Missing from C04: that nothing disappears (C04_refuted), that the
    call returns (C04_panic_refuted). *)
Lemma C04_partial_proof {V} `{GoZero V} (os : list (op V)) d h t rs k h' t' r :
  tame os d -> (N.of_nat (length os) < 2 ^ 64)%N -> build os h t rs ->
  valid_key k -> ref_ops os ∅ !! k = None -> roomy (ref_ops os ∅) ->
  treeDelete t k h = (Ok (t', r), h') ->
  r = (go_zero, false) /\ treeLen t' = treeLen t /\ exists q,
    (forall k', is_bytes k' -> q `prefix_of` (k' ++ [dollar]) -> treeGet h' t' k' = Ok (go_zero, false)) /\
    (forall k', is_bytes k' -> ~ q `prefix_of` (k' ++ [dollar]) -> treeGet h' t' k' = treeGet h t k') /\
    (near (ref_ops os ∅) k -> q `prefix_of` (k ++ [dollar])).
Proof.
  intros Ht Hl Hb Hv Hk Hroom E. destruct (build_ok os d h t rs Ht Hl Hb) as (x & Hok & _).
  destruct (delete_absent _ h t x k h' t' r Hok Hv Hk Hroom E) as (-> & Hs & q & Hh & Hq).
  split; [done|]. split; [done|]. exists q. 
  assert (Hget : forall k', is_bytes k' -> treeGet h' t' k' = Ok (ref_get (cut q (ref_ops os ∅)) k')).
  { intros k' Hk'. unfold treeGet. rewrite <- er_getFrom. by eapply holds_get. }
  split; [|split; [|exact Hq]]; intros k' Hk' Hp; rewrite Hget by done; rewrite cut_get.
  - by rewrite decide_True.
  - rewrite decide_False by done. by rewrite (tree_ok_get _ _ _ _ _ Hok).
Qed.

(** *** C04, C24: Delete of an absent key panics with keys free of '$': ten bytes agree, the compressed path
    is longer, the key is too short (txn.go:330). *)
Lemma C04_panic_refuted_proof : exists (os : list (op nat)) h t rs k,
  tame os 0 /\ build os h t rs /\ valid_key k /\ ref_ops os ∅ !! k = None /\ (treeDelete t k h).1 = Panic.
Proof.
  exists [I "aaaaaaaaaaaab" 1; I "aaaaaaaaaaaac" 2]. do 3 eexists. exists (B "aaaaaaaaaa").
  split; [apply tameb_start; by vm_compute|]. split; [apply build_intro; vc|]. split; [valid|]. split; vc.
Qed.

(** One Delete that removes the keys under "a", one that removes nothing. *)
Definition nearb (m : gmap bytes nat) (k : bytes) : bool :=
  forallb (fun kv => negb (bool_decide (take 10 (kv.1 ++ [dollar]) = take 10 (k ++ [dollar])))) (map_to_list m).
Lemma nearb_ok m k : nearb m k = true -> near m k.
Proof.
  intros Hf k' [v Hk'] E. unfold nearb in Hf. rewrite forallb_forall in Hf. specialize (Hf (k', v)).
  rewrite bool_decide_eq_true_2 in Hf by done. cbn in Hf. apply elem_of_map_to_list, elem_of_list_In in Hk'. by apply Hf in Hk'.
Qed.
Definition ex_abs : list (op nat) := [I "ab" 1; I "ac" 2; I "bbcc" 3; I "bbcd" 4].
Example ex_C04 : tame ex_abs 0 /\ roomy (ref_ops ex_abs ∅) /\ near (ref_ops ex_abs ∅) (B "ad") /\ near (ref_ops ex_abs ∅) (B "bxcc").
Proof. split; [apply tameb_start; by vm_compute|]. split; [apply roomy_small; vm_compute; lia|]. split; apply nearb_ok; by vm_compute. Qed.
Example ex_C04_runs : exists h t rs h1 t1 h2 t2, build ex_abs h t rs /\
  treeDelete t (B "ad") h = (Ok (t1, (0, false)), h1) /\
  treeGet h1 t1 (B "ab") = Ok (0, false) /\ treeGet h1 t1 (B "bbcc") = Ok (3, true) /\
  treeDelete t (B "bxcc") h = (Ok (t2, (0, false)), h2) /\
  treeGet h2 t2 (B "ab") = Ok (1, true) /\ treeGet h2 t2 (B "bbcc") = Ok (3, true).
Proof.
  do 7 eexists. split; [apply build_intro; vc|]. split; [apply run_intro; vc|]. split; [vc|]. split; [vc|].
  split; [apply run_intro; vc|]. split; vc.
Qed.
