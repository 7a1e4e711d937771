(** The theorems on SeekReverseLowerBound: when it returns, when it panics, and that deletes and the capacity of a slice
    matter; with examples (restated in Properties_Rev.v). *)
From Verif Require Import ReadTop ReadLow ReadLow2 ReadRev2 ReadEr PropWorld PropMap PropRead PropSeek PropLow Holder Refute.
From stdpp Require Import list.
Local Open Scope nat_scope.
Local Open Scope list_scope.

Lemma inserts_not_hollow {V} `{GoZero V} (os : list (op V)) : Forall (fun o => is_insert o /\ valid_key (op_key o)) os -> forall w, ~ hollow os w.
Proof.
  intros Ho w (i & Hi & _). apply elem_of_list_lookup_2 in Hi. rewrite Forall_forall in Ho. destruct (Ho _ Hi) as [? _]. done.
Qed.
(** *** C65, when it returns: after insertions of keys without '$' whose stored keys go on in at most 12 ways after every
    prefix and have no common run of more than 10 bytes, SeekReverseLowerBound(k) does not panic, for any k, if the slice
    that holds the searched path has 10 spare bytes (or as many as k has). *)
Lemma C65_returns_proof {V} `{GoZero V} (os : list (op V)) h t rs k spare :
  Forall (fun o => is_insert o /\ valid_key (op_key o)) os -> (N.of_nat (length os) < 2 ^ 64)%N -> build os h t rs ->
  ref_ops os ∅ <> ∅ -> narrow (ref_ops os ∅) -> short_runs (ref_ops os ∅) -> 10 `min` length k <= length spare ->
  exists ri, seekReverseLowerBound h (newRevIter (r_root t)) k spare = Ok ri.
Proof.
  intros Ho Hl Hb Hne Hn Hs Hsp. destruct (tame_inserts os Ho) as [d Ht].
  destruct (slim_tree os d h t rs Ht Hl Hb Hne (inserts_not_hollow os Ho)) as (u & Hr & Hnd & Eu & Hc & Hth).
  rewrite <- er_seekReverseLowerBound, Eu. eapply rep_reverse_total; [done|done|done| |done]. eapply short_sliceable; [done..|].
  intros a n Hx. rewrite er_lookup in Hx. apply fmap_Some in Hx as (n0 & Hn0 & ->). intros H1 H2 H3. by apply (build_lims os Ho Hl h t rs Hb a n0).
Qed.
(** *** C65: if moreover neither a stored key nor k goes on with a byte below '$' after another stored key or k (and no
    stored key with '$' after k), Previous then yields exactly the stored pairs whose key is not above k, in descending
    order. *)
Lemma C65_exact_proof {V} `{GoZero V} (os : list (op V)) h t rs k spare :
  Forall (fun o => is_insert o /\ valid_key (op_key o)) os -> (N.of_nat (length os) < 2 ^ 64)%N -> build os h t rs ->
  ref_ops os ∅ <> ∅ -> orderly (ref_ops os ∅) -> neat (ref_ops os ∅) k -> narrow (ref_ops os ∅) -> short_runs (ref_ops os ∅) -> 10 `min` length k <= length spare ->
  exists ri l, seekReverseLowerBound h (newRevIter (r_root t)) k spare = Ok ri /\ yields (prev h) ri l /\ descending l /\
    (forall k' v, (k', v) ∈ l <-> ref_ops os ∅ !! k' = Some v /\ ~ klt k k').
Proof.
  intros Ho Hl Hb Hne Hhi Hk Hn Hs Hsp. destruct (C65_returns_proof os h t rs k spare Ho Hl Hb Hne Hn Hs Hsp) as [ri E]. destruct (tame_inserts os Ho) as [d Ht].
  destruct (C50_proof os d h t rs k spare ri Ht Hl Hb Hne Hhi Hk Hn E) as (l & Hy). exists ri, l. done.
Qed.
(** *** C65, when it panics: on tame histories without deletes of keys that have stored extensions, if two keys are stored
    and all stored keys start with the same 11 bytes, SeekReverseLowerBound panics for every bound. *)
Lemma C65_panics_proof {V} `{GoZero V} (os : list (op V)) d h t rs w k spare :
  tame os d -> (N.of_nat (length os) < 2 ^ 64)%N -> build os h t rs -> (forall x, ~ hollow os x) ->
  length w = 11 -> (forall k', is_Some (ref_ops os ∅ !! k') -> w `prefix_of` k') ->
  (exists k1 k2, k1 <> k2 /\ is_Some (ref_ops os ∅ !! k1) /\ is_Some (ref_ops os ∅ !! k2)) ->
  seekReverseLowerBound h (newRevIter (r_root t)) k spare = Panic.
Proof.
  intros Ht Hl Hb Hho Hw Hall Htwo. assert (Hne : ref_ops os (∅ : gmap (list nat) V) <> ∅).
  { destruct Htwo as (k1 & k2 & _ & [v Hv] & _). intros E. by rewrite E in Hv. }
  destruct (slim_tree os d h t rs Ht Hl Hb Hne Hho) as (u & Hr & Hnd & Eu & Hc & Hth). rewrite <- er_seekReverseLowerBound, Eu. by eapply rep_reverse_panic.
Qed.
Local Open Scope string_scope.
(** *** C65, the spare bytes matter: a tree and a bound (of 15 bytes, so that its path fills 16) for which
    SeekReverseLowerBound panics without spare bytes and returns with two. *)
Lemma C65_capacity_refuted_proof : exists (os : list (op nat)) h t rs k ri,
  Forall (fun o => is_insert o /\ valid_key (op_key o)) os /\ build os h t rs /\ highmap (ref_ops os ∅) /\ narrow (ref_ops os ∅) /\ short_runs (ref_ops os ∅) /\
  highbytes k /\ length k = 15 /\ seekReverseLowerBound h (newRevIter (r_root t)) k [] = Panic /\ seekReverseLowerBound h (newRevIter (r_root t)) k [0; 0] = Ok ri.
Proof.
  exists [I "abcdefghi" 1; I "abcdefgxy" 2]. do 3 eexists. exists (B "abcdefgxyzzzzzz"). eexists. split; [repeat constructor; vm_compute; lia|].
  split; [apply build_intro; vm_compute; reflexivity|]. split; [apply highmap_check; apply (bool_decide_unpack _); by vm_compute|].
  split; [apply narrow_small; vm_compute; lia|]. split; [apply short_runs_check; apply (bool_decide_unpack _); by vm_compute|].
  split; [repeat constructor; vm_compute; lia|]. split; [done|]. split; vm_compute; reflexivity.
Qed.
(** *** C65, deletes matter: after Insert "a", Insert "b", Delete "a" every SeekReverseLowerBound panics (removeChild4
    adds up the partialLens, the one of a fresh leaf node being 10). *)
Lemma C65_delete_refuted_proof : exists (os : list (op nat)) h t rs,
  tame os 0 /\ (forall w, ~ hollow os w) /\ build os h t rs /\ ref_ops os ∅ = {[ B "b" := 2 ]} /\
  forall k spare, seekReverseLowerBound h (newRevIter (r_root t)) k spare = Panic.
Proof.
  exists [I "a" 1; I "b" 2; D "a"]. do 3 eexists. split; [apply tameb_start; by vm_compute|]. split; [apply hollowb_ok; by vm_compute|].
  split; [apply build_intro; vm_compute; reflexivity|]. split; [apply (bool_decide_unpack _); by vm_compute|].
  intros k spare. unfold seekReverseLowerBound. cbn zeta. rewrite Nat.add_comm. cbn [Nat.add revLoop]. by vm_compute.
Qed.

(** *** Concrete cases *)
Definition ex_rev2 : list (op nat) := [I "con" 1; I "bat" 2; I "bar" 3; I "bark" 4; I "cone" 5; I "c" 6; I "bath" 8; I "" 9; I "bat" 7].
Example ex_C65 : Forall (fun o => is_insert o /\ valid_key (op_key o)) ex_rev2 /\ ref_ops ex_rev2 ∅ <> ∅ /\ highmap (ref_ops ex_rev2 ∅) /\ narrow (ref_ops ex_rev2 ∅) /\
  short_runs (ref_ops ex_rev2 ∅) /\ highbytes (B "bathe") /\ 10 `min` length (B "bathe") <= length [0; 0; 0; 0; 0] /\
  exists h t rs ri, build ex_rev2 h t rs /\ seekReverseLowerBound h (newRevIter (r_root t)) (B "bathe") [0; 0; 0; 0; 0] = Ok ri /\
   yields (prev h) ri [(B "bath", 8); (B "bat", 7); (B "bark", 4); (B "bar", 3); (B "", 9)].
Proof.
  split; [repeat constructor; vm_compute; lia|]. split; [by vm_compute|]. split; [apply highmap_check; apply (bool_decide_unpack _); by vm_compute|].
  split; [apply narrow_small; vm_compute; lia|]. split; [apply short_runs_check; apply (bool_decide_unpack _); by vm_compute|].
  split; [repeat constructor; vm_compute; lia|]. split; [cbn; lia|].
  do 4 eexists. split; [apply build_intro; vm_compute; reflexivity|]. split; [vm_compute; reflexivity|]. apply (drain_yields 8); vm_compute; reflexivity.
Qed.
Definition ex_rev3 : list (op nat) := [I "a long common run" 1; I "a long common rue" 2; I "a long common" 3; I "a long common x" 4; D "a long common x"].
Example ex_C65_panics : tame ex_rev3 0 /\ (forall w, ~ hollow ex_rev3 w) /\ length (B "a long comm") = 11 /\
  (forall k', is_Some (ref_ops ex_rev3 ∅ !! k') -> B "a long comm" `prefix_of` k') /\
  (exists k1 k2, k1 <> k2 /\ is_Some (ref_ops ex_rev3 ∅ !! k1) /\ is_Some (ref_ops ex_rev3 ∅ !! k2)) /\ exists h t rs, build ex_rev3 h t rs.
Proof.
  split; [apply tameb_start; by vm_compute|]. split; [apply hollowb_ok; by vm_compute|]. split; [done|].
  split.
  { assert (Hm : map_Forall (fun k' _ => B "a long comm" `prefix_of` k') (ref_ops ex_rev3 (∅ : gmap (list nat) nat))) by (apply (bool_decide_unpack _); by vm_compute).
    intros k' [v Hv]. by apply (Hm k' v). }
  split; [exists (B "a long common run"), (B "a long common rue"); split; [done|]; split; vm_compute; eexists; reflexivity|].
  do 3 eexists. apply build_intro. vm_compute. reflexivity.
Qed.
