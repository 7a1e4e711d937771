(** The theorems on Walk and LongestPrefix, with examples (restated in Properties_Walk.v). *)
From Verif Require Import SpecWalk ReadWalk PropWorld PropMap PropRead PropSeek Observe Refute.
From stdpp Require Import list.
Local Open Scope nat_scope.

Lemma inserts_holds {V} `{GoZero V} (os : list (op V)) h t rs : Forall (fun o => is_insert o /\ valid_key (op_key o)) os ->
  (N.of_nat (length os) < 2 ^ 64)%N -> build os h t rs -> Top.holds false (er_h h) (r_root t) (ref_ops os ∅) /\ clean (er_h h).
Proof.
  intros Ho Hl Hb. destruct (tame_inserts os Ho) as [d Ht]. split; [by eapply build_holds|]. apply er_clean.
  eapply build_clean; [|exact Hb]. eapply Forall_impl; [exact Ho|]. intros [] [? _]; done.
Qed.

(** *** C20 on histories of insertions of valid keys: Walk does not panic; it calls the callback on stored keys only, on
    none twice, on every stored key that is not a proper prefix of another stored key, and stops when the callback
    returns true.  (The values are zero values: C20_refuted.) *)
Lemma C20_partial_proof {V} `{GoZero V} (os : list (op V)) h t rs :
  Forall (fun o => is_insert o /\ valid_key (op_key o)) os -> (N.of_nat (length os) < 2 ^ 64)%N -> build os h t rs -> ref_ops os ∅ <> ∅ ->
  exists l, NoDup l /\ (forall k, k ∈ l -> is_Some (ref_ops os ∅ !! k)) /\
    (forall k, is_Some (ref_ops os ∅ !! k) -> (forall k', is_Some (ref_ops os ∅ !! k') -> k `prefix_of` k' -> k' = k) -> k ∈ l) /\
    forall A (fn : bytes -> V -> A -> A * bool) acc, treeWalk fn h t acc = Ok (visit fn l acc).1.
Proof.
  intros Ho Hl Hb Hne. destruct (inserts_holds os h t rs Ho Hl Hb) as [Hh Hc].
  destruct (holds_walk _ _ _ _ Hh Hne Hc) as (l & H1 & H2 & H3 & H4). exists l. split_and!; [done..|].
  intros A fn acc. rewrite <- er_treeWalk. destruct t as [r sz mx]. apply H4.
Qed.
(** *** C20 on prefix-free sets of keys: Walk visits exactly the stored keys, each once. *)
Lemma C20_free_partial_proof {V} `{GoZero V} (os : list (op V)) h t rs :
  Forall (fun o => is_insert o /\ valid_key (op_key o)) os -> (N.of_nat (length os) < 2 ^ 64)%N -> build os h t rs -> ref_ops os ∅ <> ∅ ->
  prefix_free (ref_ops os ∅) ->
  exists l, l ≡ₚ (map_to_list (ref_ops os ∅)).*1 /\ forall A (fn : bytes -> V -> A -> A * bool) acc, treeWalk fn h t acc = Ok (visit fn l acc).1.
Proof.
  intros Ho Hl Hb Hne Hpf. destruct (C20_partial_proof os h t rs Ho Hl Hb Hne) as (l & H1 & H2 & H3 & H4). exists l. split; [|done].
  apply NoDup_Permutation; [done|apply NoDup_fst_map_to_list|]. intros k. rewrite elem_of_list_fmap. split.
  - intros Hk. destruct (H2 k Hk) as [v Hv]. exists (k, v). split; [done|]. by apply elem_of_map_to_list.
  - intros ([k' v] & -> & Hin). apply elem_of_map_to_list in Hin. apply H3; [eauto|]. intros k'' Hk'' Hp. symmetry. apply Hpf; eauto.
Qed.
(** After a Delete, Walk visits a stored key twice: the removed child leaves a second pointer to the last one. *)
Lemma C20_twice_refuted_proof : exists (os : list (op nat)) h t rs,
  Forall (fun o => valid_key (op_key o)) os /\ build os h t rs /\ prefix_free (ref_ops os ∅) /\
  treeWalk (fun k v acc => (acc ++ [k], false)) h t [] = Ok [B "b"; B "c"; B "d"; B "d"].
Proof.
  exists [I "a" 1; I "b" 2; I "c" 3; I "d" 4; D "a"]. do 3 eexists.
  split; [valid|]. split; [apply build_intro; vc|]. split; [|vc].
  replace (ref_ops [I "a" 1; I "b" 2; I "c" 3; I "d" 4; D "a"] ∅) with (list_to_map [(B "b", 2); (B "c", 3); (B "d", 4)] : gmap (list nat) nat)
    by (refine (bool_decide_unpack _ _); vm_compute; exact Logic.I).
  intros k k' [v Hk] [v' Hk'] Hp. apply elem_of_list_to_map_2 in Hk, Hk'. rewrite !elem_of_cons, elem_of_nil in Hk, Hk'.
  destruct Hk as [[= -> _]|[[= -> _]|[[= -> _]|[]]]], Hk' as [[= -> _]|[[= -> _]|[[= -> _]|[]]]]; try done; destruct Hp as [x Hp]; discriminate Hp.
Qed.
(** After Deletes, Walk visits keys that are no longer stored. *)
Lemma C20_deleted_refuted_proof : exists (os : list (op nat)) h t rs k l,
  Forall (fun o => valid_key (op_key o)) os /\ build os h t rs /\ ref_ops os ∅ !! k = None /\
  treeWalk (fun k v acc => (acc ++ [k], false)) h t [] = Ok l /\ k ∈ l.
Proof.
  exists [I "a" 1; I "b" 2; I "c" 3; I "d" 4; I "dab" 5; I "dac" 6; I "dad" 6; D "a"; D "dad"; D "dac"]. do 3 eexists. exists (B "dad"). eexists.
  split; [valid|]. split; [apply build_intro; vc|]. split; [vc|]. split; [vc|]. apply (elem_of_list_lookup_2 _ 5). vc.
Qed.
(** *** C18 on non-empty histories of insertions of valid keys that go on in at most 12 ways after every prefix, for queries q
    along which no stored key goes on with a byte below '$' after another stored key, if some stored key is a prefix of q or no stored key is a prefix of all others: LongestPrefix(q)
    returns the pair with the longest stored key that is a prefix of q, and reports false if there is none. *)
Lemma C18_partial_proof {V} `{GoZero V} (os : list (op V)) h t rs q :
  Forall (fun o => is_insert o /\ valid_key (op_key o)) os -> (N.of_nat (length os) < 2 ^ 64)%N -> build os h t rs -> ref_ops os ∅ <> ∅ ->
  narrow (ref_ops os ∅) -> is_bytes q -> orderly_along (ref_ops os ∅) q ->
  (exists k, is_Some (ref_ops os ∅ !! k) /\ k `prefix_of` q) \/ ~ has_stem (ref_ops os ∅) ->
  exists o, treeLongestPrefix h t q = Ok o /\
    match o with Some (k, v) => longest_stored (ref_ops os ∅) q k v | None => none_stored (ref_ops os ∅) q end.
Proof.
  intros Ho Hl Hb Hne Hn Hq Hqh Hor. destruct (inserts_holds os h t rs Ho Hl Hb) as [Hh Hc].
  destruct (holds_longest _ _ _ _ q Hh Hne Hc Hq Hqh Hn Hor) as (o & E & Hr). exists o. split; [|done]. unfold treeLongestPrefix. by rewrite <- er_longestPrefixFrom.
Qed.
(** After Deletes, LongestPrefix returns a key that is no longer stored. *)
Lemma C18_deleted_refuted_proof : exists (os : list (op nat)) h t rs q k v,
  Forall (fun o => valid_key (op_key o)) os /\ build os h t rs /\ valid_key q /\ highbytes q /\ ref_ops os ∅ !! k = None /\
  treeLongestPrefix h t q = Ok (Some (k, v)).
Proof.
  exists [I "a" 1; I "b" 2; I "c" 3; I "d" 4; I "da" 5; D "a"; D "d"]. do 3 eexists. exists (B "dx"), (B "d"). eexists.
  split; [valid|]. split; [apply build_intro; vc|]. split; [valid|]. split; [repeat constructor; vm_compute; lia|]. split; vc.
Qed.
(** *** C18 with a node of kind 48, insertions only, all keys of at most one byte, above '$': LongestPrefix of a stored key
    returns a shorter one (the children are scanned in the order of their slots, tree.go:119). *)
Lemma C18_wide_refuted_proof : exists (os : list (op nat)) h t rs q v v',
  Forall (fun o => is_insert o /\ valid_key (op_key o) /\ highbytes (op_key o) /\ length (op_key o) <= 1) os /\ build os h t rs /\
  q <> [] /\ ref_ops os ∅ !! q = Some v /\ treeLongestPrefix h t q = Ok (Some ([], v')).
Proof.
  exists (singles 17 ++ [OInsert [] 99]). do 3 eexists. exists [132]. do 2 eexists. split.
  - apply Forall_app. split; [|repeat constructor; cbn; lia]. eapply Forall_impl; [by apply singles_single; lia|].
    intros o (b & v & -> & Hb). cbn [op_key]. split; [done|]. split; [apply Forall_singleton; lia|]. split; [apply Forall_singleton; lia|done].
  - split; [apply build_intro; vc|]. split; [done|]. split; vc.
Qed.

(** ** Concrete cases *)
Definition ex_walk : list (op nat) := [I "b" 1; I "bat" 2; I "bar" 3; I "bark" 4; I "zebra" 5; I "c" 6; I "bat" 7; I "bath" 8; I "ba" 9].
Example ex_C20 : Forall (fun o => is_insert o /\ valid_key (op_key o)) ex_walk /\ ref_ops ex_walk ∅ <> ∅ /\
  exists h t rs, build ex_walk h t rs /\ treeWalk (fun k v acc => (acc ++ [k], bool_decide (k = B "bath"))) h t [] = Ok [B "ba"; B "bark"; B "bath"] /\
    treeWalk (fun k v acc => (acc ++ [k], false)) h t [] = Ok [B "ba"; B "bark"; B "bath"; B "c"; B "zebra"].
Proof. split; [valid|]. split; [by vm_compute|]. do 3 eexists. split; [apply build_intro; vc|]. split; vc. Qed.
Example ex_C20_free : Forall (fun o => is_insert o /\ valid_key (op_key o)) [I "bat" 1; I "bar" 2; I "cat" 3; I "bat" 4] /\
  prefix_free (ref_ops [I "bat" 1; I "bar" 2; I "cat" 3; I "bat" 4] ∅) /\
  exists h t rs, build [I "bat" 1; I "bar" 2; I "cat" 3; I "bat" 4] h t rs /\
    treeWalk (fun k v acc => (acc ++ [k], false)) h t [] = Ok [B "bar"; B "bat"; B "cat"].
Proof.
  split; [valid|]. split; [apply prefix_free_check; apply (bool_decide_unpack _); by vm_compute|].
  do 3 eexists. split; [apply build_intro; vc|]. vc.
Qed.
Example ex_C18 : Forall (fun o => is_insert o /\ valid_key (op_key o)) ex_walk /\ ref_ops ex_walk ∅ <> ∅ /\ narrow (ref_ops ex_walk ∅) /\
  orderly (ref_ops ex_walk ∅) /\ ~ has_stem (ref_ops ex_walk ∅) /\
  exists h t rs, build ex_walk h t rs /\ treeLongestPrefix h t (B "barking") = Ok (Some (B "bark", 4)) /\
    treeLongestPrefix h t (B "bay") = Ok (Some (B "ba", 9)) /\ treeLongestPrefix h t (B "bat") = Ok (Some (B "bat", 7)) /\
    treeLongestPrefix h t (B "apple") = Ok None.
Proof.
  split; [valid|]. split; [by vm_compute|]. split; [apply narrow_small; vm_compute; lia|]. split; [apply orderly_check, (bool_decide_unpack _); by vm_compute|]. split.
  - intros (k & [v Hm] & Hk). destruct (Hk (B "b") ltac:(by vm_compute; eexists)) as [x Ex]. destruct (Hk (B "zebra") ltac:(by vm_compute; eexists)) as [y Ey].
    assert (Hkb : k = B "") by (destruct k as [|c k]; [done|]; injection Ex as <- _; discriminate Ey). subst k.
    by vm_compute in Hm.
  - do 3 eexists. split; [apply build_intro; vc|]. split_and!; vc.
Qed.
(** bytes below '$' in the keys and in the queries *)
Definition ex_lowpath : list (op nat) := [I "b!" 1; I "ba" 2; I "!" 3; I "b!ab" 4; I "a" 5].
Example ex_C18_low : Forall (fun o => is_insert o /\ valid_key (op_key o)) ex_lowpath /\ ref_ops ex_lowpath ∅ <> ∅ /\ narrow (ref_ops ex_lowpath ∅) /\
  orderly_along (ref_ops ex_lowpath ∅) (B "b!a#") /\ orderly_along (ref_ops ex_lowpath ∅) (B "a!") /\
  exists h t rs, build ex_lowpath h t rs /\ treeLongestPrefix h t (B "b!a#") = Ok (Some (B "b!", 1)) /\
    treeLongestPrefix h t (B "b!ab!") = Ok (Some (B "b!ab", 4)) /\ treeLongestPrefix h t (B "a!") = Ok (Some (B "a", 5)).
Proof.
  split; [valid|]. split; [by vm_compute|]. split; [apply narrow_small; vm_compute; lia|].
  do 2 (split; [apply orderly_along_any, orderly_check, (bool_decide_unpack _); by vm_compute|]).
  do 3 eexists. split; [apply build_intro; vc|]. split_and!; vc.
Qed.

(** *** C51 After insertions only, whatever the keys, a Node4, Node16 or Node48 anywhere in memory has no child pointer in the slots
    from numChildren on, so that scans over all slots see each child once. *)
Lemma C51_proof {V} `{GoZero V} (os : list (op V)) h t rs a n i c :
  Forall (fun o => is_insert o) os -> build os h t rs -> h_nodes h !! a = Some n -> n_kind n <> K256 ->
  n_children n !! i = Some (Some c) -> i < n_nch n.
Proof.
  intros Ho Hb Hn Hk Hi. assert (Hc : clean h) by (eapply build_clean; [|exact Hb]; eapply Forall_impl; [exact Ho|]; by intros []).
  destruct (Hc a n Hn) as [Hcl _]. eapply Hcl; [|exact Hi]. unfold sk. by destruct (n_kind n).
Qed.
(** After a Delete there can be one. *)
Lemma C51_delete_refuted_proof : exists (os : list (op nat)) h t rs a n i c,
  Forall (fun o => valid_key (op_key o)) os /\ build os h t rs /\ a = r_root t /\ h_nodes h !! a = Some n /\ n_kind n = K4 /\
  n_children n !! i = Some (Some c) /\ n_nch n <= i.
Proof.
  exists [I "a" 1; I "b" 2; I "c" 3; I "d" 4; D "a"]. do 5 eexists. exists 3. eexists.
  split; [valid|]. split; [apply build_intro; vc|]. split; [done|]. split; [vc|]. split; [vc|]. split; [vc|]. vm_compute. lia.
Qed.
Example ex_C51 : exists h t rs n c, build [I "b" 1; I "c" 2; I "a" 3] h t rs /\ h_nodes h !! r_root t = Some n /\ n_kind n = K4 /\ n_children n !! 2 = Some (Some c).
Proof. do 5 eexists. split; [apply build_intro; vc|]. split; [vc|]. split; vc. Qed.
