(** The theorems on the lower-bound and reverse iterators on tame histories, with examples (restated in Properties_Seek.v). *)
From Verif Require Import ReadTop ReadLow ReadRev ReadEr PropWorld PropMap PropRead Refute.
From stdpp Require Import list.
Local Open Scope nat_scope.

(** *** C22 on tame histories whose stored keys are prefix-free and go on in at most 12 ways after every prefix, where
    stored keys go on after the bound with bytes above '$' only, and the bound after no stored key with a byte below '$': if SeekLowerBound(k) returns, Next yields stored pairs in ascending order, among them
    every pair whose key is not below k. *)
Lemma C22_partial_proof {V} `{GoZero V} (os : list (op V)) d h t rs k it :
  tame os d -> (N.of_nat (length os) < 2 ^ 64)%N -> build os h t rs ->
  ref_ops os ∅ <> ∅ -> neat (ref_ops os ∅) k -> prefix_free (ref_ops os ∅) -> narrow (ref_ops os ∅) ->
  seekLowerBound h (newLowerIter (r_root t)) k = Ok it ->
  exists l, yields (lowerNext h) it l /\ ascending l /\ (forall k' v, (k', v) ∈ l -> ref_ops os ∅ !! k' = Some v) /\
    (forall k' v, ref_ops os ∅ !! k' = Some v -> ~ klt k' k -> (k', v) ∈ l).
Proof.
  intros Ht Hl Hb Hne Hhi Hpf Hn E. pose proof (build_holds os d h t rs Ht Hl Hb) as Hh. rewrite <- er_seekLowerBound in E.
  destruct (holds_lower _ _ _ _ _ _ Hh Hne Hhi Hpf Hn E) as (l & Hy & Hr). exists l. split; [|done].
  eapply yields_ext; [|exact Hy]. intros; by rewrite er_lowerNext.
Qed.
(** *** C22 for the empty bound on tame histories: SeekLowerBound("") returns, and Next yields all stored pairs, each
    once; in ascending order if no stored key goes on with a byte below '$' after another one. *)
Lemma C22_empty_partial_proof {V} `{GoZero V} (os : list (op V)) d h t rs :
  tame os d -> (N.of_nat (length os) < 2 ^ 64)%N -> build os h t rs -> ref_ops os ∅ <> ∅ ->
  exists it l, seekLowerBound h (newLowerIter (r_root t)) [] = Ok it /\ yields (lowerNext h) it l /\
    l ≡ₚ map_to_list (ref_ops os ∅) /\ (orderly (ref_ops os ∅) -> ascending l).
Proof.
  intros Ht Hl Hb Hne. pose proof (build_holds os d h t rs Ht Hl Hb) as Hh.
  destruct (holds_lower_all _ _ _ _ Hh Hne) as (it & l & E & Hy & Hr). exists it, l. rewrite er_seekLowerBound in E. split; [done|]. split; [|done].
  eapply yields_ext; [|exact Hy]. intros; by rewrite er_lowerNext.
Qed.

(** *** C23 on tame histories where the empty key is not stored, for an iterator without seek: Previous yields all stored
    pairs, each once; in descending order if the stored keys are prefix-free. *)
Lemma C23_partial_proof {V} `{GoZero V} (os : list (op V)) d h t rs :
  tame os d -> (N.of_nat (length os) < 2 ^ 64)%N -> build os h t rs -> ref_ops os ∅ !! [] = None -> ref_ops os ∅ <> ∅ ->
  exists l, yields (prev h) (newRevIter (r_root t)) l /\ l ≡ₚ map_to_list (ref_ops os ∅) /\
    (prefix_free (ref_ops os ∅) -> descending l).
Proof.
  intros Ht Hl Hb Hemp Hne. pose proof (build_holds os d h t rs Ht Hl Hb) as Hh.
  destruct (holds_reverse_all _ _ _ _ Hh Hemp Hne) as (l & Hy & Hr). exists l. split; [|done].
  eapply yields_ext; [|exact Hy]. intros; by rewrite er_prev.
Qed.
(** *** C23 on tame histories where the empty key is not stored, after SeekPrefix(p) for a prefix p of some stored key:
    Previous yields the stored pairs whose key has the prefix p, each once; in descending order if the stored keys are
    prefix-free. *)
Lemma C23_prefix_partial_proof {V} `{GoZero V} (os : list (op V)) d h t rs p :
  tame os d -> (N.of_nat (length os) < 2 ^ 64)%N -> build os h t rs -> ref_ops os ∅ !! [] = None ->
  is_bytes p -> last p <> Some dollar -> (exists k, is_Some (ref_ops os ∅ !! k) /\ p `prefix_of` k) ->
  exists ri l, revSeekPrefix h (newRevIter (r_root t)) p = Ok ri /\ yields (prev h) ri l /\ pairs_with (ref_ops os ∅) p l /\
    (prefix_free (ref_ops os ∅) -> descending l).
Proof.
  intros Ht Hl Hb Hemp Hp Hlast Hk. pose proof (build_holds os d h t rs Ht Hl Hb) as Hh.
  destruct (holds_reverse _ _ _ _ p Hh Hemp Hp Hlast Hk) as (ri & l & E & Hy & Hr). exists ri, l.
  unfold revSeekPrefix in E. rewrite er_seekPrefix in E. split; [exact E|]. split; [|done].
  eapply yields_ext; [|exact Hy]. intros; by rewrite er_prev.
Qed.
(** *** C50 On tame histories whose stored keys go on in at most 12 ways after every prefix, and where neither a stored key
    nor the bound goes on with a byte below '$' after another stored key or the bound (and no stored key with '$' after the
    bound): whenever SeekReverseLowerBound(k) returns, Previous yields exactly the stored pairs whose key is not above k,
    in descending order.  [spare] are the bytes behind the searched path in memory. *)
Lemma C50_proof {V} `{GoZero V} (os : list (op V)) d h t rs k spare ri :
  tame os d -> (N.of_nat (length os) < 2 ^ 64)%N -> build os h t rs ->
  ref_ops os ∅ <> ∅ -> orderly (ref_ops os ∅) -> neat (ref_ops os ∅) k -> narrow (ref_ops os ∅) ->
  seekReverseLowerBound h (newRevIter (r_root t)) k spare = Ok ri ->
  exists l, yields (prev h) ri l /\ descending l /\ (forall k' v, (k', v) ∈ l <-> ref_ops os ∅ !! k' = Some v /\ ~ klt k k').
Proof.
  intros Ht Hl Hb Hne Hhi Hk Hn E. pose proof (build_holds os d h t rs Ht Hl Hb) as Hh. rewrite <- er_seekReverseLowerBound in E.
  destruct (holds_reverse_bound _ _ _ _ _ _ _ Hh Hne Hhi Hk Hn E) as (l & Hy & Hr). exists l. split; [|done].
  eapply yields_ext; [|exact Hy]. intros; by rewrite er_prev.
Qed.

(** *** Concrete cases *)
Lemma narrow_small {V} (m : gmap (list nat) V) : size m <= 12 -> narrow m.
Proof.
  intros Hs q. exists (omap (fun kv : list nat * V => (kv.1 ++ [dollar]) !! length q) (map_to_list m)). split.
  - transitivity (length (map_to_list m)); [|exact Hs]. clear. generalize (map_to_list m). intros l. induction l as [|x l IH]; cbn; [lia|].
    destruct (_ !! _); cbn; lia.
  - intros b k [v Hk] [z Hz]. apply elem_of_list_omap. exists (k, v). split; [by apply elem_of_map_to_list|]. cbn [fst]. rewrite Hz, <- app_assoc.
    rewrite lookup_app_r by lia. by rewrite Nat.sub_diag.
Qed.
Lemma prefix_free_check {V} (m : gmap (list nat) V) :
  map_Forall (fun k _ => map_Forall (fun k' _ => k `prefix_of` k' -> k = k') m) m -> prefix_free m.
Proof. intros Hm k k' [v Hk] [v' Hk'] Hp. exact (Hm k v Hk k' v' Hk' Hp). Qed.
Lemma highmap_check {V} (m : gmap (list nat) V) : map_Forall (fun k _ => Forall (fun b => dollar < b) k) m -> highmap m.
Proof. intros Hb k [v Hk]. by apply (Hb k v). Qed.

Local Open Scope string_scope.
Definition ex_seek : list (op nat) :=
  [I "con" 1; I "bat" 2; I "bar" 3; I "bark" 4; I "cone" 5; I "cat" 6; I "cow" 7; I "bath" 8; D "con"; D "bar"; D "bat"; I "bark" 9; I "dog" 10; I "zoo" 11].
(** The second seek also yields "bath", which is below the bound "batman": the part of C22 that is missing in C22_partial. *)
Example ex_C22 : tame ex_seek 0 /\ ref_ops ex_seek ∅ <> ∅ /\ highmap (ref_ops ex_seek ∅) /\ prefix_free (ref_ops ex_seek ∅) /\ narrow (ref_ops ex_seek ∅) /\
  exists h t rs it it', build ex_seek h t rs /\ seekLowerBound h (newLowerIter (r_root t)) (B "cat") = Ok it /\
   yields (lowerNext h) it [(B "cat", 6); (B "cone", 5); (B "cow", 7); (B "dog", 10); (B "zoo", 11)] /\
   seekLowerBound h (newLowerIter (r_root t)) (B "batman") = Ok it' /\
   yields (lowerNext h) it' [(B "bath", 8); (B "cat", 6); (B "cone", 5); (B "cow", 7); (B "dog", 10); (B "zoo", 11)].
Proof.
  split; [apply tameb_start; by vm_compute|]. split; [by vm_compute|].
  split; [apply highmap_check; apply (bool_decide_unpack _); by vm_compute|].
  split; [apply prefix_free_check; apply (bool_decide_unpack _); by vm_compute|].
  split; [apply narrow_small; vm_compute; lia|].
  do 5 eexists. split; [apply build_intro; vm_compute; reflexivity|]. split; [vm_compute; reflexivity|].
  split; [apply (drain_yields 8); vm_compute; reflexivity|]. split; [vm_compute; reflexivity|].
  apply (drain_yields 8); vm_compute; reflexivity.
Qed.
Example ex_C23 : tame ex_seek 0 /\ ref_ops ex_seek ∅ !! [] = None /\ is_bytes (B "co") /\ last (B "co") <> Some dollar /\
  is_Some (ref_ops ex_seek ∅ !! B "cow") /\ B "co" `prefix_of` B "cow" /\
  exists h t rs ri, build ex_seek h t rs /\
   yields (prev h) (newRevIter (r_root t)) [(B "zoo", 11); (B "dog", 10); (B "cow", 7); (B "cone", 5); (B "cat", 6); (B "bath", 8); (B "bark", 9)] /\
   revSeekPrefix h (newRevIter (r_root t)) (B "co") = Ok ri /\ yields (prev h) ri [(B "cow", 7); (B "cone", 5)].
Proof.
  split; [apply tameb_start; by vm_compute|]. split; [by vm_compute|]. split; [repeat constructor; vm_compute; lia|]. split; [by vm_compute|]. split; [by vm_compute; eexists|].
  split; [by exists (B "w")|]. do 4 eexists. split; [apply build_intro; vm_compute; reflexivity|]. split; [apply (drain_yields 10); vm_compute; reflexivity|]. split; [vm_compute; reflexivity|].
  apply (drain_yields 8); vm_compute; reflexivity.
Qed.
(** Keys that are prefixes of other keys. *)
Definition ex_rev : list (op nat) := [I "con" 1; I "bat" 2; I "bar" 3; I "bark" 4; I "cone" 5; I "c" 6; I "bath" 8; D "con"; I "" 9].
Example ex_C50 : tame ex_rev 0 /\ ref_ops ex_rev ∅ <> ∅ /\ highmap (ref_ops ex_rev ∅) /\ narrow (ref_ops ex_rev ∅) /\ highbytes (B "bathe") /\
  exists h t rs ri ri', build ex_rev h t rs /\ seekReverseLowerBound h (newRevIter (r_root t)) (B "bathe") [] = Ok ri /\
   yields (prev h) ri [(B "bath", 8); (B "bat", 2); (B "bark", 4); (B "bar", 3); (B "", 9)] /\
   seekReverseLowerBound h (newRevIter (r_root t)) (B "c") (B "xyz") = Ok ri' /\
   yields (prev h) ri' [(B "c", 6); (B "bath", 8); (B "bat", 2); (B "bark", 4); (B "bar", 3); (B "", 9)].
Proof.
  split; [apply tameb_start; by vm_compute|]. split; [by vm_compute|].
  split; [apply highmap_check; apply (bool_decide_unpack _); by vm_compute|].
  split; [apply narrow_small; vm_compute; lia|]. split; [repeat constructor; vm_compute; lia|].
  do 5 eexists. split; [apply build_intro; vm_compute; reflexivity|]. split; [vm_compute; reflexivity|].
  split; [apply (drain_yields 8); vm_compute; reflexivity|]. split; [vm_compute; reflexivity|].
  apply (drain_yields 8); vm_compute; reflexivity.
Qed.
(** Keys and bounds with bytes below '$'. *)
Lemma neat_check {V} (m : gmap (list nat) V) k :
  map_Forall (fun k' _ => (k `prefix_of` k' -> Forall (fun c => dollar < c) (take 1 (drop (length k) k'))) /\
    (k' `prefix_of` k -> Forall (fun c => dollar <= c) (take 1 (drop (length k') k)))) m -> neat m k.
Proof.
  intros Hm k' c x [v Hk]. destruct (Hm _ _ Hk) as [H1 H2].
  split; intros ->; [specialize (H1 ltac:(by eexists)); rewrite drop_app in H1; cbn in H1; by inversion H1|
    specialize (H2 ltac:(by eexists)); rewrite drop_app in H2; cbn in H2; by inversion H2].
Qed.
Definition ex_seek_low : list (op nat) := [I "a b" 1; I "a!c" 2; I "#1" 3; I "a!" 4; I "#27" 5; I "zz" 6; D "a!"].
Example ex_seek_low_ok : tame ex_seek_low 0 /\ ref_ops ex_seek_low ∅ <> ∅ /\ ~ highmap (ref_ops ex_seek_low ∅) /\
  prefix_free (ref_ops ex_seek_low ∅) /\ orderly (ref_ops ex_seek_low ∅) /\ narrow (ref_ops ex_seek_low ∅) /\ neat (ref_ops ex_seek_low ∅) (B "a!c") /\
  exists h t rs it ri, build ex_seek_low h t rs /\ seekLowerBound h (newLowerIter (r_root t)) (B "a!c") = Ok it /\
   yields (lowerNext h) it [(B "a!c", 2); (B "zz", 6)] /\
   seekReverseLowerBound h (newRevIter (r_root t)) (B "a!c") [0; 0; 0] = Ok ri /\
   yields (prev h) ri [(B "a!c", 2); (B "a b", 1); (B "#27", 5); (B "#1", 3)].
Proof.
  split; [apply tameb_start; by vm_compute|]. split; [by vm_compute|]. split.
  { intros Hm. assert (Hs : is_Some (ref_ops ex_seek_low ∅ !! B "#1")) by (eexists; vm_compute; reflexivity). specialize (Hm _ Hs). inversion Hm as [|? ? Hd _]; subst.
    vm_compute in Hd. lia. }
  assert (Hp : prefix_free (ref_ops ex_seek_low ∅)) by (apply prefix_free_check; apply (bool_decide_unpack _); by vm_compute).
  split; [done|]. split; [by apply prefix_free_orderly|]. split; [apply narrow_small; vm_compute; lia|].
  split; [apply neat_check, (bool_decide_unpack _); by vm_compute|].
  do 5 eexists. split; [apply build_intro; vm_compute; reflexivity|]. split; [vm_compute; reflexivity|].
  split; [apply (drain_yields 8); vm_compute; reflexivity|]. split; [vm_compute; reflexivity|].
  apply (drain_yields 8); vm_compute; reflexivity.
Qed.

(** ** More than 12 branches: nodes of kind 48 and 256 *)
Definition single (o : op nat) : Prop := exists b v, o = OInsert [b] v /\ dollar < b < 256.
Definition singles (n : nat) : list (op nat) := (fun i => OInsert [100 + 2 * i] i) <$> seq 0 n.
Lemma singles_single n : n <= 70 -> Forall single (singles n).
Proof.
  intros Hn. apply Forall_fmap, Forall_forall. intros i Hi%elem_of_seq. exists (100 + 2 * i), i. split; [done|]. unfold dollar. lia.
Qed.
(** *** C22 with a node of kind 256, all keys single bytes above '$': SeekLowerBound of a stored key yields this key only,
    and not the keys above it (the children are counted from numChildren instead of 255, lower_bound_iterator.go:328). *)
Lemma C22_wide_refuted_proof : exists (os : list (op nat)) h t rs k it k' v',
  Forall single os /\ build os h t rs /\ seekLowerBound h (newLowerIter (r_root t)) [k] = Ok it /\
  ref_ops os ∅ !! [k'] = Some v' /\ k < k' /\ yields (lowerNext h) it [([k], 25)].
Proof.
  exists (singles 49). do 3 eexists. exists 150. eexists. exists 152, 26. split; [by apply singles_single; lia|].
  split; [apply build_intro; vm_compute; reflexivity|]. split; [vm_compute; reflexivity|]. split; [by vm_compute|]. split; [lia|].
  apply (drain_yields 8); vm_compute; reflexivity.
Qed.
(** *** C22, C23 with a node of kind 48, all keys single bytes above '$': SeekLowerBound and SeekReverseLowerBound panic
    when no key starts with the byte of the bound (node_48.go:185). *)
Lemma C22_node48_refuted_proof : exists (os : list (op nat)) h t rs k,
  Forall single os /\ build os h t rs /\ dollar < k < 256 /\ seekLowerBound h (newLowerIter (r_root t)) [k] = Panic /\
  seekReverseLowerBound h (newRevIter (r_root t)) [k] [] = Panic.
Proof.
  exists (singles 17). do 3 eexists. exists 105. split; [by apply singles_single; lia|].
  split; [apply build_intro; vm_compute; reflexivity|]. split; [unfold dollar; lia|]. split; vm_compute; reflexivity.
Qed.
(** *** C23 with a node of kind 48: keys are yielded in the order in which they were inserted. *)
Lemma C23_node48_refuted_proof : exists (os : list (op nat)) h t rs k ri,
  Forall single os /\ build os h t rs /\ seekReverseLowerBound h (newRevIter (r_root t)) [k] [] = Ok ri /\
  yields (prev h) ri [([100], 0); ([106], 3); ([104], 2); ([102], 1)].
Proof.
  exists (rev (singles 17)). do 3 eexists. exists 106. eexists. split; [apply Forall_rev, singles_single; lia|].
  split; [apply build_intro; vm_compute; reflexivity|]. split; [vm_compute; reflexivity|]. apply (drain_yields 8); vm_compute; reflexivity.
Qed.
(** *** C23 with a node of kind 256: SeekReverseLowerBound of a stored key yields nothing. *)
Lemma C23_wide_refuted_proof : exists (os : list (op nat)) h t rs k v ri,
  Forall single os /\ build os h t rs /\ ref_ops os ∅ !! [k] = Some v /\ seekReverseLowerBound h (newRevIter (r_root t)) [k] [] = Ok ri /\
  yields (prev h) ri [].
Proof.
  exists (singles 49). do 3 eexists. exists 150, 25. eexists. split; [by apply singles_single; lia|].
  split; [apply build_intro; vm_compute; reflexivity|]. split; [by vm_compute|]. split; [vm_compute; reflexivity|]. apply (drain_yields 8); vm_compute; reflexivity.
Qed.
