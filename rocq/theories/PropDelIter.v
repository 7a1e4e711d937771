(** C66: iteration after DeletePrefix, and the trees on which DeletePrefix does exactly what it should. *)
From Verif Require Export PropDelPre PropWorld.
From stdpp Require Export list.
Local Open Scope nat_scope.
Local Open Scope list_scope.

(** The pairs of m whose keys do not start with p. *)
Definition without {V} (m : gmap (list nat) V) (p : bytes) : gmap (list nat) V := filter (fun kv => ~ p `prefix_of` kv.1) m.
Lemma without_lookup {V} (m : gmap (list nat) V) p k v : without m p !! k = Some v <-> m !! k = Some v /\ ~ p `prefix_of` k.
Proof. unfold without. by rewrite map_filter_lookup_Some. Qed.

Lemma delpre_iter {V} `{GoZero V} (os : list (op V)) h t rs p :
  Forall (fun o => is_insert o /\ valid_key (op_key o)) os -> (N.of_nat (length os) < 2 ^ 64)%N -> build os h t rs ->
  ref_ops os ∅ <> ∅ -> narrow (ref_ops os ∅) -> roomy (ref_ops os ∅) -> (size (ref_ops os ∅) = 1 -> starting (ref_ops os ∅) p = 0) ->
  exists h' t' b l, treeDeletePrefix t p h = (Ok (t', b), h') /\ iterates h' (r_root t') [] l /\ dp_iter (ref_ops os ∅) p l.
Proof.
  intros Ho Hl Hb Hne Hn Hroom Hone. destruct (inserts_holds os h t rs Ho Hl Hb) as [_ Hcl]. destruct (tame_inserts os Ho) as [d Ht].
  destruct (build_ok os d h t rs Ht Hl Hb) as (x & Hok & _ & _ & Hsz).
  destruct (deletePrefix_ok _ h t x p Hok Hne Hcl Hroom ltac:(lia)) as (h' & t' & E & Es & _ & _ & Hr3).
  destruct (Hr3 Hn Hone) as (l & Hi & Hd). exists h', t', (negb (Nat.eqb (starting (ref_ops os ∅) p) 0)), l. split; [done|]. split; [|done].
  by apply er_iterates.
Qed.

(** *** C66: non-empty histories of insertions of valid keys, narrow and roomy maps, except the one case in which the only
    stored key goes.  After DeletePrefix(p) full iteration ends; it yields every stored key that does not start with p,
    with its value; of the keys that start with p it yields at most those that are proper prefixes of other stored keys;
    it yields no key twice, and in ascending order if no stored key goes on with a byte below '$' after
    another stored key. *)
Lemma C66_iter_proof {V} `{GoZero V} (os : list (op V)) h t rs p :
  Forall (fun o => is_insert o /\ valid_key (op_key o)) os -> (N.of_nat (length os) < 2 ^ 64)%N -> build os h t rs ->
  ref_ops os ∅ <> ∅ -> narrow (ref_ops os ∅) -> roomy (ref_ops os ∅) -> (size (ref_ops os ∅) = 1 -> starting (ref_ops os ∅) p = 0) ->
  exists h' t' b l, treeDeletePrefix t p h = (Ok (t', b), h') /\ iterates h' (r_root t') [] l /\
    NoDup l.*1 /\ (orderly (ref_ops os ∅) -> ascending l) /\
    (forall k v, ref_ops os ∅ !! k = Some v -> ~ p `prefix_of` k -> (k, v) ∈ l) /\
    (forall k v, (k, v) ∈ l -> ref_ops os ∅ !! k = Some v /\ (p `prefix_of` k -> shadowed (ref_ops os ∅) k)).
Proof.
  intros Ho Hl Hb Hne Hn Hroom Hone. destruct (delpre_iter os h t rs p Ho Hl Hb Hne Hn Hroom Hone) as (h' & t' & b & l & E & Hi & D1 & D2 & D3 & D4).
  exists h', t', b, l. split; [done|]. split; [done|]. split; [done|]. split; [done|]. done.
Qed.

(** *** C66: if moreover no stored key that starts with p is a proper prefix of another one, then full iteration yields
    the pairs of the reference map whose keys do not start with p. *)
Lemma C66_iter_exact_proof {V} `{GoZero V} (os : list (op V)) h t rs p :
  Forall (fun o => is_insert o /\ valid_key (op_key o)) os -> (N.of_nat (length os) < 2 ^ 64)%N -> build os h t rs ->
  ref_ops os ∅ <> ∅ -> narrow (ref_ops os ∅) -> roomy (ref_ops os ∅) -> (size (ref_ops os ∅) = 1 -> starting (ref_ops os ∅) p = 0) ->
  (forall k, is_Some (ref_ops os ∅ !! k) -> p `prefix_of` k -> ~ shadowed (ref_ops os ∅) k) ->
  exists h' t' b l, treeDeletePrefix t p h = (Ok (t', b), h') /\ iterates h' (r_root t') [] l /\
    l ≡ₚ map_to_list (without (ref_ops os ∅) p) /\ (orderly (ref_ops os ∅) -> ascending l).
Proof.
  intros Ho Hl Hb Hne Hn Hroom Hone Hsh. destruct (delpre_iter os h t rs p Ho Hl Hb Hne Hn Hroom Hone) as (h' & t' & b & l & E & Hi & D1 & D2 & D3 & D4).
  exists h', t', b, l. split; [done|]. split; [done|]. split; [|done].
  apply NoDup_Permutation; [by eapply NoDup_fmap_1|apply NoDup_map_to_list|]. intros [k v]. rewrite elem_of_map_to_list, without_lookup. split.
  - intros Hin. destruct (D3 _ _ Hin) as [Hk Hp]. split; [done|]. intros Hpk. apply (Hsh k); [eauto|done|]. by apply Hp.
  - intros [Hk Hp]. by apply D4.
Qed.

(** *** C66: if, besides, the stored keys that start with p are none or at least two, then Get too answers as the
    reference map without those keys, and Len drops by their number. *)
Lemma C66_exact_proof {V} `{GoZero V} (os : list (op V)) h t rs p :
  Forall (fun o => is_insert o /\ valid_key (op_key o)) os -> (N.of_nat (length os) < 2 ^ 64)%N -> build os h t rs ->
  ref_ops os ∅ <> ∅ -> narrow (ref_ops os ∅) -> roomy (ref_ops os ∅) -> starting (ref_ops os ∅) p <> 1 ->
  (forall k, is_Some (ref_ops os ∅ !! k) -> p `prefix_of` k -> ~ shadowed (ref_ops os ∅) k) ->
  exists h' t' b l, treeDeletePrefix t p h = (Ok (t', b), h') /\
    (b = true <-> starting (ref_ops os ∅) p <> 0) /\ (treeLen t' + N.of_nat (starting (ref_ops os ∅) p) = treeLen t)%N /\
    (forall k, is_bytes k -> treeGet h' t' k = Ok (ref_get (without (ref_ops os ∅) p) k)) /\
    iterates h' (r_root t') [] l /\ l ≡ₚ map_to_list (without (ref_ops os ∅) p) /\ (orderly (ref_ops os ∅) -> ascending l).
Proof.
  intros Ho Hl Hb Hne Hn Hroom Hs1 Hsh. set (m := ref_ops os ∅) in *.
  assert (Hone : size m = 1 -> starting m p = 0) by (intros E; pose proof (starting_le m p); lia).
  destruct (C66_iter_exact_proof os h t rs p Ho Hl Hb Hne Hn Hroom Hone Hsh) as (h' & t' & b & l & E & Hi & Hp & Ha).
  destruct (C21_partial_proof os h t rs p Ho Hl Hb Hne Hroom) as (h1 & t1 & b1 & E1 & Hb1 & Hlen & H1 & H2).
  rewrite E in E1. injection E1 as <- <- <-. fold m in Hb1, Hlen, H1, H2. exists h', t', b, l. split; [done|].
  assert (Htwo : forall k1, is_Some (m !! k1) -> p `prefix_of` k1 -> exists k2, is_Some (m !! k2) /\ k2 <> k1 /\ p `prefix_of` k2).
  { intros k1 [v1 Hk1] Hp1. set (f := filter (fun kv : list nat * V => p `prefix_of` kv.1) m). assert (Hf : f !! k1 = Some v1) by by apply map_filter_lookup_Some.
    destruct (decide (delete k1 f = ∅)) as [Ed|Ed].
    - exfalso. apply Hs1. unfold starting. fold f. rewrite <- (insert_delete f k1 v1 Hf), Ed. by rewrite map_size_insert_None, map_size_empty.
    - apply map_choose in Ed as (k2 & v2 & Hk2). apply lookup_delete_Some in Hk2 as [Hne2 Hk2]. apply map_filter_lookup_Some in Hk2 as [Hk2 Hp2]. exists k2. eauto. }
  split; [|split; [done|split; [|done]]].
  - rewrite Hb1. unfold starting. split.
    + intros (k & [v Hk] & Hpk) E0. apply map_size_empty_inv in E0.
      assert (Hin : filter (fun kv : list nat * V => p `prefix_of` kv.1) m !! k = Some v) by by apply map_filter_lookup_Some. by rewrite E0 in Hin.
    + intros E0. destruct (map_choose (filter (fun kv : list nat * V => p `prefix_of` kv.1) m)) as (k & v & Hk); [intros Ee; apply E0; by rewrite Ee, map_size_empty|].
      apply map_filter_lookup_Some in Hk as [Hk Hpk]. eauto.
  - intros k Hk. unfold ref_get. destruct (without m p !! k) as [v|] eqn:Ek.
    + apply without_lookup in Ek as [Ek Hpk]. apply H2; [done|done|done|]. intros k1 Hk1 Hp1. right. destruct (Htwo k1 Hk1 Hp1) as (k2 & Hk2 & Hne2 & Hp2). by exists k2, p.
    + destruct (H1 k Hk) as [|(v & _ & Hv & Hp1)]; [done|]. exfalso. assert (Hx : without m p !! k = Some v); [|congruence].
      apply without_lookup. split; [done|]. intros Hpk. apply (Hsh k); [eauto|done|]. by apply Hp1.
Qed.

(** *** C66: iteration and Get do not agree after DeletePrefix of a prefix that one stored key has: iteration yields the
    two other keys, Get finds only one of them. *)
Lemma C66_agree_refuted_proof : exists (os : list (op nat)) h t rs p h' t',
  Forall (fun o => is_insert o /\ valid_key (op_key o)) os /\ build os h t rs /\ narrow (ref_ops os ∅) /\ starting (ref_ops os ∅) p = 1 /\
  treeDeletePrefix t p h = (Ok (t', true), h') /\ iterates h' (r_root t') [] [(B "b", 2); (B "c", 3)] /\
  treeGet h' t' (B "b") = Ok (0, false).
Proof.
  exists [I "a" 1; I "b" 2; I "c" 3]. do 3 eexists. exists (B "a"). do 2 eexists.
  split; [valid|]. split; [apply build_intro; vc|]. split; [apply narrow_small; vm_compute; lia|]. split; [vc|].
  split; [apply run_intro; vc|]. split; [|vc].
  eexists. split; [vc|]. apply (drain_yields 20). vc.
Qed.

(** ** Concrete cases *)
Definition ex_di : list (op nat) := [I "bat" 1; I "bark" 3; I "cat" 5; I "cow" 6; I "ace" 7; I "bed" 8].
Example ex_C66 : Forall (fun o => is_insert o /\ valid_key (op_key o)) ex_di /\ ref_ops ex_di ∅ <> ∅ /\ narrow (ref_ops ex_di ∅) /\ roomy (ref_ops ex_di ∅) /\
  highmap (ref_ops ex_di ∅) /\ starting (ref_ops ex_di ∅) (B "ba") = 2 /\ size (ref_ops ex_di ∅) = 6.
Proof.
  split; [valid|]. split; [by vm_compute|]. split; [apply narrow_small; vm_compute; lia|]. split; [apply roomy_small; vm_compute; lia|].
  split; [apply highmap_check; apply (bool_decide_unpack _); by vm_compute|]. split; vc.
Qed.
Example ex_C66_unshadowed k : is_Some (ref_ops ex_di ∅ !! k) -> B "ba" `prefix_of` k -> ~ shadowed (ref_ops ex_di ∅) k.
Proof.
  intros Hk _ (_ & k2 & Hk2 & Hne & Hp).
  assert (Hall : map_Forall (fun (k2 : list nat) (_ : nat) => map_Forall (fun (k : list nat) (_ : nat) => k2 = k \/ ~ k `prefix_of` k2) (ref_ops ex_di ∅)) (ref_ops ex_di ∅)).
  { refine (bool_decide_unpack _ _). vm_compute. exact Logic.I. }
  destruct Hk as [v Hk], Hk2 as [v2 Hk2]. by destruct (Hall _ _ Hk2 _ _ Hk).
Qed.
Example ex_C66_runs : exists h t rs h' t', build ex_di h t rs /\ treeDeletePrefix t (B "ba") h = (Ok (t', true), h') /\
  iterates h' (r_root t') [] [(B "ace", 7); (B "bed", 8); (B "cat", 5); (B "cow", 6)].
Proof.
  do 5 eexists. split; [apply build_intro; vc|]. split; [apply run_intro; vc|]. eexists. split; [vc|]. apply (drain_yields 20). vc.
Qed.
