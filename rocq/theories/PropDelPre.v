(** C21 as far as it holds: DeletePrefix after insertions. *)
From Verif Require Export DelPre4 PropMap PropWalk PropSeek Refute.
From stdpp Require Export list.
Local Open Scope nat_scope.
Local Open Scope list_scope.

(** *** C21 on non-empty histories of insertions of valid keys (and no byte string after which all 256 bytes are taken):
    DeletePrefix(p) returns, it reports whether some stored key starts with p, and Len drops by the number of stored keys
    that start with p.  Afterwards Get finds stored keys only, with their values; of the keys that start with p it finds
    at most those that are proper prefixes of other stored keys.  If the stored keys go on in at most 12 ways after every
    prefix, then a stored key k without the prefix is still found, unless the only key k1 that starts with p comes before
    k and no other stored key agrees with k1 on more than k does.  Missing from C21: that the keys that are proper
    prefixes of others go too (C21_refuted), that the keys behind a single removed key stay (C21_behind_refuted), wide
    nodes (C21_absent_refuted), the empty tree (C21_empty_refuted), histories with Delete (C21_len_refuted). *)
Lemma C21_partial_proof {V} `{GoZero V} (os : list (op V)) h t rs p :
  Forall (fun o => is_insert o /\ valid_key (op_key o)) os -> (N.of_nat (length os) < 2 ^ 64)%N -> build os h t rs ->
  ref_ops os ∅ <> ∅ -> roomy (ref_ops os ∅) ->
  exists h' t' b, treeDeletePrefix t p h = (Ok (t', b), h') /\
    (b = true <-> exists k, is_Some (ref_ops os ∅ !! k) /\ p `prefix_of` k) /\
    (treeLen t' + N.of_nat (starting (ref_ops os ∅) p) = treeLen t)%N /\
    (forall k, is_bytes k -> treeGet h' t' k = Ok (go_zero, false) \/
       exists v, treeGet h' t' k = Ok (v, true) /\ ref_ops os ∅ !! k = Some v /\ (p `prefix_of` k -> shadowed (ref_ops os ∅) k)) /\
    (narrow (ref_ops os ∅) -> forall k v, ref_ops os ∅ !! k = Some v -> ~ p `prefix_of` k -> clear_of (ref_ops os ∅) p k ->
       treeGet h' t' k = Ok (v, true)).
Proof.
  intros Ho Hl Hb Hne Hroom. destruct (inserts_holds os h t rs Ho Hl Hb) as [_ Hcl]. destruct (tame_inserts os Ho) as [d Ht].
  destruct (build_ok os d h t rs Ht Hl Hb) as (x & Hok & _ & _ & Hsz).
  destruct (deletePrefix_ok _ h t x p Hok Hne Hcl Hroom ltac:(lia)) as (h' & t' & E & Es & Hr1 & Hr2 & _).
  exists h', t', (negb (Nat.eqb (starting (ref_ops os ∅) p) 0)). split; [done|]. split; [|split; [|split]].
  - unfold starting. destruct (Nat.eqb_spec (size (filter (fun kv => p `prefix_of` kv.1) (ref_ops os (∅ : gmap (list nat) V)))) 0) as [E0|E0]; cbn [negb].
    + split; [done|]. intros (k & [v Hk] & Hp). exfalso. apply map_size_empty_inv in E0.
      assert (Hin : filter (fun kv => p `prefix_of` kv.1) (ref_ops os (∅ : gmap (list nat) V)) !! k = Some v) by by apply map_filter_lookup_Some.
      by rewrite E0 in Hin.
    + split; [|done]. intros _. destruct (map_choose (filter (fun kv => p `prefix_of` kv.1) (ref_ops os (∅ : gmap (list nat) V)))) as (k & v & Hk).
      { intros E1. apply E0. by rewrite E1, map_size_empty. }
      apply map_filter_lookup_Some in Hk as [Hk Hp]. eauto.
  - destruct Hok as (_ & Hs & _). unfold treeLen. rewrite Es, Hs. pose proof (starting_le (ref_ops os ∅) p). lia.
  - intros k Hk. unfold treeGet. rewrite <- er_getFrom. by apply Hr1.
  - intros Hn k v Hk Hp Hc. unfold treeGet. rewrite <- er_getFrom. by apply Hr2.
Qed.

(** *** C21 for the same histories and narrow maps, when no stored key or at least two stored keys start with p: no other
    key is lost. *)
Lemma C21_others_partial_proof {V} `{GoZero V} (os : list (op V)) h t rs p :
  Forall (fun o => is_insert o /\ valid_key (op_key o)) os -> (N.of_nat (length os) < 2 ^ 64)%N -> build os h t rs ->
  ref_ops os ∅ <> ∅ -> narrow (ref_ops os ∅) -> roomy (ref_ops os ∅) ->
  (forall k1, is_Some (ref_ops os ∅ !! k1) -> p `prefix_of` k1 -> exists k2, is_Some (ref_ops os ∅ !! k2) /\ k2 <> k1 /\ p `prefix_of` k2) ->
  exists h' t' b, treeDeletePrefix t p h = (Ok (t', b), h') /\
    forall k, is_bytes k -> ~ p `prefix_of` k -> treeGet h' t' k = treeGet h t k.
Proof.
  intros Ho Hl Hb Hne Hn Hroom Htwo. destruct (C21_partial_proof os h t rs p Ho Hl Hb Hne Hroom) as (h' & t' & b & E & _ & _ & H1 & H2).
  exists h', t', b. split; [done|]. intros k Hk Hp. destruct (inserts_holds os h t rs Ho Hl Hb) as [Hh _].
  assert (Hg : treeGet h t k = Ok (ref_get (ref_ops os ∅) k)) by (unfold treeGet; rewrite <- er_getFrom; by eapply holds_get).
  rewrite Hg. unfold ref_get. destruct (ref_ops os ∅ !! k) as [v|] eqn:Ek.
  - apply H2; [done|done|done|]. intros k1 Hk1 Hp1. right. destruct (Htwo k1 Hk1 Hp1) as (k2 & Hk2 & Hne2 & Hp2). exists k2, p. done.
  - destruct (H1 k Hk) as [|(v & _ & Hv & _)]; [done|]. congruence.
Qed.

(** *** C21 for the same histories and narrow maps, when no stored key starts with p: nothing changes. *)
Lemma C21_absent_partial_proof {V} `{GoZero V} (os : list (op V)) h t rs p :
  Forall (fun o => is_insert o /\ valid_key (op_key o)) os -> (N.of_nat (length os) < 2 ^ 64)%N -> build os h t rs ->
  ref_ops os ∅ <> ∅ -> narrow (ref_ops os ∅) -> roomy (ref_ops os ∅) -> (forall k, is_Some (ref_ops os ∅ !! k) -> ~ p `prefix_of` k) ->
  exists h' t', treeDeletePrefix t p h = (Ok (t', false), h') /\ treeLen t' = treeLen t /\ forall k, is_bytes k -> treeGet h' t' k = treeGet h t k.
Proof.
  intros Ho Hl Hb Hne Hn Hroom Hno. destruct (C21_partial_proof os h t rs p Ho Hl Hb Hne Hroom) as (h' & t' & b & E & Hbt & Hlen & H1 & H2).
  assert (b = false) as -> by (destruct b; [|done]; destruct Hbt as [Hbt _]; destruct (Hbt eq_refl) as (k & Hk & Hp); by destruct (Hno k Hk)).
  assert (Hz : starting (ref_ops os ∅) p = 0).
  { unfold starting. apply map_size_empty_iff. apply map_eq. intros k. rewrite lookup_empty.
    destruct (filter (fun kv => p `prefix_of` kv.1) (ref_ops os (∅ : gmap (list nat) V)) !! k) as [v|] eqn:Ek; [|done].
    apply map_filter_lookup_Some in Ek as [Ek Hp]. exfalso. eapply Hno; eauto. }
  exists h', t'. split; [done|]. split; [rewrite Hz in Hlen; lia|]. intros k Hk. destruct (inserts_holds os h t rs Ho Hl Hb) as [Hh _].
  assert (Hg : treeGet h t k = Ok (ref_get (ref_ops os ∅) k)) by (unfold treeGet; rewrite <- er_getFrom; by eapply holds_get).
  rewrite Hg. unfold ref_get. destruct (ref_ops os ∅ !! k) as [v|] eqn:Ek.
  - apply H2; [done|done|apply Hno; eauto|]. intros k1 Hk1 Hp1. by destruct (Hno k1 Hk1).
  - destruct (H1 k Hk) as [|(v & _ & Hv & _)]; [done|]. congruence.
Qed.

(** C21: the key behind a single removed key is lost, a narrow map. *)
Lemma C21_behind_refuted_proof : exists (os : list (op nat)) h t rs p k v h' t',
  Forall (fun o => is_insert o /\ valid_key (op_key o)) os /\ build os h t rs /\ narrow (ref_ops os ∅) /\ ref_ops os ∅ !! k = Some v /\ ~ p `prefix_of` k /\
  treeDeletePrefix t p h = (Ok (t', true), h') /\ treeGet h' t' k = Ok (0, false).
Proof.
  exists [I "a" 1; I "b" 2; I "c" 3]. do 3 eexists. exists (B "a"), (B "b"). do 3 eexists.
  split; [valid|]. split; [apply build_intro; vc|]. split; [apply narrow_small; vm_compute; lia|]. split; [vc|]. split; [intros [x E]; discriminate E|].
  split; [apply run_intro; vc|]. vc.
Qed.
(** C21: on a Node256 DeletePrefix of a prefix that no key has loses all keys. *)
Definition wide : list (op nat) := List.map (fun i => OInsert [128 + i] i) (seq 0 60).
Lemma C21_absent_refuted_proof : exists (os : list (op nat)) h t rs p h' t',
  Forall (fun o => is_insert o /\ valid_key (op_key o)) os /\ build os h t rs /\ (forall k, is_Some (ref_ops os ∅ !! k) -> ~ p `prefix_of` k) /\
  treeDeletePrefix t p h = (Ok (t', false), h') /\ size (ref_ops os ∅) = 60 /\ treeLen t' = 60%N /\
  forall k, is_Some (ref_ops os ∅ !! k) -> treeGet h' t' k = Ok (0, false).
Proof.
  exists wide. do 3 eexists. exists (B "a"). do 2 eexists.
  split; [|split; [apply build_intro; vc|split; [|split; [apply run_intro; vc|split; [vc|split; [vc|]]]]]].
  - apply Forall_fmap, Forall_forall. intros i Hi%elem_of_seq. split; [done|]. unfold valid_key, dollar, compose. cbn [op_key]. apply Forall_cons. split; [lia|apply Forall_nil_2].
  - intros k [v Hk] [x ->]. revert Hk. assert (Hm : map_Forall (fun (k : list nat) (_ : nat) => head k <> Some 97) (ref_ops wide ∅)).
    { refine (bool_decide_unpack _ _). vm_compute. exact Logic.I. }
    intros Hk. by apply (Hm _ _ Hk).
  - intros k [v Hk].
    match goal with |- treeGet ?h ?t k = _ => enough (Hm : map_Forall (fun (k : list nat) (_ : nat) => match treeGet h t k with Ok (0, false) => true | _ => false end = true) (ref_ops wide ∅)) end.
    { specialize (Hm _ _ Hk). cbn beta in Hm. destruct (treeGet _ _ k) as [[[|] []]| |]; done. }
    refine (bool_decide_unpack _ _). vm_compute. exact Logic.I.
Qed.
(** C21: DeletePrefix("") on an empty tree reports a deletion, and Len wraps around. *)
Lemma C21_empty_refuted_proof : exists (h : heap nat) t rs h' t', build [] h t rs /\ treeLen t = 0%N /\
  treeDeletePrefix t [] h = (Ok (t', true), h') /\ treeLen t' = (2 ^ 64 - 1)%N.
Proof. do 5 eexists. split; [apply build_intro; vc|]. split; [vc|]. split; [apply run_intro; vc|]. vc. Qed.
(** C21: after a Delete, DeletePrefix counts a key twice. *)
Lemma C21_len_refuted_proof : exists (os : list (op nat)) h t rs p h' t',
  Forall (fun o => valid_key (op_key o)) os /\ build os h t rs /\ starting (ref_ops os ∅) p = 1 /\ treeLen t = 3%N /\
  treeDeletePrefix t p h = (Ok (t', true), h') /\ treeLen t' = 1%N.
Proof.
  exists [I "a" 1; I "b" 2; I "c" 3; I "d" 4; D "a"]. do 3 eexists. exists (B "d"). do 2 eexists.
  split; [valid|]. split; [apply build_intro; vc|]. split; [vc|]. split; [vc|]. split; [apply run_intro; vc|]. vc.
Qed.
(** C21: after a Delete, DeletePrefix of all keys makes Len wrap around. *)
Lemma C21_wrap_refuted_proof : exists (os : list (op nat)) h t rs h' t',
  Forall (fun o => valid_key (op_key o)) os /\ build os h t rs /\ starting (ref_ops os ∅) [] = 3 /\ treeLen t = 3%N /\
  treeDeletePrefix t [] h = (Ok (t', true), h') /\ treeLen t' = (2 ^ 64 - 1)%N.
Proof.
  exists [I "a" 1; I "b" 2; I "c" 3; I "d" 4; D "b"]. do 5 eexists.
  split; [valid|]. split; [apply build_intro; vc|]. split; [vc|]. split; [vc|]. split; [apply run_intro; vc|]. vc.
Qed.

(** ** A concrete case: two keys go, a third that starts with "ba" stays because it is a prefix of "bark". *)
Definition ex_dp : list (op nat) := [I "bat" 1; I "ba" 2; I "bark" 3; I "bar" 4; I "cat" 5; I "cow" 6; I "ace" 7; I "bed" 8].
Example ex_C21 : Forall (fun o => is_insert o /\ valid_key (op_key o)) ex_dp /\ ref_ops ex_dp ∅ <> ∅ /\ narrow (ref_ops ex_dp ∅) /\ roomy (ref_ops ex_dp ∅) /\
  starting (ref_ops ex_dp ∅) (B "ba") = 4 /\ starting (ref_ops ex_dp ∅) (B "bx") = 0.
Proof.
  split; [valid|]. split; [by vm_compute|]. split; [apply narrow_small; vm_compute; lia|]. split; [apply roomy_small; vm_compute; lia|]. split; vc.
Qed.
Example ex_C21_others k1 : is_Some (ref_ops ex_dp ∅ !! k1) -> B "ba" `prefix_of` k1 ->
  exists k2, is_Some (ref_ops ex_dp ∅ !! k2) /\ k2 <> k1 /\ B "ba" `prefix_of` k2.
Proof.
  intros _ _. destruct (decide (k1 = B "ba")) as [->|Hne].
  - exists (B "bat"). split; [vm_compute; eauto|]. split; [discriminate|]. by eexists.
  - exists (B "ba"). split; [vm_compute; eauto|]. split; [done|]. done.
Qed.
Example ex_C21_runs : exists h t rs h' t', build ex_dp h t rs /\ treeLen t = 8%N /\ treeDeletePrefix t (B "ba") h = (Ok (t', true), h') /\ treeLen t' = 4%N /\
  treeGet h' t' (B "bat") = Ok (0, false) /\ treeGet h' t' (B "bark") = Ok (0, false) /\ treeGet h' t' (B "bar") = Ok (4, true) /\
  treeGet h' t' (B "bed") = Ok (8, true) /\ treeGet h' t' (B "cat") = Ok (5, true) /\ treeGet h' t' (B "ace") = Ok (7, true).
Proof. do 5 eexists. split; [apply build_intro; vc|]. split; [vc|]. split; [apply run_intro; vc|]. split_and!; vc. Qed.
