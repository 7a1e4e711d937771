(** C64: Delete of a key that is not stored, exactly. *)
From Verif Require Export AbsDel2 PropAbsDel PropLow.
From stdpp Require Export list.
Local Open Scope nat_scope.
Local Open Scope list_scope.

(** *** C64: after a tame history, Delete of a key that is not stored and that leaves the stored keys after q, where
    at least two stored keys have q and no stored key agrees with it on ten bytes: the call returns (zero, false) and
    leaves Len alone; if two stored keys go on differently after q, exactly the keys that start with q are lost; if
    not, nothing changes.  (Excluded: q at which a shadowed key was deleted.) *)
Lemma C64_proof {V} `{GoZero V} (os : list (op V)) d h t rs k q :
  tame os d -> (N.of_nat (length os) < 2 ^ 64)%N -> build os h t rs ->
  valid_key k -> ref_ops os ∅ !! k = None -> roomy (ref_ops os ∅) -> near (ref_ops os ∅) k ->
  leaves_at (ref_ops os ∅) k q -> ~ hollow os q ->
  exists h' t', treeDelete t k h = (Ok (t', (go_zero, false)), h') /\ treeLen t' = treeLen t /\
    (parts (ref_ops os ∅) q -> forall k', is_bytes k' -> treeGet h' t' k' = Ok (ref_get (cut q (ref_ops os ∅)) k')) /\
    (~ parts (ref_ops os ∅) q -> forall k', is_bytes k' -> treeGet h' t' k' = Ok (ref_get (ref_ops os ∅) k')).
Proof.
  intros Ht Hl Hb Hv Hk Hroom Hnr Hla Hho. destruct (build_ok os d h t rs Ht Hl Hb) as (x & Hok & _).
  pose proof (build_slim os d h t rs Ht Hl Hb) as Hsl.
  destruct (wp_elim _ _ _ (delete_exact _ _ h t x k q Hok Hsl Hv Hk Hroom Hnr Hla Hho)) as ([t' r] & h' & E & E2 & Hs & H1 & H2).
  cbn [fst snd] in *. subst r. exists h', t'. split; [done|]. split; [done|].
  split; intros Hp k' Hk'; unfold treeGet; rewrite <- er_getFrom; (eapply holds_get; [|done]); auto.
Qed.

(** *** C64 where one stored key alone has the beginning of k: what is lost depends on the order in which the keys
    came.  The same two keys, inserted in the two orders; the same absent key deleted; the one tree loses the key it
    shares its first byte with, the other does not. *)
Lemma C64_order_refuted_proof : exists (os1 os2 : list (op nat)) h1 t1 rs1 h2 t2 rs2 k k' h1' t1' h2' t2',
  tame os1 0 /\ tame os2 0 /\ ref_ops os1 ∅ = ref_ops os2 (∅ : gmap (list nat) nat) /\ build os1 h1 t1 rs1 /\ build os2 h2 t2 rs2 /\
  valid_key k /\ ref_ops os1 ∅ !! k = None /\ near (ref_ops os1 ∅) k /\
  treeDelete t1 k h1 = (Ok (t1', (0, false)), h1') /\ treeDelete t2 k h2 = (Ok (t2', (0, false)), h2') /\
  treeGet h1' t1' k' <> treeGet h2' t2' k'.
Proof.
  exists [I "ab" 1; I "cd" 2], [I "cd" 2; I "ab" 1]. do 6 eexists. exists (B "ax"), (B "ab"). do 4 eexists.
  split; [apply tameb_start; by vm_compute|]. split; [apply tameb_start; by vm_compute|]. split; [apply (bool_decide_unpack _); by vm_compute|].
  split; [apply build_intro; vc|]. split; [apply build_intro; vc|]. split; [valid|]. split; [vc|]. split; [apply nearb_ok; by vm_compute|].
  split; [apply run_intro; vc|]. split; [apply run_intro; vc|]. by vm_compute.
Qed.

(** Executable checks of the hypotheses. *)
Definition leavesb (m : gmap bytes nat) (k q : bytes) : bool :=
  bool_decide (q `prefix_of` k ++ [dollar]) &&
  Nat.leb 2 (length (filter (fun kv => q `prefix_of` kv.1 ++ [dollar]) (map_to_list m))) &&
  forallb (fun kv => Nat.leb (lcp (kv.1 ++ [dollar]) (k ++ [dollar])) (length q)) (map_to_list m).
Lemma leavesb_ok m k q : leavesb m k q = true -> leaves_at m k q.
Proof.
  unfold leavesb. rewrite !andb_true_iff. intros [[H1%bool_decide_eq_true H2%Nat.leb_le] H3]. split; [done|]. split.
  - pose proof (NoDup_filter (fun kv : bytes * nat => q `prefix_of` kv.1 ++ [dollar]) _ (NoDup_map_to_list m)) as Hnd.
    assert (Hall : forall k v, (k, v) ∈ filter (fun kv : bytes * nat => q `prefix_of` kv.1 ++ [dollar]) (map_to_list m) -> m !! k = Some v /\ q `prefix_of` k ++ [dollar]).
    { intros k1 v1 Hx. apply elem_of_list_filter in Hx as [? Hx]. by apply elem_of_map_to_list in Hx. }
    destruct (filter _ (map_to_list m)) as [|[k1 v1] [|[k2 v2] l]]; [cbn in H2; lia..|].
    destruct (Hall k1 v1) as [A1 P1]; [left|]. destruct (Hall k2 v2) as [A2 P2]; [right; left|]. exists k1, k2. split; [eauto|]. split; [eauto|]. split; [|done].
    intros ->. assert (v1 = v2) as -> by congruence. apply NoDup_cons in Hnd as [Hnd _]. apply Hnd. left.
  - intros k' q' [v Hk'] [y Ey] Hq'. rewrite forallb_forall in H3. specialize (H3 (k', v)). apply elem_of_map_to_list, elem_of_list_In in Hk'.
    apply H3 in Hk'. cbn [fst] in Hk'. apply Nat.leb_le in Hk'. destruct Hq' as [z Ez].
    assert (Hl : length q' <= length q) by (rewrite Ey, Ez, lcp_app in Hk'; lia).
    destruct (prefix_weak_total q' q (k ++ [dollar])) as [?|[w ->]]; [by exists z|done|done|]. rewrite app_length in Hl. destruct w; [by rewrite app_nil_r|cbn in Hl; lia].
Qed.

(** The two cases: "ad" leaves the keys at the branch "a"; "bxcc" in the middle of the compressed path of "bbcc" and
    "bbcd". *)
Example ex_C64 : tame ex_abs 0 /\ roomy (ref_ops ex_abs ∅) /\ (forall q, ~ hollow ex_abs q) /\
  near (ref_ops ex_abs ∅) (B "ad") /\ leaves_at (ref_ops ex_abs ∅) (B "ad") (B "a") /\ parts (ref_ops ex_abs ∅) (B "a") /\
  near (ref_ops ex_abs ∅) (B "bxcc") /\ leaves_at (ref_ops ex_abs ∅) (B "bxcc") (B "b") /\ ~ parts (ref_ops ex_abs ∅) (B "b").
Proof.
  split; [apply tameb_start; by vm_compute|]. split; [apply roomy_small; vm_compute; lia|]. split; [apply hollowb_ok; by vm_compute|].
  split; [apply nearb_ok; by vm_compute|]. split; [apply leavesb_ok; by vm_compute|]. split.
  { exists (B "ab"), (B "ac"), 98, 99. split; [by eexists; vm_compute|]. split; [by eexists; vm_compute|]. split; [done|].
    split; apply (bool_decide_unpack _); by vm_compute. }
  split; [apply nearb_ok; by vm_compute|]. split; [apply leavesb_ok; by vm_compute|].
  assert (Hall : map_Forall (fun k _ => (B "b") `prefix_of` (k ++ [dollar]) -> (B "bb") `prefix_of` (k ++ [dollar])) (ref_ops ex_abs ∅)) by (apply (bool_decide_unpack _); by vm_compute).
  intros (k1 & k2 & b1 & b2 & [v1 H1] & [v2 H2] & Hb & P1 & P2). apply Hb.
  assert (Q1 : B "bb" `prefix_of` k1 ++ [dollar]) by (apply (Hall _ _ H1); etrans; [|exact P1]; by exists [b1]).
  assert (Q2 : B "bb" `prefix_of` k2 ++ [dollar]) by (apply (Hall _ _ H2); etrans; [|exact P2]; by exists [b2]).
  transitivity 98; [|symmetry]; eapply (prefix_inj_byte (B "b")); [exact P1|exact Q1|exact P2|exact Q2].
Qed.
