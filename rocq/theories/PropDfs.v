(** The theorems on DFS, with examples (restated in Properties_Dfs.v). *)
From Verif Require Import SpecDfs SpecScan ReadDfs ReadDfs2 PropWalk PropWorld PropMap PropRead PropSeek Observe Refute.
From stdpp Require Import list.
Local Open Scope nat_scope.

Lemma er_shown {V} (h : heap V) ns : shown (er_h h) ns = shown h ns.
Proof.
  unfold shown. induction ns as [|a ns IH]; [done|]. cbn [omap list_omap]. rewrite IH. by rewrite er_shown_by.
Qed.
Lemma ways_small {V} (w : nat) (m : gmap (list nat) V) : size m <= w -> ways w m.
Proof.
  intros Hs q. exists (omap (fun kv : list nat * V => (kv.1 ++ [dollar]) !! length q) (map_to_list m)). split.
  - transitivity (length (map_to_list m)); [|exact Hs]. clear. generalize (map_to_list m). intros l. induction l as [|x l IH]; cbn; [lia|].
    destruct (_ !! _); cbn; lia.
  - intros b k [v Hk] [z Hz]. apply elem_of_list_omap. exists (k, v). split; [by apply elem_of_map_to_list|]. cbn [fst]. rewrite Hz, <- app_assoc.
    rewrite lookup_app_r by lia. by rewrite Nat.sub_diag.
Qed.
(** *** C67 on non-empty tame histories, if the stored keys go on in at most 12 ways after every prefix: DFS visits no node
    twice, and the leaves of the nodes it visits hold what the iterator yields, in this order: every stored pair once. *)
Lemma C67_partial_proof {V} `{GoZero V} (os : list (op V)) d h t rs :
  tame os d -> (N.of_nat (length os) < 2 ^ 64)%N -> build os h t rs -> ref_ops os ∅ <> ∅ -> narrow (ref_ops os ∅) ->
  exists ns, dfsNode (walk_fuel h) h (r_root t) = Ok ns /\ NoDup ns /\ iterates h (r_root t) [] (shown h ns) /\ shown h ns ≡ₚ map_to_list (ref_ops os ∅) /\
    (orderly (ref_ops os ∅) -> ascending (shown h ns)).
Proof.
  intros Ht Hl Hb Hne Hn. pose proof (build_holds os d h t rs Ht Hl Hb) as Hh. destruct (holds_dfs _ _ _ _ Hh Hne Hn) as (ns & E & Hnd & Hi).
  change (walk_fuel (er_h h)) with (walk_fuel h) in E. rewrite er_dfsNode in E. rewrite er_shown in Hi. apply (proj1 (er_iterates h _ _ _)) in Hi. exists ns. split_and!; [done..| |].
  - destruct (C12_partial_proof os d h t rs Ht Hl Hb Hne) as (l & (it & Hs & Hy) & Hp). destruct Hi as (it' & Hs' & Hy'). assert (it' = it) as -> by congruence.
    by rewrite (yields_det _ _ _ _ Hy' Hy).
  - intros Ho. eapply (C13_partial_proof os d h t rs []); eauto; constructor.
Qed.
(** *** C67 on all non-empty tame histories: DFS does not panic, visits no node twice, and the leaves of the nodes it visits
    hold stored pairs only, none twice. *)
Lemma C67_stored_partial_proof {V} `{GoZero V} (os : list (op V)) d h t rs :
  tame os d -> (N.of_nat (length os) < 2 ^ 64)%N -> build os h t rs -> ref_ops os ∅ <> ∅ ->
  exists ns, dfsNode (walk_fuel h) h (r_root t) = Ok ns /\ NoDup ns /\ NoDup (shown h ns).*1 /\
    forall k v, (k, v) ∈ shown h ns -> ref_ops os ∅ !! k = Some v.
Proof.
  intros Ht Hl Hb Hne. pose proof (build_holds os d h t rs Ht Hl Hb) as Hh. destruct (holds_dfs_any _ _ _ _ Hh Hne) as (ns & E & Hnd & H1 & H2).
  change (walk_fuel (er_h h)) with (walk_fuel h) in E. rewrite er_dfsNode in E. rewrite er_shown in H1, H2. by exists ns.
Qed.
(** *** C67 on histories of insertions of valid keys, if the stored keys go on in at most 37 ways after every prefix: DFS visits no node
    twice, and the leaves of the nodes it visits hold every stored pair once. *)
Lemma C67_inserts_partial_proof {V} `{GoZero V} (os : list (op V)) h t rs :
  Forall (fun o => is_insert o /\ valid_key (op_key o)) os -> (N.of_nat (length os) < 2 ^ 64)%N -> build os h t rs -> ref_ops os ∅ <> ∅ -> ways 37 (ref_ops os ∅) ->
  exists ns, dfsNode (walk_fuel h) h (r_root t) = Ok ns /\ NoDup ns /\ shown h ns ≡ₚ map_to_list (ref_ops os ∅).
Proof.
  intros Ho Hl Hb Hne Hw. destruct (inserts_holds os h t rs Ho Hl Hb) as [Hh Hc]. destruct (holds_dfs_ways _ _ _ _ Hh Hne Hc Hw) as (ns & E & Hnd & Hp).
  change (walk_fuel (er_h h)) with (walk_fuel h) in E. rewrite er_dfsNode in E. rewrite er_shown in Hp. by exists ns.
Qed.
(** *** C67 with 49 one-byte keys: DFS shows none of them (it reads the children of a Node256 by their position from 0 up
    to numChildren, but they stand at their bytes, tree.go:409). *)
Lemma C67_refuted_proof : exists (os : list (op nat)) h t rs ns,
  Forall (fun o => is_insert o /\ valid_key (op_key o) /\ highbytes (op_key o) /\ length (op_key o) <= 1) os /\ build os h t rs /\
  size (ref_ops os ∅) = 49 /\ dfsNode (walk_fuel h) h (r_root t) = Ok ns /\ shown h ns = [].
Proof.
  exists (singles 49). do 4 eexists. split.
  - eapply Forall_impl; [by apply singles_single; lia|].
    intros o (b & v & -> & Hb). cbn [op_key]. split; [done|]. split; [apply Forall_singleton; lia|]. split; [apply Forall_singleton; lia|done].
  - split; [apply build_intro; vc|]. split; [vc|]. split; vc.
Qed.
(** *** C67 after a Delete, with 16 stored one-byte keys: DFS misses one (the children of a Node48 have a gap). *)
Lemma C67_gap_refuted_proof : exists (os : list (op nat)) h t rs ns k,
  Forall (fun o => valid_key (op_key o) /\ highbytes (op_key o) /\ length (op_key o) <= 1) os /\ build os h t rs /\
  size (ref_ops os ∅) = 16 /\ is_Some (ref_ops os ∅ !! k) /\ dfsNode (walk_fuel h) h (r_root t) = Ok ns /\ k ∉ (shown h ns).*1.
Proof.
  exists (singles 17 ++ [ODelete [100]]). do 4 eexists. exists [132]. split.
  - apply Forall_app. split; [|apply Forall_singleton; split; [apply Forall_singleton; unfold dollar; lia|]; split; [apply Forall_singleton; unfold dollar; lia|done]].
    eapply Forall_impl; [by apply singles_single; lia|].
    intros o (b & v & -> & Hb). cbn [op_key]. split; [apply Forall_singleton; lia|]. split; [apply Forall_singleton; lia|done].
  - split; [apply build_intro; vc|]. split; [vc|]. split; [by vm_compute; eexists|]. split; [vc|]. apply (bool_decide_unpack _). by vm_compute.
Qed.
(** *** C67 on the new tree: DFS shows a pair with the empty key. *)
Lemma C67_empty_refuted_proof : exists (h : heap nat) t rs ns,
  build [] h t rs /\ dfsNode (walk_fuel h) h (r_root t) = Ok ns /\ shown h ns = [([], 0)].
Proof. do 4 eexists. split; [apply build_intro; vc|]. split; vc. Qed.

(** ** Concrete cases *)
Example ex_C67 : tame ex_read 0 /\ ref_ops ex_read ∅ <> ∅ /\ narrow (ref_ops ex_read ∅) /\ orderly (ref_ops ex_read ∅) /\
  exists h t rs ns, build ex_read h t rs /\ dfsNode (walk_fuel h) h (r_root t) = Ok ns /\
   shown h ns = [(B "", 4); (B "com", 5); (B "commonprefix", 3); (B "commonprefix-one", 6); (B "commonprefix-onetwo", 8)].
Proof.
  split; [apply tameb_start; by vm_compute|]. split; [by vm_compute|]. split; [apply narrow_small; vm_compute; lia|].
  split; [apply orderly_check, (bool_decide_unpack _); by vm_compute|]. do 4 eexists. split; [apply build_intro; vc|]. split; vc.
Qed.
(** 20 one-byte keys: a Node48 at the root *)
Example ex_C67_inserts : Forall (fun o => is_insert o /\ valid_key (op_key o)) (singles 20) /\ ways 37 (ref_ops (singles 20) ∅) /\
  exists h t rs ns, build (singles 20) h t rs /\ (n_kind <$> h_nodes h !! r_root t) = Some K48 /\ dfsNode (walk_fuel h) h (r_root t) = Ok ns /\ length (shown h ns) = 20.
Proof.
  split; [|split].
  - eapply Forall_impl; [by apply singles_single; lia|]. intros o (b & v & -> & Hb). cbn [op_key]. split; [done|]. apply Forall_singleton; lia.
  - apply ways_small. vm_compute. lia.
  - do 4 eexists. split; [apply build_intro; vc|]. split; [vc|]. split; vc.
Qed.
