(** The theorems on the reads of tame histories, with examples (restated in Properties_Read.v). *)
From Verif Require Import ReadTop PropWorld PropMap Refute.
From stdpp Require Import list.
Local Open Scope nat_scope.

Section Facts.
Context {V : Type} `{GoZero V}.
Notation kmap := (gmap (list nat) V).
Lemma build_holds (os : list (op V)) d h t rs : tame os d -> (N.of_nat (length os) < 2 ^ 64)%N -> build os h t rs ->
  Top.holds false (er_h h) (r_root t) (ref_ops os ∅).
Proof. intros Ht Hl Hb. destruct (build_ok os d h t rs Ht Hl Hb) as (x & (Hh & _) & _). done. Qed.
Lemma pairs_with_all (m : kmap) l : pairs_with m [] l -> l ≡ₚ map_to_list m.
Proof.
  intros [Hnd Hl]. apply NoDup_Permutation; [by eapply NoDup_fmap_1|apply NoDup_map_to_list|].
  intros [k v]. rewrite Hl, elem_of_map_to_list. split; [tauto|]. intros; split; [done|]. apply has_prefix_true. apply prefix_nil.
Qed.
Lemma pairs_with_perm (m : kmap) p l l' : pairs_with m p l -> pairs_with m p l' -> l ≡ₚ l'.
Proof.
  intros [Hnd Hl] [Hnd' Hl']. apply NoDup_Permutation; [by eapply NoDup_fmap_1..|]. intros [k v]. by rewrite Hl, Hl'.
Qed.
Lemma klt_asym x y : klt x y -> klt y x -> False.
Proof.
  revert y. induction x as [|a x IH]; intros [|b y]; cbn; [done..|]. intros [?|[-> ?]] [?|[E ?]]; [lia..|eauto].
Qed.
Lemma sorted_unique {A} (R : A -> A -> Prop) (l l' : list A) : (forall x y, R x y -> R y x -> False) ->
  l ≡ₚ l' -> StronglySorted R l -> StronglySorted R l' -> l = l'.
Proof.
  intros HR. revert l'. induction l as [|x l IH]; intros l' Hp Hs Hs'; [by apply Permutation_nil_l in Hp|].
  destruct l' as [|y l']; [by apply Permutation_nil_r in Hp|]. apply StronglySorted_inv in Hs as [Hs Hx]. apply StronglySorted_inv in Hs' as [Hs' Hy].
  rewrite Forall_forall in Hx, Hy.
  assert (x = y) as ->.
  { assert (H1 : x ∈ y :: l') by (rewrite <- Hp; left). assert (H2 : y ∈ x :: l) by (rewrite Hp; left).
    apply elem_of_cons in H1 as [->|H1]; [done|]. apply elem_of_cons in H2 as [->|H2]; [done|]. exfalso. eapply HR; [apply Hx, H2|apply Hy, H1]. }
  f_equal. apply IH; [by apply Permutation_cons_inv in Hp|done..].
Qed.
Lemma ascending_unique (l l' : list (bytes * V)) : l ≡ₚ l' -> ascending l -> ascending l' -> l = l'.
Proof. apply sorted_unique. intros x y. apply klt_asym. Qed.
End Facts.

(** *** C12, C14, C16 on tame histories: SeekPrefix(p) and Next do not panic and yield exactly the stored pairs
    whose key starts with p, each once.  Excluded are a p that ends in '$' and full iteration of an empty tree. *)
Lemma C14_partial_proof {V} `{GoZero V} (os : list (op V)) d h t rs p :
  tame os d -> (N.of_nat (length os) < 2 ^ 64)%N -> build os h t rs ->
  is_bytes p -> last p <> Some dollar -> (ref_ops os ∅ = ∅ -> p <> []) ->
  exists l, iterates h (r_root t) p l /\ pairs_with (ref_ops os ∅) p l.
Proof.
  intros Ht Hl Hb Hp Hlast Hne. pose proof (build_holds os d h t rs Ht Hl Hb) as Hh.
  destruct (holds_iterates _ _ _ _ p Hh Hp Hlast Hne) as (l & Hi & Hpw & _). exists l. split; [by apply er_iterates|done].
Qed.
(** *** C12 on tame histories: full iteration of a non-empty tree yields the contents, in some order. *)
Lemma C12_partial_proof {V} `{GoZero V} (os : list (op V)) d h t rs :
  tame os d -> (N.of_nat (length os) < 2 ^ 64)%N -> build os h t rs -> ref_ops os ∅ <> ∅ ->
  exists l, iterates h (r_root t) [] l /\ l ≡ₚ map_to_list (ref_ops os ∅).
Proof.
  intros Ht Hl Hb Hne. destruct (C14_partial_proof os d h t rs [] Ht Hl Hb) as (l & Hi & Hp); [constructor|done|done|].
  exists l. split; [done|]. by apply pairs_with_all.
Qed.
(** *** C13 on tame histories, if no stored key goes on with a byte below '$' after another stored key:
    iteration is in ascending order. *)
Lemma C13_partial_proof {V} `{GoZero V} (os : list (op V)) d h t rs p l :
  tame os d -> (N.of_nat (length os) < 2 ^ 64)%N -> build os h t rs -> orderly (ref_ops os ∅) ->
  is_bytes p -> last p <> Some dollar -> (ref_ops os ∅ = ∅ -> p <> []) -> iterates h (r_root t) p l -> ascending l.
Proof.
  intros Ht Hl Hb Hhi Hp Hlast Hne (it & Hs & Hy). pose proof (build_holds os d h t rs Ht Hl Hb) as Hh.
  destruct (holds_iterates _ _ _ _ p Hh Hp Hlast Hne) as (l' & Hi & _ & Ha). apply (proj1 (er_iterates h _ _ _)) in Hi as (it' & Hs' & Hy').
  assert (it' = it) as -> by congruence. rewrite (yields_det _ _ _ _ Hy Hy'). by apply Ha.
Qed.
(** *** C17 on non-empty tame histories: Minimum and Maximum return stored pairs, and the extreme ones if
    no stored key goes on with a byte below '$' after another stored key. *)
Lemma C17_partial_proof {V} `{GoZero V} (os : list (op V)) d h t rs :
  tame os d -> (N.of_nat (length os) < 2 ^ 64)%N -> build os h t rs -> ref_ops os ∅ <> ∅ ->
  exists k v k' v', treeMinimum h t = Ok (Some (k, v)) /\ treeMaximum h t = Ok (Some (k', v')) /\
    ref_ops os ∅ !! k = Some v /\ ref_ops os ∅ !! k' = Some v' /\
    (orderly (ref_ops os ∅) -> least (ref_ops os ∅) k v /\ greatest (ref_ops os ∅) k' v').
Proof.
  intros Ht Hl Hb Hne. pose proof (build_holds os d h t rs Ht Hl Hb) as Hh.
  destruct (holds_minmax _ _ _ _ Hh Hne) as (k & v & k' & v' & H1 & H2 & H3). rewrite er_treeMinimum in H1. rewrite er_treeMaximum in H2.
  destruct H3 as (H3 & H4 & H5). exists k, v, k', v'. split_and!; [done..|]. intros Hm. by apply H5.
Qed.
(** *** C19 on tame histories: the path iterator yields exactly the stored pairs whose key is a prefix of p, each
    once; shortest first if no stored key goes on with a byte below '$' after another stored key. *)
Lemma C19_partial_proof {V} `{GoZero V} (os : list (op V)) d h t rs p :
  tame os d -> (N.of_nat (length os) < 2 ^ 64)%N -> build os h t rs ->
  exists l, yields (pathNext h) (newPathIter (r_root t) p) l /\ pairs_on_path (ref_ops os ∅) p l /\
    (orderly (ref_ops os ∅) -> shortest_first l).
Proof.
  intros Ht Hl Hb. pose proof (build_holds os d h t rs Ht Hl Hb) as Hh.
  destruct (holds_path _ _ _ _ p Hh) as (l & Hi & H2 & H3). exists l. split; [by apply er_pathYields|]. split; [done|].
  intros Hm. by apply H3.
Qed.
(** *** C39 on tame histories, for prefix iteration: trees with the same contents yield the same pairs, and in the
    same order if no stored key goes on with a byte below '$' after another stored key. *)
Lemma C39_iter_partial_proof {V} `{GoZero V} (os os' : list (op V)) d d' h t rs h' t' rs' p :
  tame os d -> tame os' d' -> (N.of_nat (length os) < 2 ^ 64)%N -> (N.of_nat (length os') < 2 ^ 64)%N ->
  build os h t rs -> build os' h' t' rs' -> ref_ops os ∅ = ref_ops os' ∅ ->
  is_bytes p -> last p <> Some dollar -> (ref_ops os ∅ = ∅ -> p <> []) ->
  exists l l', iterates h (r_root t) p l /\ iterates h' (r_root t') p l' /\ l ≡ₚ l' /\ (orderly (ref_ops os ∅) -> l = l').
Proof.
  intros Ht Ht' Hl Hl' Hb Hb' E Hp Hlast Hne.
  pose proof (build_holds os d h t rs Ht Hl Hb) as Hh. pose proof (build_holds os' d' h' t' rs' Ht' Hl' Hb') as Hh'. rewrite <- E in Hh'.
  destruct (holds_iterates _ _ _ _ p Hh Hp Hlast Hne) as (l & Hi & Hpw & Ha). destruct (holds_iterates _ _ _ _ p Hh' Hp Hlast Hne) as (l' & Hi' & Hpw' & Ha').
  exists l, l'. split; [by apply er_iterates|]. split; [by apply er_iterates|]. pose proof (pairs_with_perm _ _ _ _ Hpw Hpw') as Hperm. split; [done|].
  intros Hhi. apply (ascending_unique l l'); auto.
Qed.
(** *** C39 on tame histories, for the path iterator, Minimum and Maximum: trees with the same contents yield the same
    pairs on a path; if no stored key goes on with a byte below '$' after another stored key, then in the same
    order, and Minimum and Maximum agree. *)
Lemma C39_path_partial_proof {V} `{GoZero V} (os os' : list (op V)) d d' h t rs h' t' rs' p :
  tame os d -> tame os' d' -> (N.of_nat (length os) < 2 ^ 64)%N -> (N.of_nat (length os') < 2 ^ 64)%N ->
  build os h t rs -> build os' h' t' rs' -> ref_ops os ∅ = ref_ops os' ∅ ->
  exists l l', yields (pathNext h) (newPathIter (r_root t) p) l /\ yields (pathNext h') (newPathIter (r_root t') p) l' /\ l ≡ₚ l' /\
    (orderly (ref_ops os ∅) -> l = l').
Proof.
  intros Ht Ht' Hl Hl' Hb Hb' E.
  destruct (C19_partial_proof os d h t rs p Ht Hl Hb) as (l & Hy & [Hnd Hp] & Hs). destruct (C19_partial_proof os' d' h' t' rs' p Ht' Hl' Hb') as (l' & Hy' & [Hnd' Hp'] & Hs').
  exists l, l'. split; [done|]. split; [done|]. assert (Hperm : l ≡ₚ l').
  { apply NoDup_Permutation; [by eapply NoDup_fmap_1..|]. intros [k v]. by rewrite Hp, Hp', E. }
  split; [done|]. intros Ho. eapply sorted_unique; [|done|by apply Hs|apply Hs'; by rewrite <- E]. cbn. intros x y. lia.
Qed.
Lemma C39_ends_partial_proof {V} `{GoZero V} (os os' : list (op V)) d d' h t rs h' t' rs' :
  tame os d -> tame os' d' -> (N.of_nat (length os) < 2 ^ 64)%N -> (N.of_nat (length os') < 2 ^ 64)%N ->
  build os h t rs -> build os' h' t' rs' -> ref_ops os ∅ = ref_ops os' ∅ -> ref_ops os ∅ <> ∅ -> orderly (ref_ops os ∅) ->
  treeMinimum h t = treeMinimum h' t' /\ treeMaximum h t = treeMaximum h' t'.
Proof.
  intros Ht Ht' Hl Hl' Hb Hb' E Hne Ho.
  destruct (C17_partial_proof os d h t rs Ht Hl Hb Hne) as (k & v & k1 & v1 & -> & -> & _ & _ & Hm). destruct (Hm Ho) as [[H1 H2] [H3 H4]].
  destruct (C17_partial_proof os' d' h' t' rs' Ht' Hl' Hb' ltac:(by rewrite <- E)) as (k' & v' & k1' & v1' & -> & -> & _ & _ & Hm').
  rewrite <- E in Hm'. destruct (Hm' Ho) as [[H1' H2'] [H3' H4']].
  assert (k = k') as ->. { destruct (H2 k' ltac:(eauto)) as [|Hk]; [done|]. destruct (H2' k ltac:(eauto)) as [|Hk']; [done|]. by destruct (klt_asym _ _ Hk Hk'). }
  assert (k1 = k1') as ->. { destruct (H4 k1' ltac:(eauto)) as [|Hk]; [done|]. destruct (H4' k1 ltac:(eauto)) as [|Hk']; [done|]. by destruct (klt_asym _ _ Hk Hk'). }
  split; congruence.
Qed.
(** *** C39: without the condition on '$' the order of iteration and Minimum depend on the history, although the
    contents are the same; here the histories are insertions of valid keys. *)
Local Open Scope string_scope.
Lemma C39_order_refuted_proof : exists (os os' : list (op nat)) h t rs h' t' rs' l l' x x',
  Forall (fun o => is_insert o /\ valid_key (op_key o)) os /\ Forall (fun o => is_insert o /\ valid_key (op_key o)) os' /\
  build os h t rs /\ build os' h' t' rs' /\ ref_ops os ∅ = ref_ops os' ∅ /\
  iterates h (r_root t) [] l /\ iterates h' (r_root t') [] l' /\ l <> l' /\
  treeMinimum h t = Ok (Some x) /\ treeMinimum h' t' = Ok (Some x') /\ x <> x'.
Proof.
  exists [I "a" 1; I "a#" 2; I "a%" 3], [I "a#" 2; I "a%" 3; I "a" 1]. do 6 eexists. exists [(B "a", 1); (B "a#", 2); (B "a%", 3)], [(B "a#", 2); (B "a", 1); (B "a%", 3)], (B "a", 1), (B "a#", 2).
  split; [repeat constructor; vm_compute; (lia || done)|]. split; [repeat constructor; vm_compute; (lia || done)|].
  split; [apply build_intro; vm_compute; reflexivity|]. split; [apply build_intro; vm_compute; reflexivity|].
  split; [apply (bool_decide_unpack _); by vm_compute|].
  split; [eapply collect_iterates; vm_compute; reflexivity|]. split; [eapply collect_iterates; vm_compute; reflexivity|]. split; [by vm_compute|].
  split; [by vm_compute|]. split; by vm_compute.
Qed.

(** *** Concrete cases *)
Definition ex_read : list (op nat) :=
  [I "commonprefix-one" 1; I "commonprefix-two" 2; I "commonprefix" 3; I "" 4; I "com" 5; I "commonprefix-one" 6; I "x" 7;
   D "commonprefix-two"; I "commonprefix-onetwo" 8; D "x"].
Example ex_C14 : tame ex_read 0 /\ is_bytes (B "common") /\ last (B "common") <> Some dollar /\ ref_ops ex_read ∅ <> ∅ /\ highmap (ref_ops ex_read ∅) /\
  exists h t rs, build ex_read h t rs /\
   iterates h (r_root t) (B "common") [(B "commonprefix", 3); (B "commonprefix-one", 6); (B "commonprefix-onetwo", 8)] /\
   iterates h (r_root t) [] [(B "", 4); (B "com", 5); (B "commonprefix", 3); (B "commonprefix-one", 6); (B "commonprefix-onetwo", 8)] /\
   treeMaximum h t = Ok (Some (B "commonprefix-onetwo", 8)) /\
   yields (pathNext h) (newPathIter (r_root t) (B "commonprefixed")) [(B "", 4); (B "com", 5); (B "commonprefix", 3)].
Proof.
  split; [apply tameb_start; by vm_compute|]. split; [repeat constructor; vm_compute; lia|]. split; [by vm_compute|]. split; [by vm_compute|]. split.
  { assert (Hb : map_Forall (fun k _ => Forall (fun b => dollar < b) k) (ref_ops ex_read ∅)); [|intros k [v Hk]; by apply (Hb k v)].
    apply (bool_decide_unpack _). by vm_compute. }
  do 3 eexists. split; [apply build_intro; vm_compute; reflexivity|].
  split; [eapply collect_iterates; vm_compute; reflexivity|]. split; [eapply collect_iterates; vm_compute; reflexivity|]. split; [by vm_compute|].
  apply (drain_yields 5); vm_compute; reflexivity.
Qed.
Example ex_C39i : tame ex_read 0 /\ tame [I "commonprefix-onetwo" 8; I "commonprefix-one" 6; I "" 4; I "com" 5; I "commonprefix" 3] 0 /\
  ref_ops ex_read ∅ = ref_ops [I "commonprefix-onetwo" 8; I "commonprefix-one" 6; I "" 4; I "com" 5; I "commonprefix" 3] ∅.
Proof.
  split; [apply tameb_start; by vm_compute|]. split; [apply tameb_start; by vm_compute|]. refine (bool_decide_unpack _ _). vm_compute. exact Logic.I.
Qed.
(** Keys with bytes below '$', where no stored key goes on with such a byte after another stored key. *)
Lemma orderly_check {V} (m : gmap (list nat) V) :
  map_Forall (fun k _ => map_Forall (fun k' _ => k `prefix_of` k' -> Forall (fun c => dollar <= c) (take 1 (drop (length k) k'))) m) m -> orderly m.
Proof.
  intros Hm k c x [v Hk] [v' Hk']. specialize (Hm _ _ Hk _ _ Hk' ltac:(by eexists)). rewrite drop_app in Hm. cbn in Hm. by inversion Hm.
Qed.
Definition ex_low : list (op nat) :=
  [I "" 4; I "my key#2" 1; I "my key#1" 2; I "a!" 3; I "a!b" 5; I "z" 6; I "my key" 7; D "z"; D "my key"].
Example ex_low_ordered : tame ex_low 0 /\ ref_ops ex_low ∅ <> ∅ /\ orderly (ref_ops ex_low ∅) /\ ~ highmap (ref_ops ex_low ∅) /\
  exists h t rs, build ex_low h t rs /\
   iterates h (r_root t) [] [(B "", 4); (B "a!", 3); (B "a!b", 5); (B "my key#1", 2); (B "my key#2", 1)] /\
   treeMaximum h t = Ok (Some (B "my key#2", 1)) /\
   yields (pathNext h) (newPathIter (r_root t) (B "a!bc")) [(B "", 4); (B "a!", 3); (B "a!b", 5)].
Proof.
  split; [apply tameb_start; by vm_compute|]. split; [by vm_compute|]. split; [apply orderly_check, (bool_decide_unpack _); by vm_compute|]. split.
  { intros Hm. assert (Hs : is_Some (ref_ops ex_low ∅ !! B "a!")) by (eexists; vm_compute; reflexivity). specialize (Hm _ Hs). inversion Hm as [|? ? _ Hx]; subst.
    inversion Hx as [|? ? Hd _]; subst. vm_compute in Hd. lia. }
  do 3 eexists. split; [apply build_intro; vm_compute; reflexivity|].
  split; [eapply collect_iterates; vm_compute; reflexivity|]. split; [by vm_compute|].
  apply (drain_yields 5); vm_compute; reflexivity.
Qed.
