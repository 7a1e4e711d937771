(** The theorems on single-line histories, with examples (restated in Properties_Map.v). *)
From Verif Require Import Linear Refute.
From stdpp Require Import list.
Local Open Scope nat_scope.

(** *** Facts about the specification *)
Section Facts.
Context {V : Type} `{GoZero V}.
Notation kmap := (gmap (list nat) V).

Lemma shadowed_dec (m : kmap) k : shadowed m k \/ ~ shadowed m k.
Proof.
  unfold shadowed. destruct (m !! k) as [w|] eqn:Hm; [|right; intros [[? ?] _]; done].
  destruct (decide (map_Exists (fun k' (_ : V) => k' <> k /\ k `prefix_of` k') m)) as [He|Hn].
  - left. split; [eauto|]. destruct He as (k' & v' & Hm' & Hne & Hp). eauto 10.
  - right. intros (_ & k' & [v' Hm'] & Hne & Hp). apply Hn. exists k', v'. done.
Qed.
(** Any number of keys leaves room when some byte value does not occur in them (text keys, say). *)
Lemma roomy_unused (m : kmap) b : b < 256 -> b <> dollar -> (forall k, is_Some (m !! k) -> b ∉ k) -> roomy m.
Proof.
  intros Hb Hd Hk q. exists b. split; [done|]. intros k Hs [x E]. apply (Hk k Hs).
  assert (Hin : b ∈ k ++ [dollar]) by (rewrite E; rewrite !elem_of_app, elem_of_list_singleton; auto).
  rewrite elem_of_app, elem_of_list_singleton in Hin. destruct Hin; [done|congruence].
Qed.
(** Fewer than 256 keys always leave room. *)
Lemma roomy_small (m : kmap) : size m < 256 -> roomy m.
Proof.
  intros Hs q. set (next := fun k : list nat => (k ++ [dollar]) !! length q).
  set (used := omap next (map_to_list m).*1).
  assert (Hl : length used <= size m).
  { unfold used. unfold size, map_size. rewrite <- (fmap_length fst). generalize ((map_to_list m).*1). clear.
    induction l as [|k l IH]; [done|]. cbn. destruct (next k); cbn; lia. }
  assert (Hex : exists b, b ∈ seq 0 256 /\ b ∉ used).
  { destruct (decide (Exists (fun b => b ∉ used) (seq 0 256))) as [He|Hn]; [by apply Exists_exists in He|]. exfalso.
    assert (Hsub : seq 0 256 ⊆ used).
    { intros b Hb. destruct (decide (b ∈ used)) as [|Hnin]; [done|]. exfalso. apply Hn, Exists_exists. eauto. }
    assert (Hle : length (seq 0 256) <= length used).
    { apply submseteq_length, NoDup_submseteq; [apply NoDup_seq|exact Hsub]. }
    rewrite seq_length in Hle. lia. }
  destruct Hex as (b & Hb & Hnu). apply elem_of_seq in Hb. exists b. split; [lia|]. intros k [v Hk] [x E]. apply Hnu.
  unfold used. apply elem_of_list_omap. exists k. split.
  - apply elem_of_list_fmap. exists (k, v). split; [done|]. by apply elem_of_map_to_list.
  - unfold next. rewrite E, <- app_assoc. rewrite lookup_app_r by lia. by rewrite Nat.sub_diag.
Qed.
Lemma tame_inserts (os : list (op V)) : Forall (fun o => is_insert o /\ valid_key (op_key o)) os -> exists d, tame os d.
Proof.
  induction os as [|o os IH] using rev_ind; intros Ho; [exists 0; constructor|].
  apply Forall_app in Ho as [Hos Ho]. apply Forall_singleton in Ho as [Hi Hv]. destruct (IH Hos) as [d Hd].
  destruct o as [k v|k|k]; [|done..]. cbn in Hv.
  destruct (shadowed_dec (ref_ops os ∅) k); [exists (S d)|exists d]; (eapply tame_snoc; [exact Hd|]); split; auto.
Qed.
Lemma build_det (os : list (op V)) h t rs h' t' rs' : build os h t rs -> build os h' t' rs' -> h = h' /\ t = t' /\ rs = rs'.
Proof. unfold build. intros E E'. rewrite E in E'. by injection E' as -> -> ->. Qed.
Lemma build_txns_det (os : list (list (op V))) h t rs h' t' rs' : build_txns os h t rs -> build_txns os h' t' rs' -> h = h' /\ t = t' /\ rs = rs'.
Proof. unfold build_txns. intros E E'. rewrite E in E'. by injection E' as -> -> ->. Qed.
Lemma build_ok (os : list (op V)) d h t rs : tame os d -> (N.of_nat (length os) < 2 ^ 64)%N -> build os h t rs ->
  exists x, tree_ok (er_h h) t (ref_ops os ∅) x /\ x <= d /\ results_ok ∅ os rs /\ size (ref_ops os (∅ : kmap)) + x <= length os.
Proof.
  intros Ht Hl Hb. destruct (build_spec os d Ht Hl) as (h' & t' & rs' & x & Hb' & H1 & H2 & H3).
  destruct (build_det _ _ _ _ _ _ _ Hb Hb') as (-> & -> & ->). eauto.
Qed.
Lemma delete_ok {D : KeyDom} (m : kmap) h t x k v : tree_ok (er_h h) t m x -> (N.of_nat (size m + x) < 2 ^ 64)%N ->
  m !! k = Some v -> deletable m k -> (x = 0 \/ delete k m <> ∅) ->
  exists h' t', treeDelete t k h = (Ok (t', (v, true)), h') /\ tree_ok (er_h h') t' (delete k m) x.
Proof.
  intros Hok Hlt Hk Hr Hx.
  assert (Hw : wp (treeDelete t k) (fun r h' => r.2 = (v, true) /\ tree_ok (er_h h') r.1 (delete k m) x) h).
  { eapply wp_mono; [eapply hsim_wp; [apply hsim_withTxn, sim_txnDelete|]|].
    - eapply ewithTxn_wp; [exact Hok|]. intros s Hs. by eapply etxnDelete_spec.
    - intros [t' r] h' (s & [Hs Hr'] & E1 & E2). cbn [fst snd] in *. split; [done|]. rewrite E2, E1. by eapply tstate_tree. }
  apply wp_elim in Hw as ([t' r] & h' & E & E2 & Hok'). cbn [fst snd] in *. subst r. eauto.
Qed.
Lemma insert_ok {D : KeyDom} (m : kmap) h t x k v : tree_ok (er_h h) t m x -> (N.of_nat (S (size m + x)) < 2 ^ 64)%N -> kd k ->
  exists h' t' r x', treeInsert t k v h = (Ok (t', r), h') /\ tree_ok (er_h h') t' (<[k := v]> m) x' /\ ins_size m x k r x'.
Proof.
  intros Hok Hlt Hv.
  assert (Hw : wp (treeInsert t k v) (fun r h' => exists x', tree_ok (er_h h') r.1 (<[k := v]> m) x' /\ ins_size m x k r.2 x') h).
  { eapply wp_mono; [eapply hsim_wp; [apply hsim_withTxn, sim_txnInsert|]|].
    - eapply ewithTxn_wp; [exact Hok|]. intros s Hs. by eapply etxnInsert_spec.
    - intros [t' r] h' (s & (x' & Hs & Hr') & E1 & E2). cbn [fst snd] in *. exists x'. split; [|done]. rewrite E2, E1. by eapply tstate_tree. }
  apply wp_elim in Hw as ([t' r] & h' & E & x' & E2 & Hok'). eauto 10.
Qed.
End Facts.

(** *** Executable checks of the hypotheses, for the examples *)
Definition valid_keyb (k : bytes) : bool := forallb (fun b => Nat.ltb b 256 && negb (Nat.eqb b dollar)) k.
Lemma valid_keyb_ok k : valid_keyb k = true -> valid_key k.
Proof.
  intros Hf. apply Forall_forall. intros b Hb. unfold valid_keyb in Hf. rewrite forallb_forall in Hf.
  specialize (Hf b (proj1 (elem_of_list_In _ _) Hb)). apply andb_prop in Hf as [H1%Nat.ltb_lt H2].
  apply negb_true_iff, Nat.eqb_neq in H2. done.
Qed.
Section Check.
Notation kmap := (gmap (list nat) nat).
Definition shadowedb (m : kmap) (k : bytes) : bool :=
  match m !! k with
  | None => false
  | Some _ => existsb (fun kv => has_prefix kv.1 k && negb (bool_decide (kv.1 = k))) (map_to_list m)
  end.
Lemma shadowedb_ok m k : shadowedb m k = true <-> shadowed m k.
Proof.
  unfold shadowedb, shadowed. destruct (m !! k) as [w|] eqn:Hm; [|split; [done|]; intros [[? ?] _]; done].
  rewrite existsb_exists. split.
  - intros ([k' v'] & Hin & Hb). apply andb_prop in Hb as [H1 H2]. cbn in H1, H2. apply has_prefix_true in H1.
    apply negb_true_iff, bool_decide_eq_false in H2. apply elem_of_list_In, elem_of_map_to_list in Hin. split; [eauto|]. exists k'. eauto.
  - intros (_ & k' & [v' Hm'] & Hne & Hp). exists (k', v'). split; [by apply elem_of_list_In, elem_of_map_to_list|].
    apply andb_true_intro. split; [by apply has_prefix_true|]. by apply negb_true_iff, bool_decide_eq_false.
Qed.
Definition tame_opb (m : kmap) (d : nat) (o : op nat) : option nat :=
  match o with
  | OInsert k _ => if valid_keyb k then Some (if shadowedb m k then S d else d) else None
  | ODelete k =>
      match m !! k with
      | Some _ => if Nat.ltb (size m) 256 && (Nat.eqb d 0 || negb (Nat.eqb (size (delete k m)) 0)) then Some d else None
      | None => None
      end
  | ODeletePrefix _ => None
  end.
Lemma tame_opb_ok m d o d' : tame_opb m d o = Some d' -> tame_op m d o d'.
Proof.
  destruct o as [k v|k|k]; cbn; [| |done].
  - destruct (valid_keyb k) eqn:Hv; [|done]. intros [= <-]. split; [by apply valid_keyb_ok|].
    destruct (shadowedb m k) eqn:Hs; [right; split; [by apply shadowedb_ok|done]|left]. split; [|done]. intros Hsh%shadowedb_ok. congruence.
  - destruct (m !! k) as [w|]; [|done]. destruct (Nat.ltb_spec (size m) 256) as [Hlt|]; [|done]. cbn [andb].
    destruct (Nat.eqb_spec d 0) as [->|Hd]; cbn [orb].
    + intros [= <-]. split; [eauto|]. split; [by apply roomy_deletable, roomy_small|]. auto.
    + destruct (Nat.eqb_spec (size (delete k m)) 0) as [|Hne]; [done|]. intros [= <-]. split; [eauto|]. split; [by apply roomy_deletable, roomy_small|].
      split; [done|]. right. intros E. apply Hne. rewrite E. apply map_size_empty.
Qed.
Fixpoint tameb (m : kmap) (d : nat) (os : list (op nat)) : option nat :=
  match os with
  | [] => Some d
  | o :: os' => match tame_opb m d o with Some d' => tameb (ref_op o m) d' os' | None => None end
  end.
Lemma tameb_ok os0 d os d' : tame os0 d -> tameb (ref_ops os0 ∅) d os = Some d' -> tame (os0 ++ os) d'.
Proof.
  revert os0 d. induction os as [|o os IH]; intros os0 d Ht; cbn [tameb]; [intros [= <-]; by rewrite app_nil_r|].
  destruct (tame_opb _ d o) as [d1|] eqn:E; [|done]. intros E2. replace (os0 ++ o :: os) with ((os0 ++ [o]) ++ os) by by rewrite <- app_assoc.
  apply (IH _ d1); [|by rewrite ref_ops_snoc]. eapply tame_snoc; [exact Ht|]. by apply tame_opb_ok.
Qed.
Lemma tameb_start os d : tameb ∅ 0 os = Some d -> tame os d.
Proof. intros E. apply (tameb_ok [] 0 os d); [constructor|done]. Qed.
Fixpoint tame_inb (m : kmap) (d : nat) (first : bool) (os : list (op nat)) : option nat :=
  match os with
  | [] => Some d
  | o :: os' =>
      if first || negb (bool_decide (m = ∅)) || match o with OInsert _ _ => false | _ => true end then
        match tame_opb m d o with Some d' => tame_inb (ref_op o m) d' false os' | None => None end
      else None
  end.
Lemma tame_inb_ok m d0 os0 d os d' : tame_in m d0 os0 d -> tame_inb (ref_ops os0 m) d (bool_decide (os0 = [])) os = Some d' -> tame_in m d0 (os0 ++ os) d'.
Proof.
  revert os0 d. induction os as [|o os IH]; intros os0 d Ht; cbn [tame_inb]; [intros [= <-]; by rewrite app_nil_r|].
  destruct (bool_decide (os0 = []) || _ || _) eqn:Hok; [|done].
  destruct (tame_opb _ d o) as [d1|] eqn:E; [|done]. intros E2. replace (os0 ++ o :: os) with ((os0 ++ [o]) ++ os) by by rewrite <- app_assoc.
  apply (IH _ d1).
  - eapply tame_in_snoc; [exact Ht|by apply tame_opb_ok|]. intros Hne Hem k v ->.
    rewrite bool_decide_eq_false_2 in Hok by done. rewrite bool_decide_eq_true_2 in Hok by done. done.
  - rewrite ref_ops_snoc. rewrite bool_decide_eq_false_2; [done|]. by destruct os0.
Qed.
Fixpoint tame_txnsb (m : kmap) (d : nat) (oss : list (list (op nat))) : option nat :=
  match oss with
  | [] => Some d
  | os :: oss' => match tame_inb m d true os with Some d' => tame_txnsb (ref_ops os m) d' oss' | None => None end
  end.
Lemma tame_txnsb_ok oss0 d oss d' : tame_txns oss0 d -> tame_txnsb (ref_ops (concat oss0) ∅) d oss = Some d' -> tame_txns (oss0 ++ oss) d'.
Proof.
  revert oss0 d. induction oss as [|os oss IH]; intros os0 d Ht; cbn [tame_txnsb]; [intros [= <-]; by rewrite app_nil_r|].
  destruct (tame_inb _ d true os) as [d1|] eqn:E; [|done]. intros E2. replace (os0 ++ os :: oss) with ((os0 ++ [os]) ++ oss) by by rewrite <- app_assoc.
  apply (IH _ d1).
  - eapply tame_txns_snoc; [exact Ht|]. apply (tame_inb_ok _ _ [] d os); [constructor|done].
  - rewrite concat_app, ref_ops_app. cbn. by rewrite app_nil_r.
Qed.
Lemma tame_txnsb_start oss d : tame_txnsb ∅ 0 oss = Some d -> tame_txns oss d.
Proof. intros E. apply (tame_txnsb_ok [] 0 oss d); [constructor|done]. Qed.
End Check.

Local Open Scope string_scope.
(** A history with prefix keys, the empty key, splits of compressed paths longer than ten bytes, overwrites and
    deletions, none of a shadowed key. *)
Definition ex_clean : list (op nat) :=
  [I "commonprefix-one" 1; I "commonprefix-two" 2; I "commonprefix" 3; I "" 4; I "com" 5; I "commonprefix-one" 6;
   D "commonprefix"; I "x!" 7; D "commonprefix-two"; D ""; I "commonprefix-onetwo" 8; D "com"; D "x!"].
Lemma ex_clean_tame : tame ex_clean 0.
Proof. apply tameb_start. vm_compute. reflexivity. Qed.
(** With two overwrites of shadowed keys. *)
Definition ex_shadow : list (op nat) :=
  [I "a" 1; I "ab" 2; I "a" 3; I "abc" 4; I "" 5; I "" 6; D "a"; I "b" 7; D "ab"].
Lemma ex_shadow_tame : tame ex_shadow 2.
Proof. apply tameb_start. vm_compute. reflexivity. Qed.
(** Transactions of several updates; the second empties the tree. *)
Definition ex_txns : list (list (op nat)) :=
  [[I "a" 1; I "ab" 2; I "b" 3]; [D "a"; D "b"; D "ab"]; []; [I "c" 4; I "cd" 5; D "c"; I "c" 6]].
Lemma ex_txns_tame : tame_txns ex_txns 0.
Proof. apply tame_txnsb_start. vm_compute. reflexivity. Qed.

(** *** C01 on keys without '$': after any number of Inserts, no call has panicked and Get agrees with the
    finite map on every byte string. *)
Lemma C01_partial_proof {V} `{GoZero V} (os : list (op V)) :
  Forall (fun o => is_insert o /\ valid_key (op_key o)) os -> (N.of_nat (length os) < 2 ^ 64)%N ->
  exists h t rs, build os h t rs /\ forall k, is_bytes k -> treeGet h t k = Ok (ref_get (ref_ops os ∅) k).
Proof.
  intros Ho Hl. destruct (tame_inserts os Ho) as [d Hd]. destruct (build_spec os d Hd Hl) as (h & t & rs & x & Hb & H1 & H2 & H3).
  exists h, t, rs. split; [done|]. intros k. by eapply tree_ok_get.
Qed.

(** *** C02, C36, C24 on tame histories: Inserts and Deletes never panic and Get agrees with the map. *)
Lemma C02_partial_proof {V} `{GoZero V} (os : list (op V)) d : tame os d -> (N.of_nat (length os) < 2 ^ 64)%N ->
  exists h t rs, build os h t rs /\ forall k, is_bytes k -> treeGet h t k = Ok (ref_get (ref_ops os ∅) k).
Proof.
  intros Hd Hl. destruct (build_spec os d Hd Hl) as (h & t & rs & x & Hb & H1 & H2 & H3).
  exists h, t, rs. split; [done|]. intros k. by eapply tree_ok_get.
Qed.

(** *** C03 on tame histories: Delete of a stored key. *)
Lemma C03_partial_proof {V} `{GoZero V} (os : list (op V)) d h t rs k v :
  tame os d -> (N.of_nat (S (length os)) < 2 ^ 64)%N -> build os h t rs ->
  ref_ops os ∅ !! k = Some v -> deletable (ref_ops os ∅) k -> (d = 0 \/ delete k (ref_ops os ∅) <> ∅) ->
  exists h' t', treeDelete t k h = (Ok (t', (v, true)), h') /\ treeLen t' = (treeLen t - 1)%N /\ treeLen t <> 0%N /\
    treeGet h' t' k = Ok (go_zero, false) /\ forall k', is_bytes k' -> k' <> k -> treeGet h' t' k' = treeGet h t k'.
Proof.
  intros Ht Hl Hb Hk Hroom Hd. destruct (build_ok os d h t rs Ht ltac:(lia) Hb) as (x & Hok & Hx & _ & Hbd).
  destruct (delete_ok _ h t x k v Hok ltac:(lia) Hk Hroom) as (h' & t' & E & Hok'); [destruct Hd; [left; lia|by right]|].
  exists h', t'. split; [done|]. pose proof (holds_valid _ _ _ _ _ _ (proj1 Hok) Hk) as Hv.
  assert (Hkb : is_bytes k) by (eapply Forall_impl; [exact Hv|]; cbn; tauto).
  assert (Hne : size (ref_ops os (∅ : gmap (list nat) V)) <> 0) by (intros E0; apply map_size_empty_iff in E0; by rewrite E0 in Hk).
  destruct Hok as (Hh & Hsz & Hx0). pose proof Hok' as (Hh' & Hsz' & Hx0').
  unfold treeLen. rewrite Hsz, Hsz'. rewrite map_size_delete, Hk. split; [lia|]. split; [lia|]. split.
  - erewrite tree_ok_get by eauto. unfold ref_get. by rewrite lookup_delete.
  - intros k' Hk' Hnk. erewrite (tree_ok_get (delete _ _)) by eauto. erewrite (tree_ok_get (ref_ops os ∅) h) by (done || split; done).
    unfold ref_get. by rewrite lookup_delete_ne.
Qed.

(** *** C05, C03 on tame histories: every update reports the previous value; only the overwrite of a
    shadowed key may report (zero, false) instead. *)
Lemma C05_partial_proof {V} `{GoZero V} (os : list (op V)) d h t rs :
  tame os d -> (N.of_nat (length os) < 2 ^ 64)%N -> build os h t rs -> results_ok ∅ os rs.
Proof. intros Ht Hl Hb. by destruct (build_ok os d h t rs Ht Hl Hb) as (x & _ & _ & Hr & _). Qed.

(** *** C06 on tame histories: Len is between the number of keys and that number plus the number of
    overwrites of shadowed keys; so it is exact when there were none. *)
Lemma C06_partial_proof {V} `{GoZero V} (os : list (op V)) d h t rs :
  tame os d -> (N.of_nat (length os) < 2 ^ 64)%N -> build os h t rs ->
  (N.of_nat (size (ref_ops os ∅)) <= treeLen t <= N.of_nat (size (ref_ops os ∅) + d))%N.
Proof.
  intros Ht Hl Hb. destruct (build_ok os d h t rs Ht Hl Hb) as (x & (_ & Hsz & _) & Hx & _). unfold treeLen. rewrite Hsz. lia.
Qed.
(** *** C06: Len is zero exactly for the empty map, on all tame histories. *)
Lemma C06_empty_proof {V} `{GoZero V} (os : list (op V)) d h t rs :
  tame os d -> (N.of_nat (length os) < 2 ^ 64)%N -> build os h t rs -> (treeLen t = 0%N <-> ref_ops os ∅ = ∅).
Proof.
  intros Ht Hl Hb. destruct (build_ok os d h t rs Ht Hl Hb) as (x & (_ & Hsz & Hx0) & Hx & _). unfold treeLen. rewrite Hsz. split.
  - intros E. apply map_size_empty_iff. lia.
  - intros E. rewrite (Hx0 E), E, map_size_empty. done.
Qed.

(** *** C09: batches of updates, each in one committed transaction, do not panic, return what the single
    updates should return, and end with the contents that the updates have one by one. *)
Lemma C09_batches_proof {V} `{GoZero V} (oss : list (list (op V))) d : tame_txns oss d -> (N.of_nat (length (concat oss)) < 2 ^ 64)%N ->
  exists h t rs, build_txns oss h t rs /\ results_ok ∅ (concat oss) rs /\
    (N.of_nat (size (ref_ops (concat oss) ∅)) <= treeLen t <= N.of_nat (size (ref_ops (concat oss) ∅) + d))%N /\
    forall k, is_bytes k -> treeGet h t k = Ok (ref_get (ref_ops (concat oss) ∅) k).
Proof.
  intros Ht Hl. destruct (build_txns_spec oss d Ht Hl) as (h & t & rs & x & Hb & Hok & Hx & Hr & _). exists h, t, rs.
  split; [done|]. split; [done|]. split; [|intros k; by eapply tree_ok_get]. destruct Hok as (_ & Hsz & _). unfold treeLen. rewrite Hsz. lia.
Qed.

(** *** C39 for Get: trees with the same contents answer every lookup alike, whatever their histories. *)
Lemma C39_get_partial_proof {V} `{GoZero V} (os os' : list (op V)) d d' h t rs h' t' rs' :
  tame os d -> tame os' d' -> (N.of_nat (length os) < 2 ^ 64)%N -> (N.of_nat (length os') < 2 ^ 64)%N ->
  build os h t rs -> build os' h' t' rs' -> ref_ops os ∅ = ref_ops os' ∅ ->
  forall k, is_bytes k -> treeGet h t k = treeGet h' t' k.
Proof.
  intros Ht Ht' Hl Hl' Hb Hb' E k Hk. destruct (build_ok os d h t rs Ht Hl Hb) as (x & H1 & _).
  destruct (build_ok os' d' h' t' rs' Ht' Hl' Hb') as (x' & H1' & _).
  erewrite (tree_ok_get _ h) by eauto. erewrite (tree_ok_get _ h') by eauto. by rewrite E.
Qed.

(** *** Concrete cases of the theorems above *)
Example ex_C01 : Forall (fun o => is_insert o /\ valid_key (op_key o)) [I "foobar" 1; I "foo" 2; I "foo" 3; I "" 4] /\
  exists h t rs, build [I "foobar" 1; I "foo" 2; I "foo" 3; I "" 4] h t rs /\ treeGet h t (B "foo") = Ok (3, true).
Proof.
  split; [repeat constructor; vm_compute; lia|]. do 3 eexists. split; [apply build_intro; vm_compute; reflexivity|]. vm_compute. reflexivity.
Qed.
Example ex_C02 : tame ex_clean 0 /\ ref_ops ex_clean ∅ !! B "commonprefix-one" = Some 6 /\ ref_ops ex_clean ∅ !! B "com" = None /\
  exists h t rs, build ex_clean h t rs /\ treeGet h t (B "commonprefix-one") = Ok (6, true) /\ treeGet h t (B "com") = Ok (0, false).
Proof.
  split; [apply ex_clean_tame|]. split; [by vm_compute|]. split; [by vm_compute|]. do 3 eexists. split; [apply build_intro; vm_compute; reflexivity|].
  split; vm_compute; reflexivity.
Qed.
Example ex_C03 : tame ex_clean 0 /\ ref_ops ex_clean ∅ !! B "commonprefix-one" = Some 6 /\ deletable (ref_ops ex_clean ∅) (B "commonprefix-one").
Proof. split; [apply ex_clean_tame|]. split; [by vm_compute|]. apply roomy_deletable, roomy_small. vm_compute. lia. Qed.
Example ex_C05_C06 : tame ex_shadow 2 /\ exists h t rs, build ex_shadow h t rs /\ treeLen t = 4%N /\ size (ref_ops ex_shadow ∅) = 3.
Proof.
  split; [apply ex_shadow_tame|]. do 3 eexists. split; [apply build_intro; vm_compute; reflexivity|]. split; vm_compute; reflexivity.
Qed.
Example ex_C09 : tame_txns ex_txns 0 /\ ref_ops (concat ex_txns) ∅ !! B "c" = Some 6.
Proof. split; [apply ex_txns_tame|]. by vm_compute. Qed.
Example ex_C39 : tame ex_clean 0 /\ tame [I "commonprefix-onetwo" 8; I "commonprefix-one" 6] 0 /\
  ref_ops ex_clean ∅ = ref_ops [I "commonprefix-onetwo" 8; I "commonprefix-one" 6] ∅.
Proof.
  split; [apply ex_clean_tame|]. split; [apply tameb_start; by vm_compute|]. refine (bool_decide_unpack _ _). vm_compute. exact Logic.I.
Qed.
(** A root with 256 children: "a" alone on its branch can be deleted (with "aa" it could not, C36_refuted). *)
Definition ex_full : list (op nat) := ((fun b => OInsert [b] b) <$> filter (fun b => b <> dollar) (seq 0 256)) ++ [OInsert [] 7].
Lemma ex_full_keys k : is_Some (ref_ops ex_full ∅ !! k) -> length k <= 1.
Proof.
  intros Hk. assert (Hm : map_Forall (fun k (_ : nat) => length k <= 1) (ref_ops ex_full ∅)); [|destruct Hk as [v Hk]; by eapply Hm].
  apply (bool_decide_unpack _). vm_compute. reflexivity.
Qed.
Lemma ex_full_all b : b < 256 -> b = dollar \/ is_Some (ref_ops ex_full ∅ !! [b]).
Proof.
  intros Hb. assert (Hm : Forall (fun b => b = dollar \/ is_Some (ref_ops ex_full ∅ !! [b])) (seq 0 256)) by (apply (bool_decide_unpack _); vm_compute; reflexivity).
  rewrite Forall_forall in Hm. apply Hm. apply elem_of_seq. lia.
Qed.
Lemma full_deletable (m : gmap (list nat) nat) : (forall k, is_Some (m !! k) -> length k <= 1) -> (forall b, b < 256 -> b = dollar \/ is_Some (m !! [b])) ->
  is_Some (m !! []) -> ~ room_at m [] /\ deletable m [97].
Proof.
  intros Hlen Hall0 H0. split; [|split].
  - intros (b & Hb & Hno). destruct (Hall0 b Hb) as [->|Hs].
    + apply (Hno [] H0). by exists [].
    + apply (Hno [b] Hs). by exists [dollar].
  - intros q c k' [x E] Hs Hne [y E']. apply Hlen in Hs. destruct q as [|a q]; cbn in E; injection E as <- E.
    + destruct k' as [|a' [|? ?]]; cbn in *; [by injection E'|by injection E' as ->|lia].
    + destruct k' as [|a' [|? ?]]; cbn in *; [by injection E'|by injection E' as ->|lia].
  - intros q r Hq Hn Hall. destruct q as [|a q].
    + exfalso. destruct r as [|a r]; [apply Hn; apply prefix_nil|]. 
      assert (Ha : forall b, b <> 97 -> is_Some (m !! [b]) -> a = b).
      { intros b Hb Hs. destruct (Hall [b] Hs) as [x Ex]; [congruence|apply prefix_nil|]. by injection Ex. }
      assert (a = 1). { apply Ha; [done|]. by destruct (Hall0 1 ltac:(lia)). }
      assert (a = 2). { apply Ha; [done|]. by destruct (Hall0 2 ltac:(lia)). } lia.
    + destruct Hq as [x Hq]. injection Hq as <- Hq. exists 0. split; [lia|]. intros k' Hs [y Ey]. apply Hlen in Hs.
      destruct k' as [|a' [|? ?]]; cbn in *; [done| |lia]. injection Ey as -> Ey. apply Hn. exists (0 :: y). cbn. f_equal. rewrite Ey, <- !app_assoc. done.
Qed.
Lemma ex_full_tame : exists d, tame ex_full d.
Proof.
  apply tame_inserts. apply Forall_app. split; [|repeat constructor]. apply Forall_fmap, list.Forall_forall. intros b Hb. apply elem_of_list_filter in Hb as [Hn Hb].
  apply elem_of_seq in Hb. split; [exact Logic.I|]. constructor; [|constructor]. split; [lia|exact Hn].
Qed.
Example ex_C36 : ~ room_at (ref_ops ex_full ∅) [] /\ deletable (ref_ops ex_full ∅) [97] /\ ref_ops ex_full ∅ !! [97] = Some 97 /\
  delete [97] (ref_ops ex_full ∅) <> ∅ /\ exists d, tame ex_full d.
Proof.
  destruct (full_deletable (ref_ops ex_full ∅) ex_full_keys ex_full_all) as [H1 H2]; [eexists; vm_compute; reflexivity|].
  split; [exact H1|]. split; [exact H2|]. split; [vm_compute; reflexivity|]. split; [intros E; apply (f_equal (lookup [98])) in E; vm_compute in E; discriminate|]. exact ex_full_tame.
Qed.
