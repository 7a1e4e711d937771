(** Facts about all histories, with any keys, any interleaving and any misuse: where the pairs that are read come
    from, and when channels are closed (restated in Properties_Hist.v). *)
From Verif Require Import Prims Twin PropWorld Refute.
From stdpp Require Import list.
Local Open Scope nat_scope.
Local Open Scope list_scope.

(** ** Specification *)
(** The history contains an Insert of k with value v. *)
Definition inserts {V} (cs : list (call V)) (k : bytes) (v : V) : Prop :=
  (exists i, CInsert i k v ∈ cs) \/ (exists j, CTInsert j k v ∈ cs).
(** A pair that a history may have stored: an inserted one, or the pair of an empty tree. *)
Definition known {V} `{GoZero V} (cs : list (call V)) (kv : bytes * V) : Prop := inserts cs kv.1 kv.2 \/ kv = ([], go_zero).
(** Calls that may close channels. *)
Definition notifies {V} (c : call V) : option nat := match c with CNotify j | CCommit j => Some j | _ => None end.

Section Hist.
Context {V : Type} `{GoZero V}.
Definition justified (cs : list (call V)) (h : heap V) : Prop :=
  forall k v, content h k v -> (k = [] /\ v = go_zero) \/ exists k0, k = k0 ++ [dollar] /\ inserts cs k0 v.
Definition KC (c : call V) (k : bytes) (v : V) : Prop := exists k0, k = k0 ++ [dollar] /\ inserts [c] k0 v.
Lemma inserts_mono (cs1 cs2 : list (call V)) k v : inserts cs1 k v -> (forall c, c ∈ cs1 -> c ∈ cs2) -> inserts cs2 k v.
Proof. intros [[i Hi]|[j Hj]] Hs; [left; exists i|right; exists j]; auto. Qed.
Lemma KC_insert i k v : KC (CInsert i k v) (getTreeKey k) v.
Proof. exists k. split; [done|]. left. exists i. left. Qed.
Lemma KC_tinsert j k v : KC (CTInsert j k v) (getTreeKey k) v.
Proof. exists k. split; [done|]. right. exists j. left. Qed.

(** everything but closing *)
Definition RHc (K : bytes -> V -> Prop) (h h' : heap V) : Prop :=
  forall k v, content h' k v -> content h k v \/ (k = [] /\ v = go_zero) \/ K k v.
Lemma closeAll_leaves cs (h : heap V) : h_leaves (closeAll cs h).2 = h_leaves h /\ (closeAll cs h).1 = Ok tt.
Proof.
  revert h. induction cs as [|c cs IH]; intros h; [done|]. cbn [closeAll]. unfold bind, hcloseIfOpen.
  destruct (IH (if bool_decide (c ∈ h_closed h) then h else set_closed h (c :: h_closed h))) as [E1 E2]. rewrite E1, E2. split; [|done]. by destruct (bool_decide _).
Qed.
Lemma closeAll_closed cs (h : heap V) : forall c, c ∈ h_closed (closeAll cs h).2 <-> c ∈ h_closed h \/ c ∈ cs.
Proof.
  revert h. induction cs as [|d cs IH]; intros h c.
  - cbn. split; [auto|]. intros [?|Hc]; [done|by apply elem_of_nil in Hc].
  - cbn [closeAll]. unfold bind, hcloseIfOpen. rewrite IH, elem_of_cons. destruct (bool_decide (d ∈ h_closed h)) eqn:Eb.
    + apply bool_decide_eq_true in Eb. split; [intros [?|?]; auto|]. intros [?|[->|?]]; auto.
    + cbn [h_closed set_closed]. rewrite elem_of_cons. split; [intros [[?|?]|?]; auto|]. intros [?|[?|?]]; auto.
Qed.
Lemma closeAll_nodup cs (h : heap V) : NoDup (h_closed h) -> NoDup (h_closed (closeAll cs h).2).
Proof.
  revert h. induction cs as [|d cs IH]; intros h Hn; [done|]. cbn [closeAll]. unfold bind, hcloseIfOpen. apply IH.
  destruct (bool_decide (d ∈ h_closed h)) eqn:Eb; [done|]. apply bool_decide_eq_false in Eb. by constructor.
Qed.

(** effect of one call *)
Record effect (c : call V) (w w' : world V) : Prop := mk_effect {
  ef_content : RHc (KC c) (w_h w) (w_h w');
  ef_closed : notifies c = None -> h_closed (w_h w') = h_closed (w_h w);
  ef_nodup : NoDup (h_closed (w_h w)) -> NoDup (h_closed (w_h w'));
  ef_notify : forall j x, notifies c = Some j -> w_txns w !! j = Some x -> t_track x = true ->
    (forall ch, ch ∈ h_closed (w_h w') <-> ch ∈ h_closed (w_h w) \/ ch ∈ t_chs x) /\
    exists x', w_txns w' !! j = Some x' /\ t_chs x' = [] /\ t_track x' = true;
  ef_silent : forall j x, notifies c = Some j -> w_txns w !! j = Some x -> t_track x = false -> h_closed (w_h w') = h_closed (w_h w) /\ w_txns w' !! j = Some x;
  ef_txns : forall j x', w_txns w' !! j = Some x' -> t_track x' = true -> (exists x, w_txns w !! j = Some x /\ t_track x = true) \/ c = CTrack j true;
  ef_chs : forall j x', w_txns w' !! j = Some x' -> t_chs x' <> [] -> (exists x, w_txns w !! j = Some x /\ (t_chs x <> [] \/ t_track x = true)) }.

Lemma RH_RHc K (h h' : heap V) : RH K h h' -> RHc K h h'.
Proof. intros [_ _ _ Hl]. exact Hl. Qed.
Lemma effect_heap {A} c w (m : M (heap V) A) k r w' : notifies c = None -> hp (KC c) m ->
  (forall h a h', m h = (Ok a, h') -> Forall (fun x => t_track x = false /\ t_chs x = []) (k a).1.2) -> onHeap w m k = (r, w') -> effect c w w'.
Proof.
  intros Hn Hm Hk E. unfold onHeap in E. pose proof (Hm (w_h w)) as HR. destruct (m (w_h w)) as [o h'] eqn:Em. cbn in HR.
  assert (Hw : w_h w' = h' /\ exists xs, w_txns w' = w_txns w ++ xs /\ Forall (fun x => t_track x = false /\ t_chs x = []) xs).
  { destruct o as [a| |].
    - specialize (Hk _ _ _ Em). destruct (k a) as [[ts xs] r0]. injection E as <- <-. cbn in *. eauto.
    - injection E as <- <-. cbn. split; [done|]. exists []. by rewrite app_nil_r.
    - injection E as <- <-. cbn. split; [done|]. exists []. by rewrite app_nil_r. }
  destruct Hw as (Hh & xs & Hx & HF). subst h'. rewrite Forall_forall in HF.
  assert (Hnew : forall j x', w_txns w' !! j = Some x' -> w_txns w !! j = Some x' \/ (t_track x' = false /\ t_chs x' = [])).
  { intros j x' Hj. rewrite Hx in Hj. apply lookup_app_Some in Hj as [Hj|[_ Hj]]; [by left|]. right. apply HF. by eapply elem_of_list_lookup_2. }
  split.
  - by apply RH_RHc.
  - intros _. apply HR.
  - by rewrite (rh_closed _ _ _ HR).
  - intros j x Hj. congruence.
  - intros j x Hj. congruence.
  - intros j x' Hj Ht. destruct (Hnew j x' Hj) as [Hj'|[Hf _]]; [left; eauto|congruence].
  - intros j x' Hj Ht. destruct (Hnew j x' Hj) as [Hj'|[_ Hf]]; [eauto|congruence].
Qed.
Lemma effect_txn {A} c w j x (m : M (st V) A) k r w' : notifies c = None -> pv (KC c) m -> w_txns w !! j = Some x -> onTxn w j x m k = (r, w') -> effect c w w'.
Proof.
  intros Hn Hm Hj E. unfold onTxn in E. pose proof (Hm (mkS (w_h w) x)) as HR. unfold pr in HR. destruct (m (mkS (w_h w) x)) as [o s] eqn:Em. cbn in HR.
  assert (Hw : w_h w' = s_h s /\ w_txns w' = <[j := s_t s]> (w_txns w)).
  { destruct o as [a| |]; [destruct (k a) as [ts r0]|..]; by injection E as <- <-. }
  destruct Hw as (Hh & Hx). destruct HR as [HR Ht Ho (ex & Hc & Hex)]. cbn in Ht, Ho, Hc, Hex, HR. rewrite <- Hh in HR.
  assert (Hnew : forall i x', w_txns w' !! i = Some x' -> (i = j /\ x' = s_t s) \/ w_txns w !! i = Some x').
  { intros i x' Hi. rewrite Hx in Hi. apply list_lookup_insert_Some in Hi as [(-> & <- & _)|[_ Hi]]; auto. }
  split.
  - by apply RH_RHc.
  - intros _. apply HR.
  - by rewrite (rh_closed _ _ _ HR).
  - intros i y Hi. congruence.
  - intros i y Hi. congruence.
  - intros i x' Hi Htr. destruct (Hnew i x' Hi) as [[-> ->]|Hi']; [|eauto]. left. exists x. rewrite Ht in Htr. done.
  - intros i x' Hi Htr. destruct (Hnew i x' Hi) as [[-> ->]|Hi']; [|eauto]. exists x. split; [done|]. destruct (t_track x) eqn:Etx; [by right|].
    left. intros E0. apply Htr. rewrite Hc, E0, Hex; done.
Qed.
Lemma effect_refl c w : (forall j, notifies c = Some j -> w_txns w !! j = None) -> effect c w w.
Proof.
  intros Hn. split.
  - intros k v. by left.
  - done.
  - done.
  - intros j x Hj Hx. by rewrite (Hn j Hj) in Hx.
  - intros j x Hj Hx. by rewrite (Hn j Hj) in Hx.
  - eauto.
  - eauto.
Qed.
Lemma effect_notify {A} c w j x (m : M (st V) A) k r w' : notifies c = Some j -> (forall s, (m s).2 = (notify s).2) -> w_txns w !! j = Some x -> onTxn w j x m k = (r, w') -> effect c w w'.
Proof.
  intros Hn Hm Hj E. unfold onTxn in E. pose proof (Hm (mkS (w_h w) x)) as HR. destruct (m (mkS (w_h w) x)) as [o s] eqn:Em. cbn in HR.
  assert (Hw : w_h w' = s_h s /\ w_txns w' = <[j := s_t s]> (w_txns w)).
  { destruct o as [a| |]; [destruct (k a) as [ts r0]|..]; by injection E as <- <-. }
  destruct Hw as (Hh & Hx). unfold notify, bind, getT in HR. cbn in HR. pose proof (lookup_lt_Some _ _ _ Hj) as Hlt.
  destruct (t_track x) eqn:Ht.
  - unfold slowNotify, bind, getT, liftH, putT in HR. cbn in HR. destruct (closeAll_leaves (t_chs x) (w_h w)) as [E1 E2].
    destruct (closeAll (t_chs x) (w_h w)) as [o' h'] eqn:Ec. cbn in E1, E2. subst o'. cbn in HR. subst s. cbn in Hh, Hx. subst h'.
    pose proof (closeAll_closed (t_chs x) (w_h w)) as HC. pose proof (closeAll_nodup (t_chs x) (w_h w)) as HN. rewrite Ec in HC, HN. cbn in HC, HN. split.
    + intros a v (y & l & Hy & Hk). left. exists y, l. by rewrite <- E1.
    + congruence.
    + done.
    + intros i y Hi Hy _. assert (i = j) as -> by congruence. assert (y = x) as -> by congruence. split; [done|]. exists (set_t_chs x []). rewrite Hx. rewrite list_lookup_insert by done. done.
    + intros i y Hi Hy Hf. assert (i = j) as -> by congruence. assert (y = x) as -> by congruence. congruence.
    + intros i x' Hi Htr. rewrite Hx in Hi. apply list_lookup_insert_Some in Hi as [(-> & <- & _)|[_ Hi]]; eauto.
    + intros i x' Hi Htr. rewrite Hx in Hi. apply list_lookup_insert_Some in Hi as [(-> & <- & _)|[_ Hi]]; eauto.
  - cbn in HR. subst s. cbn in Hh, Hx. rewrite list_insert_id in Hx by done. split; rewrite ?Hh.
    + intros a v. by left.
    + done.
    + done.
    + intros i y Hi Hy Hf. assert (i = j) as -> by congruence. assert (y = x) as -> by congruence. congruence.
    + intros i y Hi Hy Hf. by rewrite Hx.
    + intros i x' Hi Htr. rewrite Hx in Hi. eauto.
    + intros i x' Hi Htr. rewrite Hx in Hi. eauto.
Qed.

Lemma step_effect c (w : world V) r w' : step c w = (r, w') -> effect c w w'.
Proof.
  intros E. destruct c; cbn [step] in E;
    try (unfold withTree in E; destruct (w_trees w !! i) as [t|] eqn:Hi; [|injection E as <- <-; by apply effect_refl]);
    try (unfold withTx in E; destruct (w_txns w !! j) as [x|] eqn:Hj; [|injection E as <- <-; apply effect_refl; cbn; congruence]).
  - eapply effect_heap; [done|apply hp_newTree| |exact E]. intros; constructor.
  - eapply effect_heap; [done|apply hp_withTxn, pv_txnInsert, KC_insert| |exact E]. intros; constructor.
  - eapply effect_heap; [done|apply hp_withTxn, pv_txnDelete| |exact E]. intros; constructor.
  - eapply effect_heap; [done|apply hp_withTxn, pv_txnDeletePrefix| |exact E]. intros; constructor.
  - eapply effect_heap; [done|apply hp_cloneTree| |exact E]. intros; constructor.
  - eapply effect_heap; [done|apply hp_getWatchFrom| |exact E]. intros; constructor.
  - eapply effect_heap; [done| | |exact E]; [|intros; constructor]. apply hp_bind; [intros h; apply RH_refl|]. intros h.
    apply hp_bind; [intros h'; apply RH_refl|]. intros it. destruct (it_node it) as [[b|]|]; [|intros h'; apply RH_refl..].
    apply hp_bind; [apply hp_getMutateChN|]. intros c. apply hp_ret.
  - eapply effect_heap; [done|apply hp_newTxn| |exact E]. intros h a h'. unfold newTxn, bind. destruct (cloneN _ _ h) as [[r0| |] h1]; [|done..].
    intros [= <- <-]. by repeat constructor.
  - eapply effect_txn; [done|apply pv_txnInsert, KC_tinsert|exact Hj|exact E].
  - eapply effect_txn; [done|apply pv_txnDelete|exact Hj|exact E].
  - eapply effect_txn; [done|apply pv_txnDeletePrefix|exact Hj|exact E].
  - eapply effect_heap; [done|apply hp_getWatchFrom| |exact E]. intros; constructor.
  - injection E as <- <-. split; cbn; [by left|done..| |].
    + intros i x' Hi Ht. apply list_lookup_insert_Some in Hi as [(-> & <- & _)|[_ Hi]]; [|eauto]. cbn in Ht. subst b. by right.
    + intros i x' Hi Ht. apply list_lookup_insert_Some in Hi as [(-> & <- & _)|[_ Hi]]; [|eauto]. cbn in Ht. eauto.
  - eapply effect_notify; [done| |exact Hj|exact E]. intros s. unfold commit, notify, slowNotify, bind, getT, liftH, putT, ret. cbn. destruct (closeAll_leaves (t_chs (s_t s)) (s_h s)) as [_ E2].
    destruct (t_track (s_t s)) eqn:Ht; cbn; rewrite ?Ht; [|done]. destruct (closeAll (t_chs (s_t s)) (s_h s)) as [o h']. cbn in *. by subst o.
  - injection E as <- <-. split; cbn; [by left|done..|eauto|eauto].
  - eapply effect_notify; [done| |exact Hj|exact E]. done.
  - eapply effect_heap; [done|apply hp_cloneTxn| |exact E]. intros h a h'. unfold cloneTxn, bind. destruct (cloneN _ _ h) as [[r0| |] h1]; [|done..].
    intros [= <- <-]. by repeat constructor.
Qed.

(** ** Histories *)
Lemma exec_snoc (cs : list (call V)) c w rs w' : exec (cs ++ [c]) w = (rs, w') ->
  exists rs1 w1 r, exec cs w = (rs1, w1) /\ step c w1 = (r, w').
Proof.
  destruct (exec cs w) as [rs1 w1] eqn:E1. rewrite (exec_app _ _ _ _ _ E1). cbn. destruct (step c w1) as [r w2] eqn:E2. intros [= <- <-]. eauto 6.
Qed.
Lemma exec_justified (cs : list (call V)) rs w : exec cs w_init = (rs, w) -> justified cs (w_h w).
Proof.
  revert rs w. induction cs as [|c cs IH] using rev_ind; intros rs w E.
  - injection E as <- <-. intros k v (x & l & Hx & _). cbn in Hx. by rewrite lookup_empty in Hx.
  - apply exec_snoc in E as (rs1 & w1 & r & E1 & E2). specialize (IH _ _ E1). intros k v Hc.
    destruct (ef_content _ _ _ (step_effect _ _ _ _ E2) k v Hc) as [Hc'|[?|(k0 & -> & Hi)]]; [|by left|].
    + destruct (IH k v Hc') as [?|(k0 & -> & Hi)]; [by left|]. right. exists k0. split; [done|]. eapply inserts_mono; [exact Hi|]. intros. apply elem_of_app. by left.
    + right. exists k0. split; [done|]. eapply inserts_mono; [exact Hi|]. intros. apply elem_of_app. by right.
Qed.
Lemma exec_terminated (cs : list (call V)) rs w : exec cs w_init = (rs, w) -> terminated (w_h w).
Proof.
  intros E x l Hl. destruct (exec_justified _ _ _ E (l_key l) (l_val l)) as [[? _]|(k & ? & _)]; [by exists x, l|by left|right; eauto].
Qed.
(** a pair read off a leaf *)
Definition leafpair (h : heap V) (kv : bytes * V) : Prop := exists x l, h_leaves h !! x = Some l /\ kv = (getKey (l_key l), l_val l).
Lemma leafpair_known (cs : list (call V)) rs w kv : exec cs w_init = (rs, w) -> leafpair (w_h w) kv -> known cs kv.
Proof.
  intros E (x & l & Hl & ->). destruct (exec_justified _ _ _ E (l_key l) (l_val l)) as [[Ek Ev]|(k & Ek & Hi)]; [by exists x, l|..]; rewrite Ek.
  - right. by rewrite Ev.
  - left. rewrite getKey_snoc. done.
Qed.

(** the reads *)
Lemma nextLoop_pair (h : heap V) p : forall fuel st kv st', nextLoop fuel h p st = Ok (Some kv, st') -> leafpair h kv.
Proof.
  induction fuel as [|fuel IH]; intros st kv st' E; [done|]. cbn [nextLoop] in E. destruct st as [|[[a|la]|] st]; [done| | |done].
  - destruct (h_nodes h !! a) as [n|]; [|done]. destruct (n_leaf n) as [la|]; [|by eapply IH].
    destruct (h_leaves h !! la) as [l|] eqn:El; [|done]. destruct (hasPrefix _ p); [|by eapply IH]. injection E as <- _. by exists la, l.
  - destruct (h_leaves h !! la) as [l|] eqn:El; [|done]. destruct (_ && _); [|by eapply IH]. injection E as <- _. by exists la, l.
Qed.
Lemma iterNext_pair (h : heap V) it kv it' : iterNext h it = Ok (Some kv, it') -> leafpair h kv.
Proof. unfold iterNext. destruct (nextLoop _ _ _ _) as [[r st]| |] eqn:E; cbn; [|done..]. intros [= -> _]. by eapply nextLoop_pair. Qed.
Lemma pathNextLoop_pair (h : heap V) p : forall fuel st kv st', pathNextLoop fuel h p st = Ok (Some kv, st') -> leafpair h kv.
Proof.
  induction fuel as [|fuel IH]; intros st kv st' E; [done|]. cbn [pathNextLoop] in E. destruct st as [|[[a|la]|] st]; [done| | |done].
  - destruct (h_nodes h !! a) as [n|]; [|done]. by eapply IH.
  - destruct (h_leaves h !! la) as [l|] eqn:El; [|done]. destruct (prefixContainsMatch _ p); [|by eapply IH]. injection E as <- _. by exists la, l.
Qed.
Lemma pathNext_pair (h : heap V) it kv it' : pathNext h it = Ok (Some kv, it') -> leafpair h kv.
Proof. unfold pathNext. destruct (pathNextLoop _ _ _ _) as [[r st]| |] eqn:E; cbn; [|done..]. intros [= -> _]. by eapply pathNextLoop_pair. Qed.
Lemma lowerNextLoop_pair (h : heap V) : forall fuel st kv st', lowerNextLoop fuel h st = Ok (Some kv, st') -> leafpair h kv.
Proof.
  induction fuel as [|fuel IH]; intros st kv st' E; [done|]. cbn [lowerNextLoop] in E. destruct st as [|[[a|la]|] st]; [done| | |done].
  - destruct (h_nodes h !! a) as [n|]; [|done]. destruct (n_leaf n) as [la|]; [|by eapply IH].
    destruct (h_leaves h !! la) as [l|] eqn:El; [|done]. injection E as <- _. by exists la, l.
  - destruct (h_leaves h !! la) as [l|] eqn:El; [|done]. injection E as <- _. by exists la, l.
Qed.
Lemma lowerNext_pair (h : heap V) it kv it' : lowerNext h it = Ok (Some kv, it') -> leafpair h kv.
Proof. unfold lowerNext. destruct (lowerNextLoop _ _ _) as [[r st]| |] eqn:E; cbn; [|done..]. intros [= -> _]. by eapply lowerNextLoop_pair. Qed.
Lemma prevLoop_pair (h : heap V) p exp : forall fuel st kv st', prevLoop fuel h p exp st = Ok (Some kv, st') -> leafpair h kv.
Proof.
  induction fuel as [|fuel IH]; intros st kv st' E; [done|]. cbn [prevLoop] in E. destruct st as [|[[a|la]|] st]; [done| | |done].
  - destruct (h_nodes h !! a) as [n|]; [|done]. destruct (n_leaf n) as [la|]; cbn [obind] in E.
    + destruct (h_leaves h !! la) as [l|] eqn:El; [|done]. cbn [obind] in E. destruct (bool_decide _); [by eapply IH|].
      destruct (hasPrefix _ p); [|by eapply IH]. injection E as <- _. by exists la, l.
    + destruct (bool_decide _); by eapply IH.
  - destruct (h_leaves h !! la) as [l|] eqn:El; [|done]. destruct (bytes_leb _ _); [|by eapply IH]. injection E as <- _. by exists la, l.
Qed.
Lemma prev_pair (h : heap V) ri kv ri' : prev h ri = Ok (Some kv, ri') -> leafpair h kv.
Proof. unfold prev. destruct (prevLoop _ _ _ _ _) as [[r st]| |] eqn:E; cbn; [|done..]. intros [= -> _]. by eapply prevLoop_pair. Qed.
Lemma leafKV_pair (h : heap V) o kv : leafKV h o = Ok (Some kv) -> leafpair h kv.
Proof. unfold leafKV. destruct o as [la|]; [|done]. destruct (h_leaves h !! la) as [l|] eqn:E; [|done]. intros [= <-]. by exists la, l. Qed.
Lemma minimum_pair (h : heap V) t kv : treeMinimum h t = Ok (Some kv) -> leafpair h kv.
Proof. unfold treeMinimum. destruct (minimum _ _ _); cbn; [|done..]. apply leafKV_pair. Qed.
Lemma maximum_pair (h : heap V) t kv : treeMaximum h t = Ok (Some kv) -> leafpair h kv.
Proof. unfold treeMaximum. destruct (maximum _ _ _); cbn; [|done..]. apply leafKV_pair. Qed.
Lemma longest_pair (h : heap V) r k kv : longestPrefixFrom h r k = Ok (Some kv) -> leafpair h kv.
Proof.
  unfold longestPrefixFrom. destruct (h_nodes h !! r); [|done]. destruct (lpLoop _ _ _ _ _ _) as [[la|]| |]; cbn; [|done..].
  destruct (h_leaves h !! la) as [l|] eqn:E; [|done]. intros [= <-]. by exists la, l.
Qed.
End Hist.

(** *** C44: after every history, whatever its keys, prefix iteration below any root (of a tree, a transaction or an
    inner node) yields only keys with that prefix, for prefixes that do not end in '$'. *)
Lemma C44_proof {V} `{GoZero V} (cs : list (call V)) rs w root p it l : exec cs w_init = (rs, w) -> last p <> Some dollar ->
  seekPrefix (w_h w) (newIter root) p = Ok it ->
  (forall it' k v it'', it_path it' = p -> iterNext (w_h w) it' = Ok (Some (k, v), it'') -> p `prefix_of` k /\ it_path it'' = p) /\
  (yields (iterNext (w_h w)) it l -> Forall (fun kv => p `prefix_of` kv.1) l).
Proof. intros E. apply C15_partial_proof. by eapply exec_terminated. Qed.

(** *** C45: after every history, Get on any root returns only values that were inserted under exactly that key. *)
Lemma C45_proof {V} `{GoZero V} (cs : list (call V)) rs w root k v : exec cs w_init = (rs, w) ->
  getFrom (w_h w) root k = Ok (v, true) -> inserts cs k v.
Proof.
  intros E Hg. apply C38_proof in Hg as (a & n & la & l & _ & _ & _ & Hl & Hk & Hv).
  destruct (exec_justified _ _ _ E (k ++ [dollar]) v) as [[? _]|(k0 & Ek & Hi)]; [by exists la, l|by destruct k|].
  by apply app_inj_tail in Ek as [-> _].
Qed.

(** *** C46: after every history, every pair that any read returns (forward, path, lower bound and reverse iterators in
    any state, Minimum, Maximum, LongestPrefix) was inserted, or is the pair (nil, zero) of an empty tree. *)
Lemma C46_proof {V} `{GoZero V} (cs : list (call V)) rs w kv : exec cs w_init = (rs, w) -> let h := w_h w in
  (exists it it', iterNext h it = Ok (Some kv, it')) \/ (exists it it', pathNext h it = Ok (Some kv, it')) \/
  (exists it it', lowerNext h it = Ok (Some kv, it')) \/ (exists ri ri', prev h ri = Ok (Some kv, ri')) \/
  (exists t, treeMinimum h t = Ok (Some kv)) \/ (exists t, treeMaximum h t = Ok (Some kv)) \/
  (exists root k, longestPrefixFrom h root k = Ok (Some kv)) -> known cs kv.
Proof.
  intros E h Hr. eapply leafpair_known; [exact E|]. destruct Hr as [(it & it' & Hr)|[(it & it' & Hr)|[(it & it' & Hr)|[(it & it' & Hr)|[(t & Hr)|[(t & Hr)|(t & k & Hr)]]]]]].
  - by eapply iterNext_pair.
  - by eapply pathNext_pair.
  - by eapply lowerNext_pair.
  - by eapply prev_pair.
  - by eapply minimum_pair.
  - by eapply maximum_pair.
  - by eapply longest_pair.
Qed.

(** *** C29: while TrackMutate(true) is never called, no channel is closed. *)
Lemma C29_proof {V} `{GoZero V} (cs : list (call V)) rs w : exec cs w_init = (rs, w) -> (forall j, CTrack j true ∉ cs) -> h_closed (w_h w) = [].
Proof.
  intros E Hn. enough (h_closed (w_h w) = [] /\ forall j x, w_txns w !! j = Some x -> t_track x = false) by tauto.
  revert rs w E Hn. induction cs as [|c cs IH] using rev_ind; intros rs w E Hn.
  - injection E as <- <-. split; [done|]. by intros j x.
  - apply exec_snoc in E as (rs1 & w1 & r & E1 & E2). destruct (IH _ _ E1) as [I1 I2]. { intros j Hj. apply (Hn j). apply elem_of_app. by left. }
    pose proof (step_effect _ _ _ _ E2) as Ef. split.
    + destruct (notifies c) as [j|] eqn:Ec; [|by rewrite (ef_closed _ _ _ Ef)]. destruct (w_txns w1 !! j) as [x|] eqn:Hx.
      * destruct (ef_silent _ _ _ Ef j x Ec Hx (I2 _ _ Hx)) as [E3 _]. by rewrite E3.
      * assert (step c w1 = (Ok RUnit, w1)) as E3. { destruct c; try done; injection Ec as ->; cbn; unfold withTx; by rewrite Hx. } congruence.
    + intros j x Hx. destruct (t_track x) eqn:Et; [|done]. exfalso. destruct (ef_txns _ _ _ Ef j x Hx Et) as [(x0 & H0 & T0)| -> ].
      * specialize (I2 _ _ H0). congruence.
      * apply (Hn j). apply elem_of_app. right. left.
Qed.

(** *** C31: only Notify and Commit close channels; of a tracking transaction they close exactly the recorded
    channels and forget them, otherwise they close nothing; no channel is ever closed twice; a second Notify
    closes nothing. *)
Lemma C31_proof {V} `{GoZero V} (cs : list (call V)) rs w c r w' : exec cs w_init = (rs, w) -> step c w = (r, w') ->
  NoDup (h_closed (w_h w')) /\
  (notifies c = None -> h_closed (w_h w') = h_closed (w_h w)) /\
  forall j x, notifies c = Some j -> w_txns w !! j = Some x ->
    (forall ch, ch ∈ h_closed (w_h w') <-> ch ∈ h_closed (w_h w) \/ (t_track x = true /\ ch ∈ t_chs x)) /\
    (forall r' w'', step (CNotify j) w' = (r', w'') -> h_closed (w_h w'') = h_closed (w_h w')).
Proof.
  intros E Es. assert (HN : NoDup (h_closed (w_h w))).
  { clear -E. revert rs w E. induction cs as [|c cs IH] using rev_ind; intros rs w E; [injection E as <- <-; constructor|].
    apply exec_snoc in E as (rs1 & w1 & r & E1 & E2). eapply ef_nodup; [by eapply step_effect|by eapply IH]. }
  pose proof (step_effect _ _ _ _ Es) as Ef. split; [by eapply ef_nodup|]. split; [apply Ef|].
  intros j x Hc Hx. destruct (t_track x) eqn:Ht.
  - destruct (ef_notify _ _ _ Ef j x Hc Hx Ht) as [E1 (x' & Hx' & Hch & Ht')]. split; [intros ch; rewrite E1; tauto|].
    intros r' w'' E2. cbn in E2. unfold withTx in E2. rewrite Hx' in E2. unfold onTxn, notify, slowNotify, bind, getT, liftH, putT in E2. cbn in E2. rewrite Ht' in E2. cbn in E2. rewrite Hch in E2. cbn in E2.
    by injection E2 as <- <-.
  - destruct (ef_silent _ _ _ Ef j x Hc Hx Ht) as [E1 Hx']. rewrite E1. split; [intros ch; split; [by left|by intros [?|[? _]]]|].
    intros r' w'' E2. cbn in E2. unfold withTx in E2. rewrite Hx' in E2. unfold onTxn, notify, bind, getT in E2. cbn in E2. rewrite Ht in E2. cbn in E2. rewrite <- E1.
    by injection E2 as <- <-.
Qed.

(** ** Cases that meet the hypotheses *)
(** A history with '$' in keys, a wiped subtree and a lost key. *)
Definition exh : list (call nat) :=
  [CNew; CInsert 0 (B "a$b") 1; CInsert 1 (B "a$c") 2; CInsert 2 (B "a") 3; CDelete 2 (B "a$d"); CTxn 2; CTrack 0 true; CGetWatch 2 (B "a$b");
   CTInsert 0 (B "a$b") 5; CTInsert 0 (B "q") 6].
Example ex_hist : exists t x, let w := wrun exh in w_trees w !! 2 = Some t /\ getFrom (w_h w) (r_root t) (B "a$c") = Ok (2, true) /\
  w_txns w !! 0 = Some x /\ t_track x = true /\ length (t_chs x) = 4 /\ h_closed (w_h w) = [] /\ getFrom (w_h w) (t_root x) (B "a$b") = Ok (5, true) /\
  length (h_closed (w_h (wrun (exh ++ [CNotify 0])))) = 4 /\ length (h_closed (w_h (wrun (exh ++ [CNotify 0; CCommit 0])))) = 4.
Proof. do 2 eexists. cbv zeta. split; [vc|]. split; [vc|]. split; [vc|]. split; [vc|]. split; [vc|]. split; [vc|]. split; [vc|]. split; vc. Qed.
Example ex_hist_iter : exists t, let w := wrun exh in w_trees w !! 2 = Some t /\ iterates (w_h w) (r_root t) (B "a$") [(B "a$b", 1); (B "a$c", 2)].
Proof. eexists. cbv zeta. split; [vc|]. apply collect_iterates. vc. Qed.
