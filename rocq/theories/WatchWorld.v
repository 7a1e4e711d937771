(** Watches in histories of calls. *)
From Verif Require Import Observe PropWorld PropHist.
From Verif Require Export WatchOp SpecWatch.
From stdpp Require Import list.
Local Open Scope nat_scope.

Section WatchWorld.
Context {V : Type} `{GoZero V}.
Notation HM := (M (heap V)).
Notation TM := (M (st V)).

(** ** What one call does to the bookkeeping of a transaction *)
Definition new_track (c : call V) (j : nat) (b : bool) : bool :=
  match c with CTrack j' b' => if Nat.eqb j' j then b' else b | _ => b end.
Definition txn_step (c : call V) (w w' : world V) : Prop := forall j x, w_txns w !! j = Some x ->
  exists x', w_txns w' !! j = Some x' /\ t_track x' = new_track c j (t_track x) /\
    forall ch, ch ∈ h_closed (w_h w) \/ ch ∈ t_chs x -> ch ∈ h_closed (w_h w') \/ ch ∈ t_chs x'.
Definition txn_new (w w' : world V) : Prop := forall j x', w_txns w !! j = None -> w_txns w' !! j = Some x' -> t_track x' = false.
Lemma ts_refl c (w : world V) : (forall j b, c = CTrack j b -> w_txns w !! j = None) -> txn_step c w w /\ txn_new w w.
Proof.
  intros Hc. split; [|intros j x' E1 E2; congruence]. intros j x Hx. exists x. split; [done|]. split; [|auto].
  destruct c; try done. cbn. destruct (Nat.eqb_spec j0 j) as [->|]; [|done]. by rewrite (Hc j b eq_refl) in Hx.
Qed.
Lemma ts_heap {A} c w (m : HM A) k r w' : (forall j b, c <> CTrack j b) -> hp (fun _ _ => True) m ->
  (forall h a h', m h = (Ok a, h') -> Forall (fun x => t_track x = false) (k a).1.2) -> onHeap w m k = (r, w') -> txn_step c w w' /\ txn_new w w'.
Proof.
  intros Hc Hm Hk E. unfold onHeap in E. pose proof (Hm (w_h w)) as HR. destruct (m (w_h w)) as [o h'] eqn:Em. cbn in HR.
  assert (Hw : w_h w' = h' /\ exists xs, w_txns w' = w_txns w ++ xs /\ Forall (fun x => t_track x = false) xs).
  { destruct o as [a| |].
    - specialize (Hk _ _ _ Em). destruct (k a) as [[ts xs] r0]. injection E as <- <-. cbn in *. eauto.
    - injection E as <- <-. cbn. split; [done|]. exists []. by rewrite app_nil_r.
    - injection E as <- <-. cbn. split; [done|]. exists []. by rewrite app_nil_r. }
  destruct Hw as (Hh & xs & Hx & HF). rewrite Forall_forall in HF. split.
  - intros j x Hj. exists x. rewrite Hx. split; [by apply lookup_app_l_Some|]. split; [destruct c; try done; by destruct (Hc j0 b)|].
    rewrite Hh, (rh_closed _ _ _ HR). auto.
  - intros j x' Hj Hj'. rewrite Hx in Hj'. apply lookup_app_Some in Hj' as [Hj'|[_ Hj']]; [congruence|]. apply HF. by eapply elem_of_list_lookup_2.
Qed.
Lemma ts_txn {A} c w j x (m : TM A) k r w' : (forall j b, c <> CTrack j b) -> pv (fun _ _ => True) m -> w_txns w !! j = Some x -> onTxn w j x m k = (r, w') ->
  txn_step c w w' /\ txn_new w w'.
Proof.
  intros Hc Hm Hj E. unfold onTxn in E. pose proof (Hm (mkS (w_h w) x)) as HR. unfold pr in HR. destruct (m (mkS (w_h w) x)) as [o s] eqn:Em. cbn in HR.
  assert (Hw : w_h w' = s_h s /\ w_txns w' = <[j := s_t s]> (w_txns w)).
  { destruct o as [a| |]; [destruct (k a) as [ts r0]|..]; by injection E as <- <-. }
  destruct Hw as (Hh & Hx). destruct HR as [HR Ht Ho (ex & Hcs & Hex)]. cbn in Ht, Ho, Hcs, Hex, HR. rewrite <- Hh in HR. pose proof (lookup_lt_Some _ _ _ Hj) as Hlt. split.
  - intros i y Hi. assert (Hn : forall b, new_track c i b = b) by (destruct c; try done; by destruct (Hc j0 b)). rewrite Hn. destruct (decide (i = j)) as [->|Hne].
    + assert (y = x) as -> by congruence. exists (s_t s). rewrite Hx, list_lookup_insert by done. split; [done|]. split; [done|].
      intros ch. rewrite (rh_closed _ _ _ HR), Hcs, elem_of_app. naive_solver.
    + exists y. rewrite Hx, list_lookup_insert_ne by done. split; [done|]. split; [done|]. intros ch. by rewrite (rh_closed _ _ _ HR).
  - intros i y Hi Hi'. rewrite Hx in Hi'. apply lookup_lt_Some in Hi'. rewrite insert_length in Hi'. apply lookup_ge_None in Hi. lia.
Qed.
Lemma ts_notify {A} c w j x (m : TM A) k r w' : (forall j b, c <> CTrack j b) -> (forall s, (m s).2 = (notify s).2) -> w_txns w !! j = Some x -> onTxn w j x m k = (r, w') ->
  txn_step c w w' /\ txn_new w w'.
Proof.
  intros Hc Hm Hj E. unfold onTxn in E. pose proof (Hm (mkS (w_h w) x)) as HR. destruct (m (mkS (w_h w) x)) as [o s] eqn:Em. cbn in HR.
  assert (Hw : w_h w' = s_h s /\ w_txns w' = <[j := s_t s]> (w_txns w)).
  { destruct o as [a| |]; [destruct (k a) as [ts r0]|..]; by injection E as <- <-. }
  destruct Hw as (Hh & Hx). pose proof (lookup_lt_Some _ _ _ Hj) as Hlt. split.
  2:{ intros i y Hi Hi'. rewrite Hx in Hi'. apply lookup_lt_Some in Hi'. rewrite insert_length in Hi'. apply lookup_ge_None in Hi. lia. }
  assert (HN : t_track (s_t s) = t_track x /\ (forall ch, ch ∈ h_closed (w_h w) -> ch ∈ h_closed (s_h s)) /\ (forall ch, ch ∈ t_chs x -> ch ∈ h_closed (s_h s) \/ ch ∈ t_chs (s_t s))).
  { subst s. unfold notify, bind, getT. cbn. destruct (t_track x) eqn:Ht; [|cbn; auto]. unfold slowNotify, bind, getT, liftH, putT. cbn.
    pose proof (closeAll_closed (t_chs x) (w_h w)) as HC. destruct (closeAll_leaves (t_chs x) (w_h w)) as [_ E2].
    destruct (closeAll (t_chs x) (w_h w)) as [o' h']. cbn in E2, HC. subst o'. cbn. split; [done|]. split; intros ch Hch; [|left]; apply HC; auto. }
  destruct HN as (H1 & H2 & H3). intros i y Hi. assert (Hn : forall b, new_track c i b = b) by (destruct c; try done; by destruct (Hc j0 b)). rewrite Hn.
  destruct (decide (i = j)) as [->|Hne].
  - assert (y = x) as -> by congruence. exists (s_t s). rewrite Hx, list_lookup_insert by done. split; [done|]. split; [done|]. rewrite Hh. intros ch [?|?]; auto.
  - exists y. rewrite Hx, list_lookup_insert_ne by done. split; [done|]. split; [done|]. rewrite Hh. intros ch [?|?]; auto.
Qed.
Lemma step_txns c (w : world V) r w' : step c w = (r, w') -> txn_step c w w' /\ txn_new w w'.
Proof.
  intros E. destruct c; cbn [step] in E;
    try (unfold withTree in E; destruct (w_trees w !! i) as [t|] eqn:Hi; [|injection E as <- <-; by apply ts_refl]);
    try (unfold withTx in E; destruct (w_txns w !! j) as [x|] eqn:Hj; [|injection E as <- <-; apply ts_refl; congruence]).
  - eapply ts_heap; [done|apply hp_newTree| |exact E]. intros; constructor.
  - eapply ts_heap; [done|by apply hp_withTxn, pv_txnInsert| |exact E]. intros; constructor.
  - eapply ts_heap; [done|apply hp_withTxn, pv_txnDelete| |exact E]. intros; constructor.
  - eapply ts_heap; [done|apply hp_withTxn, pv_txnDeletePrefix| |exact E]. intros; constructor.
  - eapply ts_heap; [done|apply hp_cloneTree| |exact E]. intros; constructor.
  - eapply ts_heap; [done|apply hp_getWatchFrom| |exact E]. intros; constructor.
  - eapply ts_heap; [done| | |exact E]; [|intros; constructor]. apply hp_bind; [intros h; apply RH_refl|]. intros h.
    apply hp_bind; [intros h'; apply RH_refl|]. intros it. destruct (it_node it) as [[b|]|]; [|intros h'; apply RH_refl..].
    apply hp_bind; [apply hp_getMutateChN|]. intros c. apply hp_ret.
  - eapply ts_heap; [done|apply hp_newTxn| |exact E]. intros h a h'. unfold newTxn, bind. destruct (cloneN _ _ h) as [[r0| |] h1]; [|done..].
    intros [= <- <-]. by repeat constructor.
  - eapply ts_txn; [done|by apply pv_txnInsert|exact Hj|exact E].
  - eapply ts_txn; [done|apply pv_txnDelete|exact Hj|exact E].
  - eapply ts_txn; [done|apply pv_txnDeletePrefix|exact Hj|exact E].
  - eapply ts_heap; [done|apply hp_getWatchFrom| |exact E]. intros; constructor.
  - injection E as <- <-. split.
    + intros i y Hi. cbn. destruct (Nat.eqb_spec j i) as [->|Hne].
      * assert (y = x) as -> by congruence. exists (trackMutate b x). rewrite list_lookup_insert by (by eapply lookup_lt_Some). done.
      * exists y. rewrite list_lookup_insert_ne by done. done.
    + intros i y Hi Hi'. cbn in Hi'. apply lookup_lt_Some in Hi'. rewrite insert_length in Hi'. apply lookup_ge_None in Hi. lia.
  - eapply ts_notify; [done| |exact Hj|exact E]. intros s. unfold commit, notify, slowNotify, bind, getT, liftH, putT, ret. cbn. destruct (closeAll_leaves (t_chs (s_t s)) (s_h s)) as [_ E2].
    destruct (t_track (s_t s)) eqn:Ht; cbn; rewrite ?Ht; [|done]. destruct (closeAll (t_chs (s_t s)) (s_h s)) as [o h']. cbn in *. by subst o.
  - injection E as <- <-. split; [|intros i y Hi Hi'; cbn in Hi'; congruence]. intros i y Hi. exists y. done.
  - eapply ts_notify; [done| |exact Hj|exact E]. done.
  - eapply ts_heap; [done|apply hp_cloneTxn| |exact E]. intros h a h'. unfold cloneTxn, bind. destruct (cloneN _ _ h) as [[r0| |] h1]; [|done..].
    intros [= <- <-]. by repeat constructor.
Qed.
Lemma tracks_snoc (cs : list (call V)) c j : tracks (cs ++ [c]) j = new_track c j (tracks cs j).
Proof. unfold tracks. by rewrite foldl_app. Qed.
(** a transaction that tracks was told so *)
Lemma exec_tracks (cs : list (call V)) rs w : exec cs w_init = (rs, w) -> forall j x, w_txns w !! j = Some x -> t_track x = true -> tracks cs j = true.
Proof.
  revert rs w. induction cs as [|c cs IH] using rev_ind; intros rs w E j x Hj Ht; [injection E as <- <-; done|].
  apply exec_snoc in E as (rs1 & w1 & r & E1 & E2). destruct (step_txns _ _ _ _ E2) as [T1 T2]. rewrite tracks_snoc.
  destruct (w_txns w1 !! j) as [x1|] eqn:Hj1; [|by rewrite (T2 _ _ Hj1 Hj) in Ht].
  destruct (T1 _ _ Hj1) as (x' & Hx' & Htr & _). assert (x' = x) as -> by congruence. rewrite Htr in Ht.
  destruct c; cbn in *; try (by eapply IH). destruct (Nat.eqb j0 j); [done|by eapply IH].
Qed.

(** ** The channel of a leaf stays when nobody else tracks *)
Lemma Uh_onHeap la ch {A} w (m : HM A) k r w' : hu la ch m -> Uh la ch (w_h w) -> onHeap w m k = (r, w') -> Uh la ch (w_h w').
Proof.
  intros Hm Hu E. specialize (Hm _ Hu). unfold onHeap in E. destruct (m (w_h w)) as [[a| |] h']; [destruct (k a) as [[ts xs] r0]|..]; by injection E as <- <-.
Qed.
Lemma Uh_onTxn la ch {A} w j x (m : TM A) k r w' : kp (fun s => Uh la ch (s_h s)) m (mkS (w_h w) x) -> Uh la ch (w_h w) -> onTxn w j x m k = (r, w') -> Uh la ch (w_h w').
Proof.
  intros Hm Hu E. specialize (Hm Hu). unfold onTxn in E. destruct (m _) as [[a| |] s]; [destruct (k a) as [ts r0]|..]; by injection E as <- <-.
Qed.
Lemma kp_U la ch {A} (m : TM A) h x : kv (U la ch) m -> t_track x = false -> kp (fun s => Uh la ch (s_h s)) m (mkS h x).
Proof. intros Hm Ht Hu. by destruct (Hm (mkS h x) (conj Ht Hu)). Qed.
Lemma kp_notify la ch s : kp (fun s => Uh la ch (s_h s)) (notify (V:=V)) s.
Proof.
  intros Hu. unfold notify, bind, getT. cbn. destruct (t_track (s_t s)); [|done]. unfold slowNotify, bind, getT, liftH, putT. cbn.
  pose proof (hn_closeAll (t_chs (s_t s)) (s_h s)) as [E1 E2]. destruct (closeAll (t_chs (s_t s)) (s_h s)) as [[u| |] h']; cbn in *; by eapply Uh_n.
Qed.
Lemma step_Uh la ch c (w : world V) r w' : step c w = (r, w') -> (forall j x, updates c = Some j -> w_txns w !! j = Some x -> t_track x = false) ->
  Uh la ch (w_h w) -> Uh la ch (w_h w').
Proof.
  intros E Hq Hu. destruct c; cbn [step] in E;
    try (unfold withTree in E; destruct (w_trees w !! i) as [t|] eqn:Hi; [|injection E as <- <-; exact Hu]);
    try (unfold withTx in E; destruct (w_txns w !! j) as [x|] eqn:Hj; [|injection E as <- <-; exact Hu]);
    try (eapply Uh_onTxn; [apply kp_U; [|by eapply Hq]|exact Hu|exact E]; first [apply U_insert|apply U_delete|apply U_deletePrefix]);
    try (eapply Uh_onHeap; [|exact Hu|exact E]; first [apply hu_newTree|apply hu_withTxn; first [apply U_insert|apply U_delete|apply U_deletePrefix]|apply hu_cloneTree|apply hu_getWatchFrom|apply hu_newTxn|apply hu_cloneTxn]).
  - eapply Uh_onHeap; [|exact Hu|exact E]. apply hu_hn, hn_bind; [done|]. intros h. apply hn_bind; [done|]. intros it. destruct (it_node it) as [[b|]|]; [|done..].
    apply hn_bind; [apply hn_getMutateChN|]. intros; apply hn_ret.
  - by injection E as <- <-.
  - eapply Uh_onTxn; [|exact Hu|exact E]. intros Hx. unfold commit, bind, getT. cbn. destruct (t_track x) eqn:Ht; [|done].
    pose proof (kp_notify la ch (mkS (w_h w) x) Hx) as Hy. destruct (notify _) as [[u| |] s]; exact Hy.
  - by injection E as <- <-.
  - eapply Uh_onTxn; [apply kp_notify|exact Hu|exact E].
Qed.
Lemma step_watched b c (w : world V) r w' root m k ch : step c w = (r, w') -> (forall j x, updates c = Some j -> w_txns w !! j = Some x -> t_track x = false) ->
  is_bytes k -> holds b (er_h (w_h w)) root m -> same root (er_h (w_h w)) (er_h (w_h w')) -> watched (w_h w) root k ch -> watched (w_h w') root k ch.
Proof.
  intros E Hq Hk Hh Hs Hw. pose proof Hw as (la & l & Es & Hl & Hc).
  assert (Hlt : la < h_next (w_h w)).
  { destruct (watched_tree _ _ _ _ _ _ Hh Hk Hw) as (t & la' & l' & v & Hr & _ & _ & Ea & _ & Hce & _). 
    rewrite Ea in Es. destruct (found_celled _ _ _ _ (getTreeKey_bytes _ Hk) Hr Es) as (v' & Hce'). by destruct (celled_cell _ _ _ _ _ _ Hr Hce') as [? _]. }
  destruct (step_Uh la ch _ _ _ _ E Hq) as (_ & l' & Hl' & Hc'); [split; eauto|].
  exists la, l'. split; [|done]. rewrite <- er_search in Es |- *.
  destruct (le_Ok _ _ _ _ (fr_search _ _ _ Hs (search_fuel (getTreeKey k)) root (getTreeKey k) 0 ltac:(constructor)) Es) as [? _]. done.
Qed.

(** ** A new transaction sees the watched leaf *)
Lemma newTxn_watched b (h : heap V) tr m k ch x h' : holds b (er_h h) (r_root tr) m -> is_bytes k -> watched h (r_root tr) k ch -> newTxn tr h = (Ok x, h') ->
  watched h' (t_root x) k ch.
Proof.
  intros Hh Hk Hw E. destruct (watched_tree _ _ _ _ _ _ Hh Hk Hw) as (t & la & l & v & Hr0 & Hr & Hnd & Ea & Hct & Hce & Hl & Hc & Hm).
  pose proof (hsim_newTxn tr h) as Hsim. rewrite E in Hsim. cbn [fst snd omapo] in Hsim.
  unfold enewTxn, ecloneN, bind, hloadN, hallocN in Hsim. destruct t as [a pre lf kids]. cbn [aroot] in Ea. rewrite Ea in Hsim.
  pose proof (rep_inv _ _ _ _ _ _ Hr) as (n & Hn & Hlt & He & Hpl & _). rewrite Hn in Hsim. cbn in Hsim.
  pose proof (f_equal fst Hsim) as Q1. pose proof (f_equal snd Hsim) as Q2. cbn in Q1, Q2. unfold id in Q1. injection Q1 as Q1.
  set (n' := set_partial _ _) in Q2. set (s := mkS (er_h h) (mkTx 0 0%N 0 0%N 0 false [])).
  assert (HU : upd none s (alN s n')) by apply upd_alN, upd_refl.
  assert (Hn' : n' = n) by (unfold n'; rewrite clonePartial_id by done; by destruct n).
  assert (Hr' : rep (er_h h') [] (Art (h_next h) pre lf kids)).
  { replace (er_h h') with (s_h (alN s n')) by (rewrite <- Q2; done).
    eapply (rep_copy s (alN s n') none [] a pre lf kids n); [exact Hr|exact Hn|cbn; apply lookup_insert|cbn; lia| |exact HU|apply not_none]. rewrite Hn'. done. }
  assert (Hlv : h_leaves h' = h_leaves h).
  { pose proof (hn_bind (cloneN (r_root tr) true) (fun r => ret (mkTx r (r_size tr) (r_max tr) (r_size tr) (r_max tr) false [])) (hn_cloneN _ _) ltac:(intros; apply hn_ret) h) as [E1 _].
    unfold newTxn in E. rewrite E in E1. exact E1. }
  exists la, l. rewrite Hlv. split; [|done]. apply rep_uner in Hr'. rewrite Q1. cbn [t_root].
  apply (search_found _ _ (Art (h_next h) pre lf kids) la v (getTreeKey_bytes k Hk) _ [] Hr'); [|unfold search_fuel; cbn [length]; lia].
  apply celled_inv in Hce as [->|(b' & t' & Hbt & Hce)]; [constructor|by econstructor].
Qed.
(** GetWatch on a stored key hands out the channel of the leaf *)
Lemma getWatch_watched (h : heap V) root k ch v h' : getWatchFrom root k h = (Ok (ch, v, true), h') -> watched h' root k ch.
Proof.
  unfold getWatchFrom, bind, lift. intros E. destruct (search (search_fuel (getTreeKey k)) h root (getTreeKey k) 0) as [[la|a']| |] eqn:Es; [| |done..].
  2:{ destruct (getMutateChN a' h) as [[c'| |] h1]; [|done..]. by injection E. }
  unfold hloadL in E. destruct (h_leaves h !! la) as [l|] eqn:Hl; [|done].
  pose proof (getMutateChL_ok h la l Hl) as (c0 & h0 & Eg & Eh & _).
  destruct (getMutateChL_cases h la l Hl) as [(c1 & Hc1 & Eg1)|(Hc1 & Eg1)]; rewrite Eg1 in E; unfold ret in E; injection E as <- <- <-; rewrite Eg1 in Eg; injection Eg as <- <-.
  - by exists la, l.
  - exists la, (setl_ch l (Some (h_nextch h))). rewrite <- er_search, Eh, er_search. split; [done|]. cbn. by rewrite lookup_insert.
Qed.

(** ** Histories *)
Lemma exec_length (cs : list (call V)) : forall w rs w', exec cs w = (rs, w') -> length rs = length cs.
Proof.
  induction cs as [|c cs IH]; intros w rs w' E; [by injection E as <- <-|]. cbn in E. destruct (step c w) as [r w1]. destruct (exec cs w1) as [rs2 w2] eqn:E2.
  injection E as <- <-. cbn. f_equal. by eapply IH.
Qed.
Lemma covered_snoc_inv (cs : list (call V)) c g : covered cs g -> forall cs0, cs = cs0 ++ [c] -> exists g0, covered cs0 g0 /\ gstep c g0 g.
Proof.
  destruct 1 as [|cs1 g1 c1 g' Hc Hg]; intros cs0 E; [by destruct cs0|]. apply app_inj_tail in E as [-> ->]. eauto.
Qed.
Lemma covered_app_l (cs1 cs2 : list (call V)) g : covered (cs1 ++ cs2) g -> exists g1, covered cs1 g1.
Proof.
  revert g. induction cs2 as [|c cs2 IH] using rev_ind; intros g Hc; [rewrite app_nil_r in Hc; eauto|]. rewrite app_assoc in Hc.
  destruct (covered_snoc_inv _ _ _ Hc _ eq_refl) as (g0 & Hc0 & _). eauto.
Qed.

(** everything we know between two calls *)
Definition small (cs : list (call V)) : Prop := (N.of_nat (length cs) < 2 ^ 64)%N.
Lemma at_call (cs : list (call V)) c g rs w : covered (cs ++ [c]) g -> disciplined (cs ++ [c]) -> small (cs ++ [c]) -> exec (cs ++ [c]) w_init = (rs, w) ->
  exists g0 rs0 w0 r, covered cs g0 /\ gstep c g0 g /\ exec cs w_init = (rs0, w0) /\ step c w0 = (Ok r, w) /\ rs = rs0 ++ [Ok r] /\
    wok (length cs) w0 g0 /\ (N.of_nat (S (length cs)) < 2 ^ 64)%N /\ keeps_tree w0 w /\ (forall j, updates c <> Some j -> keeps_txn w0 w j).
Proof.
  intros Hc Hd Hs E. destruct (covered_snoc_inv _ _ _ Hc _ eq_refl) as (g0 & Hc0 & Hg). unfold small in Hs. rewrite app_length in Hs. cbn in Hs.
  destruct (covered_wok cs g0 Hc0 (disciplined_app_l _ _ Hd) ltac:(lia)) as (rs0 & w0 & fr & E0 & Wk & W & Hfr).
  assert (Hu : unfrozen fr [c]) by by eapply disciplined_mid.
  destruct (wok_step (length cs) c w0 g0 g fr W) as (r & w' & E' & Hr & Wk'); [intros j Hj; by apply (Hu 0 c j)|done|done|lia|].
  rewrite (exec_app _ _ _ _ _ E0) in E. cbn in E. rewrite E' in E. injection E as <- <-.
  destruct (step_good c w0 fr _ _ W (fun j Hj => Hu 0 c j eq_refl Hj) E') as (_ & K1 & K2). exists g0, rs0, w0, r. split_and!; try done. lia.
Qed.

Lemma fair_app_l j (past cs1 cs2 : list (call V)) : fair j past (cs1 ++ cs2) -> fair j past cs1.
Proof. intros Hf a c b j' E. apply (Hf a c (b ++ cs2)). by rewrite E, <- app_assoc. Qed.

(** the watch is alive on tree i until the transaction starts *)
Lemma mid_watched i k c v cs1 mid j : is_bytes k -> forall g rs w, covered (cs1 ++ CGetWatch i k :: mid) g -> disciplined (cs1 ++ CGetWatch i k :: mid) -> small (cs1 ++ CGetWatch i k :: mid) ->
  exec (cs1 ++ CGetWatch i k :: mid) w_init = (rs, w) -> rs !! length cs1 = Some (Ok (RWatch c v true)) -> length (w_txns w) <= j ->
  fair j (cs1 ++ [CGetWatch i k]) mid -> exists t, w_trees w !! i = Some t /\ watched (w_h w) (r_root t) k c.
Proof.
  intros Hk. induction mid as [|d mid IH] using rev_ind; intros g rs w Hc Hd Hs E Hr Hj Hf.
  - destruct (at_call _ _ _ _ _ Hc Hd Hs E) as (g0 & rs0 & w0 & r & Hc0 & Hg & E0 & Es & -> & Wk & Hn & K1 & K2).
    assert (length rs0 = length cs1) by (eapply exec_length; exact E0). rewrite lookup_app_r, H0, Nat.sub_diag in Hr by lia. cbn in Hr. injection Hr as ->.
    cbn [step] in Es. unfold withTree in Es. destruct (w_trees w0 !! i) as [t|] eqn:Hi; [|done]. exists t. split; [by apply K1|].
    unfold onHeap, treeGetWatch in Es. destruct (getWatchFrom (r_root t) k (w_h w0)) as [[p| |] h'] eqn:Eg; [|done..]. injection Es as E1 E2 E3 <-. cbn.
    destruct p as [[c1 v1] b1]. cbn in E1, E2, E3. subst. by eapply getWatch_watched.
  - rewrite app_comm_cons, app_assoc in Hc, Hd, Hs, E.
    destruct (at_call _ _ _ _ _ Hc Hd Hs E) as (g0 & rs0 & w0 & r & Hc0 & Hg & E0 & Es & -> & Wk & Hn & K1 & K2).
    assert (Hl0 : length rs0 = length (cs1 ++ CGetWatch i k :: mid)) by (eapply exec_length; exact E0).
    rewrite lookup_app_l in Hr by (rewrite Hl0, app_length; cbn; lia).
    assert (Htx : length (w_txns w0) <= length (w_txns w)).
    { destruct (step_txns _ _ _ _ Es) as [T1 _]. apply Nat.le_ngt. intros Hlt. destruct (lookup_lt_is_Some_2 (w_txns w0) (length (w_txns w)) Hlt) as [x Hx].
      destruct (T1 _ _ Hx) as (x' & Hx' & _). apply lookup_lt_Some in Hx'. lia. }
    destruct (IH g0 rs0 w0 Hc0) as (t & Hi & Hw); [by apply disciplined_app_l in Hd|unfold small in *; rewrite app_length in Hs; cbn in Hs; lia|done|done|lia|by eapply fair_app_l|].
    destruct (K1 i t Hi) as [Hi' Hsm]. exists t. split; [done|]. destruct Wk as [L1 L2 WT WX].
    destruct (lookup_lt_is_Some_2 (g_trees g0) i) as [[m dd] Eu]; [apply lookup_lt_Some in Hi; lia|]. destruct (WT _ _ _ Hi Eu) as (y & (Hh & _) & _).
    eapply step_watched; [exact Es| |exact Hk|exact Hh|exact Hsm|exact Hw].
    intros j' x' Hu Hx'. destruct (t_track x') eqn:Ht; [|done]. pose proof (exec_tracks _ _ _ E0 _ _ Hx' Ht) as Htr.
    assert (j' <> j) by (intros ->; apply lookup_lt_Some in Hx'; lia).
    specialize (Hf mid d [] j' eq_refl Hu H0). rewrite <- app_assoc in Hf. cbn in Hf. congruence.
Qed.

(** an update of the transaction itself *)
Lemma own_watched n (w : world V) g g' d j k c x r w' : wok n w g -> gstep d g g' -> updates d = Some j -> w_txns w !! j = Some x -> t_track x = true -> is_bytes k ->
  (N.of_nat (S n) < 2 ^ 64)%N -> watched (w_h w) (t_root x) k c -> step d w = (Ok r, w') -> exists x', w_txns w' !! j = Some x' /\
    (c ∈ t_chs x' \/ ~ changes d j k /\ watched (w_h w') (t_root x') k c).
Proof.
  intros [L1 L2 WT WX] Hg Hu Hj Ht Hk Hn Hw E. pose proof (lookup_lt_Some _ _ _ Hj) as Hlt.
  destruct (lookup_lt_is_Some_2 (g_txns g) j) as [[[m dd] f] Eu]; [lia|]. pose proof (WX _ _ _ Hj Eu) as Hx.
  assert (HO : exists o, on_txn g j o g' /\ onTxn w j x (txnOp o) (fun r => ([], r)) = (Ok r, w') /\ (op_key o <> k -> ~ changes d j k)).
  { destruct d; try done; injection Hu as ->; cbn [step] in E; unfold withTx in E; rewrite Hj in E; cbn [gstep] in Hg.
    - exists (OInsert k0 v). split; [done|]. split; [by rewrite onTxn_op in E|]. intros Hne [?|[v' ?]]; [done|]. cbn in Hne. congruence.
    - exists (ODelete k0). split; [done|]. split; [by rewrite onTxn_op in E|]. intros Hne [?|[v' ?]]; [|done]. cbn in Hne. congruence.
    - exists (ODeletePrefix k0). split; [done|]. split; [by rewrite onTxn_op in E|]. intros Hne [?|[v' ?]]; done. }
  destruct HO as (o & Ho & Eo & Hch). unfold on_txn in Ho. rewrite Eu in Ho. destruct Ho as (d' & Htm & Hf & _).
  unfold onTxn in Eo. destruct (txnOp o (mkS (w_h w) x)) as [[r1| |] s'] eqn:Eop; [|done..]. injection Eo as <- <-. cbn.
  exists (s_t s'). rewrite list_lookup_insert by done. split; [done|]. destruct (decide (op_key o = k)) as [Ek|Hne].
  - left. by eapply watch_same.
  - destruct (watch_other n (w_h w) x m dd f o d' k c r1 s') as [?|?]; auto.
Qed.

(** the watch stays with the transaction until it is recorded *)
Lemma body_watched i k c cs1 mid rs1 w1 t body : is_bytes k -> let j := length (w_txns w1) in
  exec (cs1 ++ CGetWatch i k :: mid) w_init = (rs1, w1) -> w_trees w1 !! i = Some t -> watched (w_h w1) (r_root t) k c ->
  forall g rs w, covered ((cs1 ++ CGetWatch i k :: mid) ++ CTxn i :: body) g -> disciplined ((cs1 ++ CGetWatch i k :: mid) ++ CTxn i :: body) ->
  small ((cs1 ++ CGetWatch i k :: mid) ++ CTxn i :: body) -> exec ((cs1 ++ CGetWatch i k :: mid) ++ CTxn i :: body) w_init = (rs, w) ->
  fair j (cs1 ++ [CGetWatch i k]) (mid ++ CTxn i :: body) -> (forall a d b, body = a ++ d :: b -> updates d = Some j -> tracks a j = true) ->
  exists x, w_txns w !! j = Some x /\ t_track x = tracks body j /\
    (c ∈ h_closed (w_h w) \/ c ∈ t_chs x \/ (forall d, d ∈ body -> ~ changes d j k) /\ watched (w_h w) (t_root x) k c).
Proof.
  intros Hk j E1 Hi Hw1. induction body as [|d body IH] using rev_ind; intros g rs w Hc Hd Hs E Hf Hown.
  - destruct (at_call _ _ _ _ _ Hc Hd Hs E) as (g0 & rs0 & w0 & r & Hc0 & Hg & E0 & Es & -> & Wk & Hn & K1 & K2).
    rewrite E1 in E0. injection E0 as <- <-. cbn [step] in Es. unfold withTree in Es. rewrite Hi in Es. unfold onHeap in Es.
    destruct (newTxn t (w_h w1)) as [[x| |] h'] eqn:Et; [|done..]. injection Es as _ <-. cbn. exists x. rewrite lookup_app_r, Nat.sub_diag by done.
    split; [done|]. split; [revert Et; unfold newTxn, bind; destruct (cloneN _ _ _) as [[r0| |] h1]; [|done..]; by intros [= <- <-]|].
    right. right. split; [intros d Hdd; by apply elem_of_nil in Hdd|]. destruct Wk as [L1 L2 WT WX].
    destruct (lookup_lt_is_Some_2 (g_trees g0) i) as [[m dd] Eu]; [apply lookup_lt_Some in Hi; lia|]. destruct (WT _ _ _ Hi Eu) as (y & (Hh & _) & _).
    by eapply newTxn_watched.
  - rewrite app_comm_cons, app_assoc in Hc, Hd, Hs, E.
    destruct (at_call _ _ _ _ _ Hc Hd Hs E) as (g0 & rs0 & w0 & r & Hc0 & Hg & E0 & Es & -> & Wk & Hn & K1 & K2).
    destruct (IH g0 rs0 w0 Hc0) as (x & Hx & Htr & Hcase); [by apply disciplined_app_l in Hd|unfold small in *; rewrite app_length in Hs; cbn in Hs; lia|done|..].
    { rewrite app_comm_cons, app_assoc in Hf. by eapply fair_app_l. }
    { intros a e b -> . apply (Hown a e (b ++ [d])). by rewrite <- app_assoc. }
    destruct (step_txns _ _ _ _ Es) as [T1 _]. destruct (T1 _ _ Hx) as (x' & Hx' & Htr' & Hchs). exists x'. split; [done|]. split; [by rewrite tracks_snoc, <- Htr|].
    destruct Hcase as [Hcl|[Hch|[Hno Hw]]]; [destruct (Hchs c); auto..|].
    destruct (decide (updates d = Some j)) as [Hu|Hu].
    + assert (Ht : t_track x = true) by (rewrite Htr; by apply (Hown body d [])).
      destruct (own_watched _ _ _ _ _ _ k c _ _ _ Wk Hg Hu Hx Ht Hk Hn Hw Es) as (x2 & Hx2 & HH). assert (x2 = x') as -> by congruence.
      destruct HH as [?|[Hnc Hw']]; [auto|]. right. right. split; [|done]. intros e [He|He%elem_of_list_singleton]%elem_of_app; [auto|by subst].
    + right. right. destruct (K2 j Hu x Hx) as [(x2 & Hx2 & Her) Hsm]. assert (x2 = x') as -> by congruence. split.
      * intros e [He|He%elem_of_list_singleton]%elem_of_app; [auto|]. subst e. intros [->|[v' ->]]; by apply Hu.
      * assert (Er : t_root x' = t_root x) by exact (f_equal t_root Her). rewrite Er. destruct Wk as [L1 L2 WT WX].
        destruct (lookup_lt_is_Some_2 (g_txns g0) j) as [[[m dd] f] Eu]; [apply lookup_lt_Some in Hx; lia|]. destruct (WX _ _ _ Hx Eu) as (y & (Hh & _) & _).
        eapply step_watched; [exact Es| |exact Hk|exact Hh|exact Hsm|exact Hw].
        intros j' y' Hu' Hy'. destruct (t_track y') eqn:Ht; [|done]. pose proof (exec_tracks _ _ _ E0 _ _ Hy' Ht) as Htt.
        assert (Hne : j' <> j) by congruence. specialize (Hf (mid ++ CTxn i :: body) d [] j' ltac:(by rewrite <- app_assoc) Hu' Hne).
        rewrite <- !app_assoc in Hf, Htt. cbn in Hf, Htt. congruence.
Qed.

(** A watch obtained on a stored key fires when a tracking transaction of that tree changes the key and commits. *)
Theorem watch_fires i k c v cs1 mid rs1 w1 body g rs w :
  let before := cs1 ++ CGetWatch i k :: mid in let j := length (w_txns w1) in let cs := before ++ CTxn i :: body ++ [CCommit j] in
  covered cs g -> disciplined cs -> small cs -> exec before w_init = (rs1, w1) -> rs1 !! length cs1 = Some (Ok (RWatch c v true)) ->
  fair j (cs1 ++ [CGetWatch i k]) (mid ++ CTxn i :: body) -> tracked_change j body k -> exec cs w_init = (rs, w) -> c ∈ h_closed (w_h w).
Proof.
  intros before j cs Hc Hd Hs E1 Hr Hf [Hown Hcm Hhit] E.
  assert (Hk : is_bytes k).
  { assert (cs = (cs1 ++ [CGetWatch i k]) ++ (mid ++ CTxn i :: body ++ [CCommit j])) as Q by (unfold cs, before; by rewrite <- !app_assoc). rewrite Q in Hc.
    destruct (covered_app_l _ _ _ Hc) as (g1 & Hc1). destruct (covered_snoc_inv _ _ _ Hc1 _ eq_refl) as (g0 & _ & Hg). by destruct Hg. }
  assert (Q : cs = (before ++ CTxn i :: body) ++ [CCommit j]) by (unfold cs; by rewrite <- app_assoc). rewrite Q in Hc, Hd, Hs, E.
  destruct (at_call _ _ _ _ _ Hc Hd Hs E) as (g0 & rs0 & w0 & r & Hc0 & Hg & E0 & Es & -> & Wk & Hn & K1 & K2).
  assert (Hd0 : disciplined (before ++ CTxn i :: body)) by by apply disciplined_app_l in Hd.
  assert (Hs0 : small (before ++ CTxn i :: body)) by (unfold small in *; rewrite app_length in Hs; cbn in Hs; lia).
  destruct (covered_app_l _ _ _ Hc0) as (g1 & Hc1).
  destruct (mid_watched i k c v cs1 mid j Hk g1 rs1 w1 Hc1) as (t & Hi & Hw); [by apply disciplined_app_l in Hd0|unfold small, before in *; rewrite app_length in Hs0; lia|done|done|done|by eapply fair_app_l|].
  destruct (body_watched i k c cs1 mid rs1 w1 t body Hk E1 Hi Hw g0 rs0 w0 Hc0 Hd0 Hs0 E0 Hf Hown) as (x & Hx & Htr & Hcase). fold j in Hx, Htr, Hcase. rewrite Hcm in Htr.
  cbn [step] in Es. unfold withTx in Es. rewrite Hx in Es. unfold onTxn, commit, notify, slowNotify, bind, getT, liftH, putT, ret in Es. cbn in Es.
  rewrite Htr in Es. cbn in Es. rewrite Htr in Es. cbn in Es. destruct (closeAll_leaves (t_chs x) (w_h w0)) as [_ E2]. pose proof (closeAll_closed (t_chs x) (w_h w0)) as HC.
  destruct (closeAll (t_chs x) (w_h w0)) as [o h']. cbn in E2, HC. subst o. injection Es as _ <-. cbn. apply HC.
  destruct Hcase as [?|[?|[Hno _]]]; [auto..|]. destruct Hhit as (d & Hdb & Hch). by destruct (Hno d Hdb).
Qed.
End WatchWorld.
