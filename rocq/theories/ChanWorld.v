(** Why a watch fires: in a covered history only a transaction that has changed the key, or has inserted or
    deleted a key related to it, closes a channel handed out for the key. *)
From Verif Require Import Observe PropWorld PropHist.
From Verif Require Export ChanRec WatchWorld.
From Verif Require Import Prims.
From stdpp Require Import list.
Local Open Scope nat_scope.

Section ChanWorld.
Context {V : Type} `{GoZero V}.
Notation HM := (M (heap V)).
Notation TM := (M (st V)).
Notation tT := (fun _ _ => True).

(** ** Programs that work on the memory only *)
Section Heap.
Variable kk : bytes.
Variable c : chan.
Notation tp := (ChanKind.tp (V:=V) kk c false).
Definition ht {A} (m : HM A) : Prop := forall s, tp (liftH m) s tT.
Lemma tp_ext {A} (m m' : TM A) s Q : m s = m' s -> tp m s Q -> tp m' s Q.
Proof. intros E Hm q Hq. rewrite <- E. by apply Hm. Qed.
Lemma ht_bind {A B} (m : HM A) (k : A -> HM B) : ht m -> (forall a, ht (k a)) -> ht (bind m k).
Proof.
  intros Hm Hk s. apply (tp_ext (bind (liftH m) (fun a => liftH (k a)))).
  - unfold liftH, bind. destruct (m (s_h s)) as [[a| |] h']; [|done..]. cbn. done.
  - eapply tp_bind; [apply Hm|]. intros a s' _ _ _. apply Hk.
Qed.
Lemma ht_ret {A} (a : A) : ht (ret a).
Proof. intros s. apply tp_id; by destruct s. Qed.
Lemma ht_id {A} (m : HM A) : (forall h, (m h).2 = h) -> ht m.
Proof. intros Hm s. apply tp_id; [|done]. unfold liftH. specialize (Hm (s_h s)). destruct (m (s_h s)) as [o h']. destruct s. cbn in *. by subst. Qed.
Lemma ht_cloneN a k : ht (cloneN a k).
Proof. intros s. eapply tp_conseq; [apply tp_cloneN|done]. Qed.
Lemma ht_getN a : ht (getMutateChN a).
Proof. intros s. eapply tp_conseq; [apply tp_getMutateChN|done]. Qed.
Lemma ht_getL a : ht (getMutateChL a).
Proof. intros s. eapply tp_conseq; [apply tp_getMutateChL|done]. Qed.
Lemma ht_newTree : ht newTree.
Proof.
  apply ht_bind. { intros s. eapply tp_conseq; [by apply tp_allocL|done]. }
  intros l. apply ht_bind. { intros s. eapply tp_conseq; [by apply tp_allocN|done]. }
  intros r. apply ht_ret.
Qed.
Lemma ht_getWatchFrom root k : ht (getWatchFrom root k).
Proof.
  unfold getWatchFrom. apply ht_bind; [by apply ht_id|]. intros h. apply ht_bind; [by apply ht_id|]. intros [la|a].
  - apply ht_bind; [apply ht_id; intros h'; unfold hloadL; by destruct (h_leaves h' !! la)|]. intros l. apply ht_bind; [apply ht_getL|]. intros. apply ht_ret.
  - apply ht_bind; [apply ht_getN|]. intros. apply ht_ret.
Qed.
Lemma ht_seekPrefixWatch it p : ht (seekPrefixWatch it p).
Proof.
  unfold seekPrefixWatch. apply ht_bind; [by apply ht_id|]. intros h. apply ht_bind; [by apply ht_id|]. intros it'.
  destruct (it_node it') as [[b|]|]; [|by apply ht_id..]. apply ht_bind; [apply ht_getN|]. intros. apply ht_ret.
Qed.
Lemma ht_withTxn {A} t (m : TM A) : pv (fun _ _ => True) m -> (forall s, tp m s tT) -> ht (withTxn t m).
Proof.
  intros Hp Hm s q [Hq Hx].
  destruct (ht_cloneN (r_root t) true s q (conj Hq Hx)) as (q1 & [I1 I1x] & S1 & N1 & _). revert I1 I1x N1. unfold liftH, withTxn, newTxn, bind.
  destruct (cloneN (r_root t) true (s_h s)) as [[r0| |] h1]; cbn; intros I1 I1x N1; [|by exists q1; split_and!..].
  set (x := mkTx r0 (r_size t) (r_max t) (r_size t) (r_max t) false []).
  assert (I2 : Inv kk c false q1 (mkS h1 x)). { split; [done|]. split; [intros d Hd; by apply elem_of_nil in Hd|done]. }
  destruct (Hm _ _ I2) as (q2 & [J1 J1x] & S2 & N2 & _). pose proof (Hp (mkS h1 x)) as HR. unfold pr in HR.
  assert (Hx' : XInv c false q2 (s_h (m (mkS h1 x)).2) (s_t s)).
  { destruct Hx as [X1 X2]. split; [|done]. intros d Hd. apply X1 in Hd. cbn in *. lia. }
  assert (S12 : ChanKind.same c (s_h s) q q2). { intros Hc. rewrite S2 by (cbn; lia). by apply S1. }
  destruct (m (mkS h1 x)) as [[a| |] s2] eqn:Em; cbn in *; [|exists q2; split_and!; (done || lia)..].
  assert (Ht : t_track (s_t s2) = false) by exact (r_track _ _ _ HR). unfold commit, bind, getT. cbn. rewrite Ht. cbn.
  exists q2. split_and!; (done || lia).
Qed.
Lemma tp_ins k v s : tp (txnInsert k v) s tT.
Proof. by apply (tp_txnInsert kk c false (getTreeKey k)). Qed.
Lemma tp_del k s : tp (txnDelete k) s tT.
Proof. by apply (tp_txnDelete kk c false (getTreeKey k)). Qed.
Lemma tp_delp k s : tp (txnDeletePrefix k) s tT.
Proof. by apply (tp_txnDeletePrefix kk c false). Qed.
End Heap.

Lemma closeAll_same cs (h : heap V) : h_nodes (closeAll cs h).2 = h_nodes h /\ h_leaves (closeAll cs h).2 = h_leaves h /\ h_next (closeAll cs h).2 = h_next h /\ h_nextch (closeAll cs h).2 = h_nextch h.
Proof.
  revert h. induction cs as [|c cs IH]; intros h; [done|]. cbn [closeAll]. unfold bind, hcloseIfOpen.
  destruct (IH (if bool_decide (c ∈ h_closed h) then h else set_closed h (c :: h_closed h))) as (E1 & E2 & E3 & E4). rewrite E1, E2, E3, E4. by destruct (bool_decide _).
Qed.

(** ** Worlds *)
Section W.
Variable k : bytes.
Variable c : chan.
Notation kk := (getTreeKey k).
(** [B j]: transaction j may have recorded c *)
Record CW (B : nat -> Prop) (q : bool) (w : world V) : Prop := mk_CW {
  cw_h : HInv kk c q (w_h w);
  cw_x : forall j x, w_txns w !! j = Some x -> (forall d, d ∈ t_chs x -> d < h_nextch (w_h w)) /\ (q = true -> c ∈ t_chs x -> B j) }.

Lemma cw_heap {A} (B B' : nat -> Prop) q w (m : HM A) f r w' : CW B q w -> (forall j, B j -> B' j) -> ht kk c m -> (forall h a h', m h = (Ok a, h') -> Forall (fun x => t_chs x = []) (f a).1.2) ->
  onHeap w m f = (r, w') -> exists q', CW B' q' w' /\ ChanKind.same c (w_h w) q q' /\ h_nextch (w_h w) <= h_nextch (w_h w').
Proof.
  intros [W1 W2] Hmo Hm Hf E. unfold onHeap in E. destruct (Hm (mkS (w_h w) (mkTx 0 0%N 0 0%N 0 false [])) q) as (q' & [I1 _] & Sm & Hn & _).
  { split; [done|]. split; [intros d Hd; by apply elem_of_nil in Hd|done]. }
  exists q'. revert I1 Sm Hn. unfold liftH. cbn. destruct (m (w_h w)) as [o h'] eqn:Em. cbn. intros I1 Sm Hn.
  assert (Hw : w_h w' = h' /\ exists xs, w_txns w' = w_txns w ++ xs /\ Forall (fun x => t_chs x = []) xs).
  { destruct o as [a| |].
    - specialize (Hf _ _ _ Em). destruct (f a) as [[ts xs] r0]. injection E as <- <-. cbn in *. eauto.
    - injection E as <- <-. cbn. split; [done|]. exists []. by rewrite app_nil_r.
    - injection E as <- <-. cbn. split; [done|]. exists []. by rewrite app_nil_r. }
  destruct Hw as (Hh & xs & Hx & HF). rewrite Forall_forall in HF. rewrite Hh. split; [|exact (conj Sm Hn)]. split; [by rewrite Hh|]. rewrite Hh.
  intros j x Hj. rewrite Hx in Hj. apply lookup_app_Some in Hj as [Hj|[_ Hj]].
  - destruct (W2 _ _ Hj) as [X1 X2]. split; [intros d Hd; apply X1 in Hd; lia|]. intros Eq Hc. apply Hmo, X2; [|done]. rewrite <- Eq. symmetry. apply Sm. by apply X1.
  - apply elem_of_list_lookup_2, HF in Hj. rewrite Hj. split; [intros d Hd|intros _ Hd]; by apply elem_of_nil in Hd.
Qed.
Lemma cw_txn {A} (B B' : nat -> Prop) q w j x (m : TM A) f r w' : CW B q w -> (forall j, B j -> B' j) -> w_txns w !! j = Some x ->
  tp kk c false m (mkS (w_h w) x) tT -> (tp kk c true m (mkS (w_h w) x) tT \/ B' j \/ t_chs (s_t (m (mkS (w_h w) x)).2) = t_chs x) ->
  onTxn w j x m f = (r, w') -> exists q', CW B' q' w' /\ ChanKind.same c (w_h w) q q' /\ h_nextch (w_h w) <= h_nextch (w_h w').
Proof.
  intros [W1 W2] Hmo Hj Hf Ht E.
  assert (HT : exists q', HInv kk c q' (s_h (m (mkS (w_h w) x)).2) /\ ChanKind.same c (w_h w) q q' /\ h_nextch (w_h w) <= h_nextch (s_h (m (mkS (w_h w) x)).2) /\
    (forall d, d ∈ t_chs (s_t (m (mkS (w_h w) x)).2) -> d < h_nextch (s_h (m (mkS (w_h w) x)).2)) /\ (q' = true -> c ∈ t_chs (s_t (m (mkS (w_h w) x)).2) -> B' j)).
  { destruct (W2 _ _ Hj) as [X1 X2].
    assert (HD : t_chs (s_t (m (mkS (w_h w) x)).2) = t_chs x \/ B' j \/ (tp kk c true m (mkS (w_h w) x) tT /\ (q = true -> c ∉ t_chs x))).
    { destruct Ht as [Ht|[|]]; [|right; by left|by left]. right. destruct (decide (q = true /\ c ∈ t_chs x)) as [[Eq Hc]|Hno]; [left; auto|]. right. split; [done|]. intros Eq Hc. by apply Hno. }
    destruct HD as [HD|[HD|[HD Hno]]].
    - destruct (Hf q) as (q' & [I1 [Y1 _]] & Sm & Hn & _); [by split|]. exists q'. split_and!; try done. rewrite HD. intros Eq Hc. apply Hmo, X2; [|done]. rewrite <- Eq. symmetry. apply Sm. by apply X1.
    - destruct (Hf q) as (q' & [I1 [Y1 _]] & Sm & Hn & _); [by split|]. exists q'. done.
    - destruct (HD q) as (q' & [I1 [Y1 Y2]] & Sm & Hn & _); [split; [done|]; by split|]. exists q'. split_and!; try done. intros Eq Hc. by destruct (Y2 eq_refl Eq). }
  destruct HT as (q' & I1 & Sm & Hn & Y1 & Y2). exists q'. unfold onTxn in E. destruct (m (mkS (w_h w) x)) as [o s] eqn:Em. cbn in *.
  assert (Hw : w_h w' = s_h s /\ w_txns w' = <[j := s_t s]> (w_txns w)).
  { destruct o as [a| |]; [destruct (f a) as [ts r0]|..]; by injection E as <- <-. }
  destruct Hw as (Hh & Hx). rewrite Hh. split; [|exact (conj Sm Hn)]. split; rewrite Hh; [done|]. intros i y Hi. rewrite Hx in Hi. destruct (decide (i = j)) as [->|Hne].
  - rewrite list_lookup_insert in Hi by (by eapply lookup_lt_Some). by injection Hi as <-.
  - rewrite list_lookup_insert_ne in Hi by done. destruct (W2 _ _ Hi) as [X1 X2]. split; [intros d Hd; apply X1 in Hd; lia|]. intros Eq Hc.
    apply Hmo, X2; [|done]. rewrite <- Eq. symmetry. apply Sm. by apply X1.
Qed.
Lemma cw_notify {A} (B B' : nat -> Prop) q w j x (m : TM A) f r w' : CW B q w -> (forall j, B j -> B' j) -> (forall s, (m s).2 = (notify s).2) -> w_txns w !! j = Some x -> onTxn w j x m f = (r, w') ->
  exists q', CW B' q' w' /\ ChanKind.same c (w_h w) q q' /\ h_nextch (w_h w) <= h_nextch (w_h w').
Proof.
  intros [W1 W2] Hmo Hm Hj E. exists q. unfold onTxn in E. pose proof (Hm (mkS (w_h w) x)) as HR. destruct (m (mkS (w_h w) x)) as [o s] eqn:Em. cbn in HR.
  assert (Hw : w_h w' = s_h s /\ w_txns w' = <[j := s_t s]> (w_txns w)).
  { destruct o as [a| |]; [destruct (f a) as [ts r0]|..]; by injection E as <- <-. }
  destruct Hw as (Hh & Hx). destruct (W2 _ _ Hj) as [X1 X2].
  assert (HN : h_nodes (s_h s) = h_nodes (w_h w) /\ h_leaves (s_h s) = h_leaves (w_h w) /\ h_next (s_h s) = h_next (w_h w) /\ h_nextch (s_h s) = h_nextch (w_h w) /\ (forall d, d ∈ t_chs (s_t s) -> d ∈ t_chs x)).
  { subst s. unfold notify, bind, getT. cbn. destruct (t_track x); [|done]. unfold slowNotify, bind, getT, liftH, putT. cbn.
    pose proof (closeAll_same (t_chs x) (w_h w)) as (C1 & C2 & C3 & C4). destruct (closeAll_leaves (t_chs x) (w_h w)) as [_ E2].
    destruct (closeAll (t_chs x) (w_h w)) as [o' h']. cbn in *. subst o'. cbn. split_and!; try done. intros d Hd. by apply elem_of_nil in Hd. }
  destruct HN as (C1 & C2 & C3 & C4 & C5). rewrite Hh, C4. split; [|done]. split.
  - rewrite Hh. destruct W1 as [H1 H2 H3 H4]. split; rewrite ?C1, ?C2, ?C3, ?C4; done.
  - rewrite Hh, C4. intros i y Hi. rewrite Hx in Hi. destruct (decide (i = j)) as [->|Hne].
    + rewrite list_lookup_insert in Hi by (by eapply lookup_lt_Some). injection Hi as <-. split; [intros d Hd; apply X1; auto|]. intros Eq Hc. apply Hmo, X2; auto.
    + rewrite list_lookup_insert_ne in Hi by done. destruct (W2 _ _ Hi) as [Y1 Y2]. split; [done|]. intros Eq Hc. apply Hmo; auto.
Qed.

(** ** An update that does not touch k *)
Lemma holds_ipre (b : bool) (h : heap V) (a : addr) (m : gmap (list nat) V) k' : valid_key k' -> k' <> k -> m <> ∅ -> Top.holds b (er_h h) a m -> is_Some (m !! k') \/ (~ k `prefix_of` k' /\ ~ k' `prefix_of` k) -> ipre kk (getTreeKey k') h a 0.
Proof.
  intros Hv Hne Hm Hh Hc. destruct (Top.holds_ne _ _ _ _ Hh Hm) as (t & Hr & Hnd & -> & Ht). exists [], t. apply rep_uner in Hr. split_and!; try done; [apply prefix_nil|].
  destruct Hc as [[v Hc]|Hc]; [right|left; unfold apart, getTreeKey; by rewrite !getKey_snoc]. destruct (leaves_celled t (getTreeKey k') v) as [la Hl]; [|eauto]. apply Ht. eauto.
Qed.
Lemma phantom_good b (h : heap V) a : phantom b (er_h h) a -> goodN kk h a.
Proof.
  intros (n & la & l & Hn & _ & _ & _ & _ & Hlf & _ & Hl & Hk & _). cbn in Hn, Hl. rewrite lookup_fmap in Hn. rewrite lookup_fmap in Hl.
  destruct (h_nodes h !! a) as [n0|] eqn:Hn0; [|done]. destruct (h_leaves h !! la) as [l0|] eqn:Hl0; [|done]. cbn in Hn, Hl. injection Hn as <-. injection Hl as <-.
  exists n0. split; [done|]. intros la' Hla'. cbn in Hlf. assert (la' = la) as -> by congruence. exists l0. split; [done|]. cbn in Hk. rewrite Hk. by destruct k.
Qed.
Lemma quiet_insert (n : nat) (h : heap V) (x : txn) (m : Spec.kmap V) (d : nat) (f : bool) (k' : bytes) (v : V) : valid_key k -> valid_key k' -> xok n (er_h h) x (m, d, f) -> k' <> k -> is_Some (m !! k') \/ (~ k `prefix_of` k' /\ ~ k' `prefix_of` k) ->
  tp kk c true (txnInsert k' v) (mkS h x) tT.
Proof.
  intros Hv Hv' (y & (Hh & _ & Hs & He) & _) Hne Hc. cbn in Hh, Hs, He. apply (tp_txnInsert kk c true (getTreeKey k')); [|done|].
  { intros _. split; [by exists k'|]. split; [by exists k|]. intros E. by apply app_inj_tail in E as [? _]. }
  intros _. unfold ientry. cbn. rewrite Hs. destruct (decide (m = ∅)) as [->|Hm].
  - rewrite (He eq_refl), map_size_empty. cbn. destruct Hh as [_ Hp|t Hr _ _ Ht]; [by eapply phantom_good|]. by destruct (contents_ne _ _ _ _ Hr Ht).
  - assert (size m <> 0) by by rewrite map_size_empty_iff. destruct (N.eqb_spec (N.of_nat (size m + y)) 0); [lia|]. by eapply holds_ipre.
Qed.
Lemma quiet_delete (n : nat) (h : heap V) (x : txn) (m : Spec.kmap V) (d : nat) (f : bool) (k' : bytes) : valid_key k -> xok n (er_h h) x (m, d, f) -> is_Some (m !! k') -> ~ k `prefix_of` k' ->
  tp kk c true (txnDelete k') (mkS h x) tT.
Proof.
  intros Hv (y & (Hh & _) & _) [v Hm] Hc. cbn in Hh. pose proof (Top.holds_valid _ _ _ _ _ _ Hh Hm) as Hv'. apply (tp_txnDelete kk c true (getTreeKey k')); [|done|].
  { intros _. split; [by exists k'|]. split; [by exists k|]. intros E. apply app_inj_tail in E as [-> _]. by apply Hc. }
  intros _. split; [unfold getTreeKey; by rewrite !getKey_snoc|]. destruct (Top.holds_ne _ _ _ _ Hh) as (t & Hr & Hnd & Ea & Ht); [by intros ->|]. apply rep_uner in Hr.
  destruct (leaves_celled t (getTreeKey k') v) as [la Hl]; [apply Ht; eauto|]. exists [], t, la, v. done.
Qed.

(** ** One call *)
Lemma culprit_mono (cs : list (call V)) (cl : call V) j : culprit cs j k -> culprit (cs ++ [cl]) j k.
Proof. intros (a & u & b & g & m & d & f & -> & Hr). exists a, u, (b ++ [cl]), g, m, d, f. split; [by rewrite <- app_assoc|done]. Qed.
(** what is asked of an update *)
Definition quiet (B : nat -> Prop) {A} (w : world V) (j : nat) (m : TM A) : Prop := forall x, w_txns w !! j = Some x ->
  tp kk c true m (mkS (w_h w) x) tT \/ B j \/ t_chs (s_t (m (mkS (w_h w) x)).2) = t_chs x.
Definition quiet_call (B : nat -> Prop) (cl : call V) (w : world V) : Prop :=
  match cl with
  | CTInsert j k' v => quiet B w j (txnInsert k' v)
  | CTDelete j k' => quiet B w j (txnDelete k')
  | CTDeletePrefix j k' => quiet B w j (txnDeletePrefix k')
  | _ => True
  end.
Lemma cw_call (B B' : nat -> Prop) cl q w r w' : CW B q w -> (forall j, B j -> B' j) -> quiet_call B' cl w -> step cl w = (r, w') ->
  exists q', CW B' q' w' /\ ChanKind.same c (w_h w) q q' /\ h_nextch (w_h w) <= h_nextch (w_h w').
Proof.
  intros Hw Hmo Hqt E.
  assert (Hid : forall ts, w' = mkW (w_h w) ts (w_txns w) -> exists q', CW B' q' w' /\ ChanKind.same c (w_h w) q q' /\ h_nextch (w_h w) <= h_nextch (w_h w')).
  { intros ts ->. exists q. split; [|done]. destruct Hw as [W1 W2]. split; [done|]. intros j x Hj. destruct (W2 _ _ Hj) as [X1 X2]. split; [done|]. intros; apply Hmo; auto. }
  destruct cl; cbn [step] in E;
    try (unfold withTree in E; destruct (w_trees w !! i) as [t|] eqn:Hi; [|injection E as <- <-; destruct w; by eapply Hid]);
    try (unfold withTx in E; destruct (w_txns w !! j) as [x|] eqn:Hj; [|injection E as <- <-; destruct w; by eapply Hid]).
  - eapply cw_heap; [exact Hw|done|apply ht_newTree| |exact E]. intros; constructor.
  - eapply cw_heap; [exact Hw|done|apply ht_withTxn; [by apply pv_txnInsert|intros; apply tp_ins]| |exact E]. intros; constructor.
  - eapply cw_heap; [exact Hw|done|apply ht_withTxn; [by apply pv_txnDelete|intros; apply tp_del]| |exact E]. intros; constructor.
  - eapply cw_heap; [exact Hw|done|apply ht_withTxn; [by apply pv_txnDeletePrefix|intros; apply tp_delp]| |exact E]. intros; constructor.
  - eapply cw_heap; [exact Hw|done| | |exact E]; [|intros; constructor]. apply ht_bind; [apply ht_cloneN|]. intros. apply ht_ret.
  - eapply cw_heap; [exact Hw|done|apply ht_getWatchFrom| |exact E]. intros; constructor.
  - eapply cw_heap; [exact Hw|done|apply ht_seekPrefixWatch| |exact E]. intros; constructor.
  - eapply cw_heap; [exact Hw|done| | |exact E]. { apply ht_bind; [apply ht_cloneN|]. intros. apply ht_ret. }
    intros h a h'. unfold newTxn, bind. destruct (cloneN _ _ h) as [[r0| |] h1]; [|done..]. intros [= <- <-]. by repeat constructor.
  - eapply cw_txn; [exact Hw|done|exact Hj|apply tp_ins|by apply Hqt|exact E].
  - eapply cw_txn; [exact Hw|done|exact Hj|apply tp_del|by apply Hqt|exact E].
  - eapply cw_txn; [exact Hw|done|exact Hj|apply tp_delp|by apply Hqt|exact E].
  - eapply cw_heap; [exact Hw|done|apply ht_getWatchFrom| |exact E]. intros; constructor.
  - injection E as <- <-. exists q. split; [|done]. destruct Hw as [W1 W2]. split; [done|]. cbn. intros i y Hi. destruct (decide (i = j)) as [->|Hne].
    + rewrite list_lookup_insert in Hi by (by eapply lookup_lt_Some). injection Hi as <-. destruct (W2 _ _ Hj) as [X1 X2]. split; [done|]. intros; apply Hmo; auto.
    + rewrite list_lookup_insert_ne in Hi by done. destruct (W2 _ _ Hi) as [X1 X2]. split; [done|]. intros; apply Hmo; auto.
  - eapply cw_notify; [exact Hw|done| |exact Hj|exact E]. intros s. unfold commit, notify, slowNotify, bind, getT, liftH, putT, ret. cbn. destruct (closeAll_leaves (t_chs (s_t s)) (s_h s)) as [_ E2].
    destruct (t_track (s_t s)) eqn:Ht; cbn; rewrite ?Ht; [|done]. destruct (closeAll (t_chs (s_t s)) (s_h s)) as [o h']. cbn in *. by subst o.
  - injection E as <- <-. by eapply Hid.
  - eapply cw_notify; [exact Hw|done|done|exact Hj|exact E].
  - eapply cw_heap; [exact Hw|done| | |exact E]. { apply ht_bind; [apply ht_cloneN|]. intros. apply ht_ret. }
    intros h a h'. unfold cloneTxn, bind. destruct (cloneN _ _ h) as [[r0| |] h1]; [|done..]. intros [= <- <-]. by repeat constructor.
Qed.
Lemma cw_step (n : nat) (cs : list (call V)) (cl : call V) g g' (q : bool) w rs r w' : valid_key k -> covered cs g -> gstep cl g g' -> wok n w g -> exec cs w_init = (rs, w) ->
  CW (fun j => culprit cs j k) q w -> step cl w = (r, w') ->
  exists q', CW (fun j => culprit (cs ++ [cl]) j k) q' w' /\ ChanKind.same c (w_h w) q q' /\ h_nextch (w_h w) <= h_nextch (w_h w').
Proof.
  intros Hv Hcov Hg [L1 L2 WT WX] Ex Hw E. eapply cw_call; [exact Hw|intros j; apply culprit_mono| |exact E]. destruct cl; try exact I.
  - intros x Hj. cbn [gstep] in Hg. destruct (lookup_lt_is_Some_2 (g_txns g) j) as [[[m d] f] Eu]; [apply lookup_lt_Some in Hj; lia|].
    unfold on_txn in Hg. rewrite Eu in Hg. destruct Hg as (d' & [Hk0 _] & _). destruct (t_track x) eqn:Ht.
    + assert (Htr : tracks cs j = true) by by eapply exec_tracks. assert (Hcu : touches m k (CTInsert j k0 v) j -> culprit (cs ++ [CTInsert j k0 v]) j k).
      { intros Hto. exists cs, (CTInsert j k0 v), [], g, m, d, f. done. }
      destruct (decide (k0 = k)) as [->|Hne]; [right; left; apply Hcu; split; [done|by left]|]. destruct (m !! k0) as [v0|] eqn:Em.
      * left. eapply quiet_insert; [done|done|by apply (WX _ _ _ Hj Eu)|done|left; by rewrite Em].
      * destruct (decide (k `prefix_of` k0)) as [Hp|Hp]; [right; left; apply Hcu; split; [done|right; auto]|].
        destruct (decide (k0 `prefix_of` k)) as [Hp'|Hp']; [right; left; apply Hcu; split; [done|right; auto]|].
        left. eapply quiet_insert; [done|done|by apply (WX _ _ _ Hj Eu)|done|by right].
    + right. right. destruct (r_chs _ _ _ (pv_txnInsert (fun _ _ => True) k0 v I (mkS (w_h w) x))) as (ex & -> & Hx). cbn. rewrite Hx by done. apply app_nil_r.
  - intros x Hj. cbn [gstep] in Hg. destruct (lookup_lt_is_Some_2 (g_txns g) j) as [[[m d] f] Eu]; [apply lookup_lt_Some in Hj; lia|].
    unfold on_txn in Hg. rewrite Eu in Hg. destruct Hg as (d' & [Hk0 _] & _). destruct (t_track x) eqn:Ht.
    + assert (Htr : tracks cs j = true) by by eapply exec_tracks. destruct (decide (k `prefix_of` k0)) as [Hp|Hp].
      * right. left. exists cs, (CTDelete j k0), [], g, m, d, f. done.
      * left. eapply quiet_delete; [done|by apply (WX _ _ _ Hj Eu)|done|done].
    + right. right. destruct (r_chs _ _ _ (pv_txnDelete (fun _ _ => True) k0 (mkS (w_h w) x))) as (ex & -> & Hx). cbn. rewrite Hx by done. apply app_nil_r.
  - intros x Hj. cbn [gstep] in Hg. destruct (lookup_lt_is_Some_2 (g_txns g) j) as [[[m d] f] Eu]; [apply lookup_lt_Some in Hj; lia|].
    unfold on_txn in Hg. rewrite Eu in Hg. by destruct Hg as (d' & [] & _).
Qed.
End W.

(** ** Histories *)
Lemma getWatch_found (h : heap V) root k ch v h' : getWatchFrom root k h = (Ok (ch, v, true), h') -> exists la, search (search_fuel (getTreeKey k)) h root (getTreeKey k) 0 = Ok (Found la).
Proof.
  unfold getWatchFrom, bind, lift. destruct (search _ h root (getTreeKey k) 0) as [[la|a']| |] eqn:Es; [eauto| |done..].
  destruct (getMutateChN a' h) as [[c'| |] h1]; [|done..]. by intros [= ].
Qed.
Lemma found_valid (b : bool) (h : heap V) (root : addr) (m : Spec.kmap V) (k : bytes) (la : addr) : is_bytes k -> Top.holds b (er_h h) root m -> search (search_fuel (getTreeKey k)) h root (getTreeKey k) 0 = Ok (Found la) -> valid_key k.
Proof.
  intros Hk Hh Es. rewrite <- er_search in Es. pose proof (getTreeKey_bytes k Hk) as Hkb. destruct Hh as [-> Hp|t Hr Hnd -> Hc].
  - unfold search_fuel in Es. replace (length (getTreeKey k) + 2) with (S (length (getTreeKey k) + 1)) in Es by lia. rewrite (phantom_search b) in Es; [done..|]. by destruct k.
  - destruct (found_celled _ _ _ _ Hkb Hr Es) as [v Hce]. apply celled_leaves in Hce. destruct (rep_stored _ _ _ _ _ Hr Hce) as (k0 & E & Hv). by apply app_inj_tail in E as [-> _].
Qed.
Lemma found_key (h : heap V) root k la l : search (search_fuel (getTreeKey k)) h root (getTreeKey k) 0 = Ok (Found la) -> h_leaves h !! la = Some l -> l_key l = getTreeKey k.
Proof.
  intros Es Hl. destruct (search_stored h root _ _ _ _ _ Es (reach_refl _ _)) as (b & n & _ & _ & _ & l' & Hl' & E). congruence.
Qed.
(** the memory access of a GetWatch that has found the key *)
Lemma get_root n cl (w : world V) g g' r w' k ch v : wok n w g -> gstep cl g g' -> (exists i, cl = CGetWatch i k \/ cl = CTGetWatch i k) -> step cl w = (r, w') -> r = Ok (RWatch ch v true) ->
  exists root b m v', is_bytes k /\ Top.holds b (er_h (w_h w)) root m /\ getWatchFrom root k (w_h w) = (Ok (ch, v', true), w_h w').
Proof.
  intros [L1 L2 WT WX] Hg (i & Hcl) E Er. destruct Hcl as [-> | ->]; cbn [gstep] in Hg; destruct Hg as [Hk _]; cbn [step] in E.
  - unfold withTree in E. destruct (w_trees w !! i) as [t|] eqn:Hi; [|by injection E as <- <-].
    destruct (lookup_lt_is_Some_2 (g_trees g) i) as [[m dd] Eu]; [apply lookup_lt_Some in Hi; lia|]. destruct (WT _ _ _ Hi Eu) as (y & (Hh & _) & _).
    unfold onHeap, treeGetWatch in E. destruct (getWatchFrom (r_root t) k (w_h w)) as [[[[c1 v1] b1]| |] h'] eqn:Eg; [|by injection E as <- <-..].
    injection E as <- <-. cbn in Er. injection Er as -> -> ->. exists (r_root t), false, m, v. split; [done|]. split; [exact Hh|]. exact Eg.
  - unfold withTx in E. destruct (w_txns w !! i) as [t|] eqn:Hi; [|by injection E as <- <-].
    destruct (lookup_lt_is_Some_2 (g_txns g) i) as [[[m dd] f] Eu]; [apply lookup_lt_Some in Hi; lia|]. destruct (WX _ _ _ Hi Eu) as (y & (Hh & _) & _).
    unfold onHeap, txnGetWatch in E. destruct (getWatchFrom (t_root t) k (w_h w)) as [[[[c1 v1] b1]| |] h'] eqn:Eg; [|by injection E as <- <-..].
    injection E as <- <-. cbn in Er. injection Er as -> -> ->. exists (t_root t), f, m, v. split; [done|]. split; [exact Hh|]. exact Eg.
Qed.
Lemma handed_valid (cs : list (call V)) g rs w k c : covered cs g -> disciplined cs -> small cs -> exec cs w_init = (rs, w) -> handed_out cs rs k c -> valid_key k.
Proof.
  revert g rs w. induction cs as [|cl cs IH] using rev_ind; intros g rs w Hc Hd Hs E (n & i & v & Hn & Hr); [by destruct Hn|].
  destruct (at_call _ _ _ _ _ Hc Hd Hs E) as (g0 & rs0 & w0 & r & Hc0 & Hg & E0 & Es & -> & Wk & Hn' & K1 & K2).
  assert (Hl : length rs0 = length cs) by (eapply exec_length; exact E0). destruct (decide (n < length cs)) as [Hlt|Hge].
  - rewrite lookup_app_l in Hr by lia. eapply (IH g0 rs0 w0); [done|by apply disciplined_app_l in Hd|unfold small in *; rewrite app_length in Hs; cbn in Hs; lia|done|].
    exists n, i, v. split; [|done]. by rewrite !lookup_app_l in Hn by done.
  - assert (n = length cs) as ->. { apply lookup_lt_Some in Hr. rewrite app_length in Hr. cbn in Hr. lia. }
    rewrite lookup_app_r in Hr by lia. rewrite Hl, Nat.sub_diag in Hr. injection Hr as ->. rewrite !lookup_app_r, Nat.sub_diag in Hn by lia. cbn in Hn.
    destruct (get_root _ cl _ _ _ _ _ k c v Wk Hg ltac:(exists i; naive_solver) Es eq_refl) as (root & b & m & v' & Hk & Hh & Eg).
    destruct (getWatch_found _ _ _ _ _ _ Eg) as [la Hla]. by eapply found_valid.
Qed.
Lemma cw_hist (k : bytes) (c : chan) (cs : list (call V)) g rs w : valid_key k -> covered cs g -> disciplined cs -> small cs -> exec cs w_init = (rs, w) ->
  exists q, CW k c (fun j => culprit cs j k) q w /\ (handed_out cs rs k c -> c < h_nextch (w_h w) /\ q = true).
Proof.
  intros Hv. revert g rs w. induction cs as [|cl cs IH] using rev_ind; intros g rs w Hc Hd Hs E.
  - injection E as <- <-. exists false. split; [|intros (n & i & v & _ & Hr); done]. split; [|done]. split; cbn; intros *; by rewrite lookup_empty.
  - destruct (at_call _ _ _ _ _ Hc Hd Hs E) as (g0 & rs0 & w0 & r & Hc0 & Hg & E0 & Es & -> & Wk & Hn' & K1 & K2).
    destruct (IH g0 rs0 w0) as (q & Hw & Hq); [done|by apply disciplined_app_l in Hd|unfold small in *; rewrite app_length in Hs; cbn in Hs; lia|done|].
    destruct (cw_step k c _ _ _ _ _ _ _ _ _ _ Hv Hc0 Hg Wk E0 Hw Es) as (q' & Hw' & Sm & Hnc). exists q'. split; [done|].
    assert (Hl : length rs0 = length cs) by (eapply exec_length; exact E0). intros (n & i & v & Hn & Hr). destruct (decide (n < length cs)) as [Hlt|Hge].
    + rewrite lookup_app_l in Hr by lia. destruct Hq as [Hq1 Hq2]; [exists n, i, v; split; [|done]; by rewrite !lookup_app_l in Hn by done|].
      split; [lia|]. rewrite (Sm Hq1). done.
    + assert (n = length cs) as ->. { apply lookup_lt_Some in Hr. rewrite app_length in Hr. cbn in Hr. lia. }
      rewrite lookup_app_r in Hr by lia. rewrite Hl, Nat.sub_diag in Hr. injection Hr as ->. rewrite !lookup_app_r, Nat.sub_diag in Hn by lia. cbn in Hn.
      destruct (get_root _ cl _ _ _ _ _ k c v Wk Hg ltac:(exists i; naive_solver) Es eq_refl) as (root & b & m & v' & Hk & Hh & Eg).
      destruct (getWatch_watched _ _ _ _ _ _ Eg) as (la & l & Hla & Hll & Hch). destruct Hw' as [[_ _ _ H4] _]. destruct (H4 _ _ _ Hll Hch) as [H5 H6].
      split; [done|]. apply (H6 eq_refl). by eapply found_key.
Qed.
(** A channel handed out for k is closed only by the Commit or Notify of a transaction that has touched k. *)
Theorem watch_cause (cs : list (call V)) cl g rs w r w' k c : covered (cs ++ [cl]) g -> disciplined (cs ++ [cl]) -> small (cs ++ [cl]) -> exec cs w_init = (rs, w) ->
  handed_out cs rs k c -> step cl w = (r, w') -> c ∉ h_closed (w_h w) -> c ∈ h_closed (w_h w') ->
  exists j, (cl = CCommit j \/ cl = CNotify j) /\ tracks cs j = true /\ culprit cs j k.
Proof.
  intros Hc Hd Hs E Hh Es Hn Hy. destruct (covered_snoc_inv _ _ _ Hc _ eq_refl) as (g0 & Hc0 & _). apply disciplined_app_l in Hd.
  assert (Hs0 : small cs) by (unfold small in *; rewrite app_length in Hs; cbn in Hs; lia).
  destruct (cw_hist k c cs g0 rs w) as (q & [_ W2] & Hq); [by eapply handed_valid|done..|]. destruct (Hq Hh) as [_ ->]. pose proof (step_effect _ _ _ _ Es) as [_ H1 _ H2 H3 _ _].
  destruct (notifies cl) as [j|] eqn:En; [|by rewrite H1 in Hy]. exists j.
  assert (Hcl : cl = CCommit j \/ cl = CNotify j) by (destruct cl; try done; injection En as ->; auto). split; [done|].
  destruct (w_txns w !! j) as [x|] eqn:Hj.
  2:{ destruct Hcl as [-> | ->]; cbn [step] in Es; unfold withTx in Es; rewrite Hj in Es; by injection Es as <- <-. }
  destruct (t_track x) eqn:Ht; [|by rewrite (proj1 (H3 _ _ eq_refl Hj Ht)) in Hy]. split; [by eapply exec_tracks|].
  destruct (H2 _ _ eq_refl Hj Ht) as [H4 _]. apply H4 in Hy as [Hy|Hy]; [done|]. by apply (W2 _ _ Hj).
Qed.

(** ** Channels of different kinds are different, in every history *)
Lemma getN_ch (h : heap V) a ch h' : getMutateChN a h = (Ok ch, h') -> exists n, h_nodes h' !! a = Some n /\ n_ch n = Some ch.
Proof.
  destruct (h_nodes h !! a) as [n|] eqn:Hn; [|unfold getMutateChN, bind, hloadN; by rewrite Hn].
  destruct (getN_cases h a n Hn) as [(d & Hd & ->)|(Hd & ->)]; intros [= <- <-]; [eauto|]. exists (set_ch n (Some (h_nextch h))). cbn. by rewrite lookup_insert.
Qed.
Lemma found_call cl (w : world V) w' k c v : (exists i, cl = CGetWatch i k \/ cl = CTGetWatch i k) -> step cl w = (Ok (RWatch c v true), w') ->
  exists la l, h_leaves (w_h w') !! la = Some l /\ l_ch l = Some c /\ l_key l = getTreeKey k.
Proof.
  intros (i & Hcl) E. assert (HG : exists root, getWatchFrom root k (w_h w) = (Ok (c, v, true), w_h w')).
  { destruct Hcl as [-> | ->]; cbn [step] in E.
    - unfold withTree in E. destruct (w_trees w !! i) as [t|]; [|done]. unfold onHeap, treeGetWatch in E.
      destruct (getWatchFrom (r_root t) k (w_h w)) as [[[[c1 v1] b1]| |] h'] eqn:Eg; [|done..]. injection E as E1 E2 E3 <-. cbn in *. subst. eauto.
    - unfold withTx in E. destruct (w_txns w !! i) as [t|]; [|done]. unfold onHeap, txnGetWatch in E.
      destruct (getWatchFrom (t_root t) k (w_h w)) as [[[[c1 v1] b1]| |] h'] eqn:Eg; [|done..]. injection E as E1 E2 E3 <-. cbn in *. subst. eauto. }
  destruct HG as [root Eg]. destruct (getWatch_watched _ _ _ _ _ _ Eg) as (la & l & Hla & Hll & Hch). exists la, l. split; [done|]. split; [done|]. by eapply found_key.
Qed.
Lemma missing_call cl (w : world V) w' k c v b : ((exists i, cl = CGetWatch i k \/ cl = CTGetWatch i k) /\ b = false \/ exists i, cl = CSeekWatch i k) -> step cl w = (Ok (RWatch c v b), w') ->
  exists a n, h_nodes (w_h w') !! a = Some n /\ n_ch n = Some c.
Proof.
  intros Hcl E. destruct Hcl as [[(i & Hcl) ->]|(i & ->)].
  - assert (HG : exists root, getWatchFrom root k (w_h w) = (Ok (c, v, false), w_h w')).
    { destruct Hcl as [-> | ->]; cbn [step] in E.
      - unfold withTree in E. destruct (w_trees w !! i) as [t|]; [|done]. unfold onHeap, treeGetWatch in E.
        destruct (getWatchFrom (r_root t) k (w_h w)) as [[[[c1 v1] b1]| |] h'] eqn:Eg; [|done..]. injection E as E1 E2 E3 <-. cbn in *. subst. eauto.
      - unfold withTx in E. destruct (w_txns w !! i) as [t|]; [|done]. unfold onHeap, txnGetWatch in E.
        destruct (getWatchFrom (t_root t) k (w_h w)) as [[[[c1 v1] b1]| |] h'] eqn:Eg; [|done..]. injection E as E1 E2 E3 <-. cbn in *. subst. eauto. }
    destruct HG as [root Eg]. unfold getWatchFrom, bind, lift in Eg. destruct (search _ (w_h w) root (getTreeKey k) 0) as [[la|a']| |]; [| |done..].
    + destruct (hloadL la (w_h w)) as [[l| |] h0]; [|done..]. destruct (getMutateChL la h0) as [[c'| |] h1]; [|done..]. by injection Eg.
    + destruct (getMutateChN a' (w_h w)) as [[c'| |] h1] eqn:En; [|done..]. injection Eg as -> _ ->. apply getN_ch in En as (n & ? & ?). eauto.
  - cbn [step] in E. unfold withTree in E. destruct (w_trees w !! i) as [t|]; [|done]. unfold onHeap, seekPrefixWatch, bind, lift in E.
    destruct (seekPrefix (w_h w) (newIter (r_root t)) k) as [it'| |]; [|done..]. destruct (it_node it') as [[b0|]|]; [|done..].
    destruct (getMutateChN b0 (w_h w)) as [[c'| |] h1] eqn:En; [|done..]. injection E as E1 _ _ <-. cbn in *. subst. apply getN_ch in En as (n & ? & ?). eauto.
Qed.
Lemma handed_snoc (cs : list (call V)) cl rs r k c : length rs = length cs -> handed_out (cs ++ [cl]) (rs ++ [r]) k c ->
  handed_out cs rs k c \/ exists i v, (cl = CGetWatch i k \/ cl = CTGetWatch i k) /\ r = Ok (RWatch c v true).
Proof.
  intros Hl (n & i & v & Hn & Hr). destruct (decide (n < length cs)) as [Hlt|Hge].
  - left. rewrite lookup_app_l in Hr by lia. rewrite !lookup_app_l in Hn by lia. by exists n, i, v.
  - right. assert (n = length cs) as ->. { apply lookup_lt_Some in Hr. rewrite app_length in Hr. cbn in Hr. lia. }
    rewrite lookup_app_r in Hr by lia. rewrite Hl, Nat.sub_diag in Hr. injection Hr as ->. rewrite !lookup_app_r, Nat.sub_diag in Hn by lia. cbn in Hn.
    exists i, v. split; [|done]. destruct Hn as [[= ->]|[= ->]]; auto.
Qed.
Lemma handed_node_snoc (cs : list (call V)) cl rs r c : length rs = length cs -> handed_node (cs ++ [cl]) (rs ++ [r]) c ->
  handed_node cs rs c \/ exists k v b, ((exists i, cl = CGetWatch i k \/ cl = CTGetWatch i k) /\ b = false \/ exists i, cl = CSeekWatch i k) /\ r = Ok (RWatch c v b).
Proof.
  intros Hl (n & i & k & v & b & Hn & Hr). destruct (decide (n < length cs)) as [Hlt|Hge].
  - left. rewrite lookup_app_l in Hr by lia. rewrite !lookup_app_l in Hn by lia. by exists n, i, k, v, b.
  - right. assert (n = length cs) as ->. { apply lookup_lt_Some in Hr. rewrite app_length in Hr. cbn in Hr. lia. }
    rewrite lookup_app_r in Hr by lia. rewrite Hl, Nat.sub_diag in Hr. injection Hr as ->. rewrite !lookup_app_r, Nat.sub_diag in Hn by lia. cbn in Hn.
    exists k, v, b. split; [|done]. destruct Hn as [[[[= ->]|[= ->]] ->]|[= ->]]; eauto.
Qed.
Lemma exec_snoc2 (cs : list (call V)) c w rs w' : exec (cs ++ [c]) w = (rs, w') -> exists rs1 w1 r, exec cs w = (rs1, w1) /\ step c w1 = (r, w') /\ rs = rs1 ++ [r].
Proof.
  destruct (exec cs w) as [rs1 w1] eqn:E1. rewrite (exec_app _ _ _ _ _ E1). cbn. destruct (step c w1) as [r w2] eqn:E2. intros [= <- <-]. exists rs1, w1, r. done.
Qed.
Lemma kind_hist (k : bytes) (c : chan) (cs : list (call V)) rs w : exec cs w_init = (rs, w) -> exists q, CW k c (fun _ => True) q w /\
  (forall k', handed_out cs rs k' c -> c < h_nextch (w_h w) /\ (k' = k <-> q = true)) /\ (handed_node cs rs c -> c < h_nextch (w_h w) /\ q = false).
Proof.
  revert rs w. induction cs as [|cl cs IH] using rev_ind; intros rs w E.
  - injection E as <- <-. exists false. split; [|split; [intros k' (n & i & v & _ & Hr)|intros (n & i & k' & v & b & _ & Hr)]; done]. split; [|done]. split; cbn; intros *; by rewrite lookup_empty.
  - apply exec_snoc2 in E as (rs0 & w0 & r & E0 & Es & ->). destruct (IH rs0 w0 E0) as (q & Hw & Hq1 & Hq2).
    destruct (cw_call k c (fun _ => True) (fun _ => True) cl q w0 r w) as (q' & Hw' & Sm & Hnc); [done|done| |done|].
    { destruct cl; try exact I; intros x _; right; by left. }
    exists q'. split; [done|]. assert (Hl : length rs0 = length cs) by (eapply exec_length; exact E0). destruct Hw' as [[_ _ H3 H4] _]. split.
    + intros k' Hh. apply handed_snoc in Hh as [Hh|(i & v & Hcl & ->)]; [| |done].
      * destruct (Hq1 _ Hh) as [Hlt Hk]. split; [lia|]. by rewrite (Sm Hlt).
      * destruct (found_call cl w0 w k' c v) as (la & l & Hll & Hch & Hkey); [eauto|done|]. destruct (H4 _ _ _ Hll Hch) as [H5 H6]. split; [done|]. rewrite <- (H6 eq_refl), Hkey.
        split; [by intros ->|]. intros Ek. by apply app_inj_tail in Ek as [? _].
    + intros Hh. apply handed_node_snoc in Hh as [Hh|(k' & v & b & Hcl & ->)]; [| |done].
      * destruct (Hq2 Hh) as [Hlt Hk]. split; [lia|]. by rewrite (Sm Hlt).
      * destruct (missing_call cl w0 w k' c v b) as (a & n & Hn & Hch); [done..|]. destruct (H3 _ _ _ Hn Hch) as [H5 H6]. split; [done|]. by apply H6.
Qed.
Theorem watch_kinds (cs : list (call V)) rs w k c : exec cs w_init = (rs, w) -> handed_out cs rs k c -> (forall k', handed_out cs rs k' c -> k' = k) /\ ~ handed_node cs rs c.
Proof.
  intros E Hh. destruct (kind_hist k c cs rs w E) as (q & _ & Hq1 & Hq2). destruct (Hq1 _ Hh) as [_ Hq]. assert (q = true) as -> by by apply Hq. split.
  - intros k' Hh'. by apply (Hq1 _ Hh').
  - intros Hn. by destruct (Hq2 Hn).
Qed.
End ChanWorld.
