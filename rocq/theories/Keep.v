(** Predicates on the memory and a transaction that every update preserves, given that the primitive
    accesses preserve them.  Used for facts about the channels of leaves. *)
From Verif Require Export Prims.
From stdpp Require Import list.
Local Open Scope nat_scope.

Section Keep.
Context {V : Type} `{GoZero V}.
Notation TM := (M (st V)).
Notation HM := (M (heap V)).
Variable I : st V -> Prop.
Variable okv : V -> Prop.
Hypothesis okv0 : okv go_zero.
(** the transaction's fields other than the tracking flag change, and channels are recorded *)
Hypothesis I_t : forall h t t', t_track t' = t_track t -> (forall c, c ∈ t_chs t -> c ∈ t_chs t') -> I (mkS h t) -> I (mkS h t').
(** memory other than the leaves changes *)
Hypothesis I_n : forall h h' t, h_leaves h' = h_leaves h -> h_next h <= h_next h' -> I (mkS h t) -> I (mkS h' t).
(** a new leaf *)
Hypothesis I_al : forall h t l, okv (l_val l) -> I (mkS h t) ->
  I (mkS (mkH (h_nodes h) (<[h_next h := l]> (h_leaves h)) (S (h_next h)) (h_nextch h) (h_closed h)) t).
(** a leaf is overwritten, keeping its channel *)
Hypothesis I_st : forall h t a l l', h_leaves h !! a = Some l -> l_ch l' = l_ch l -> (l_val l' = l_val l \/ okv (l_val l')) -> I (mkS h t) ->
  I (mkS (mkH (h_nodes h) (<[a := l']> (h_leaves h)) (h_next h) (h_nextch h) (h_closed h)) t).

Definition kp {A} (m : TM A) (s : st V) : Prop := I s -> I (m s).2.
Definition kv {A} (m : TM A) : Prop := forall s, kp m s.
Hypothesis I_trackL : forall a, kv (trackL (V:=V) a).
Hypothesis I_writeLeaf : forall a b, kv (writeLeaf (V:=V) a b).

Lemma kp_bind {A B} (m : TM A) (k : A -> TM B) s : kp m s -> (forall a s', m s = (Ok a, s') -> kp (k a) s') -> kp (bind m k) s.
Proof.
  unfold kp, bind. intros Hm Hk. destruct (m s) as [[a| |] s'] eqn:E; cbn in *; [|done..]. intros Hs. by apply Hk, Hm.
Qed.
Lemma kv_bind {A B} (m : TM A) (k : A -> TM B) s : kv m -> (forall a s', kp (k a) s') -> kp (bind m k) s.
Proof. intros Hm Hk. apply kp_bind; [apply Hm|intros; apply Hk]. Qed.
Lemma kv_ret {A} (a : A) : kv (ret a).
Proof. intros s Hs. exact Hs. Qed.
Lemma kv_panic {A} : kv (panic (A:=A)).
Proof. intros s Hs. exact Hs. Qed.
Lemma kv_nofuel {A} : kv (nofuel (A:=A)).
Proof. intros s Hs. exact Hs. Qed.
Lemma kv_lift {A} (o : outcome A) : kv (lift o).
Proof. intros s Hs. exact Hs. Qed.
Lemma kv_getH : kv getH.
Proof. intros s Hs. exact Hs. Qed.
Lemma kv_byteAt k i : kv (byteAt k i).
Proof. unfold byteAt. destruct (k !! i); [apply kv_ret|apply kv_panic]. Qed.
Lemma kp_getT {B} (k : txn -> TM B) s : kp (k (s_t s)) s -> kp (bind getT k) s.
Proof. intros Hk. exact Hk. Qed.
Lemma kp_putT t s : t_track t = t_track (s_t s) -> t_chs t = t_chs (s_t s) -> kp (putT t) s.
Proof. intros H1 H2. destruct s as [h x]. cbn in *. unfold kp, putT. cbn. apply I_t; [done|]. by rewrite H2. Qed.
(** heap programs that do not touch leaves *)
Definition hn {A} (m : HM A) : Prop := forall h, h_leaves (m h).2 = h_leaves h /\ h_next h <= h_next (m h).2.
Lemma hn_bind {A B} (m : HM A) (k : A -> HM B) : hn m -> (forall a, hn (k a)) -> hn (bind m k).
Proof.
  intros Hm Hk h. specialize (Hm h). unfold bind. destruct (m h) as [[a| |] h']; cbn in *; [|done..]. specialize (Hk a h'). destruct Hm, Hk. split; [congruence|lia].
Qed.
Lemma hn_ret {A} (a : A) : hn (ret a).
Proof. by intros h. Qed.
Lemma hn_loadN a : hn (hloadN a).
Proof. intros h. unfold hloadN. by destruct (h_nodes h !! a). Qed.
Lemma hn_loadL a : hn (hloadL (V:=V) a).
Proof. intros h. unfold hloadL. by destruct (h_leaves h !! a). Qed.
Lemma hn_storeN a n : hn (hstoreN a n).
Proof. by intros h. Qed.
Lemma hn_allocN n : hn (hallocN n).
Proof. intros h. split; [done|]. cbn. lia. Qed.
Lemma hn_makeChan : hn (hmakeChan (V:=V)).
Proof. by intros h. Qed.
Lemma hn_getMutateChN a : hn (getMutateChN a).
Proof.
  apply hn_bind; [apply hn_loadN|]. intros n. destruct (n_ch n); [apply hn_ret|]. apply hn_bind; [apply hn_makeChan|]. intros c.
  apply hn_bind; [apply hn_storeN|]. intros []. apply hn_ret.
Qed.
Lemma hn_setMutateChN a c : hn (setMutateChN a c).
Proof. apply hn_bind; [apply hn_loadN|]. intros n. apply hn_storeN. Qed.
Lemma hn_cloneN a b : hn (cloneN a b).
Proof.
  unfold cloneN. apply hn_bind.
  - destruct b; [apply hn_bind; [apply hn_getMutateChN|intros; apply hn_ret]|apply hn_ret].
  - intros c. apply hn_bind; [apply hn_loadN|]. intros n. apply hn_allocN.
Qed.
Lemma hn_closeAll l : hn (closeAll (V:=V) l).
Proof.
  induction l as [|c l IH]; [apply hn_ret|]. apply hn_bind; [|done]. intros h. unfold hcloseIfOpen. cbn. by destruct (bool_decide _).
Qed.
Lemma kv_liftH {A} (m : HM A) : hn m -> kv (liftH m).
Proof.
  intros Hm [h t]. specialize (Hm h). unfold kp, liftH. cbn [s_h s_t]. destruct (m h) as [o h']. cbn in *. destruct Hm. by apply I_n.
Qed.
Lemma kv_loadN a : kv (loadN (V:=V) a).
Proof. apply kv_liftH, hn_loadN. Qed.
Lemma kv_loadL a : kv (loadL (V:=V) a).
Proof. apply kv_liftH, hn_loadL. Qed.
Lemma kv_storeN a n : kv (storeN (V:=V) a n).
Proof. apply kv_liftH, hn_storeN. Qed.
Lemma kp_loadL {B} a (k : lnode V -> TM B) s : (forall l, h_leaves (s_h s) !! a = Some l -> kp (k l) s) -> kp (bind (loadL a) k) s.
Proof.
  intros Hk. apply kp_bind; [apply kv_loadL|]. intros l s'. unfold loadL, liftH, hloadL. destruct s as [h t]. cbn in *.
  destruct (h_leaves h !! a) as [l0|] eqn:E; [|done]. intros [= <- <-]. by apply Hk.
Qed.
Lemma kp_storeL a l l' s : h_leaves (s_h s) !! a = Some l -> l_ch l' = l_ch l -> (l_val l' = l_val l \/ okv (l_val l')) -> kp (storeL a l') s.
Proof. intros Hl Hc Hv Hs. destruct s as [h t]. unfold storeL, liftH, hstoreL. cbn. by eapply I_st. Qed.
Lemma kv_allocL l : okv (l_val l) -> kv (liftH (hallocL l)).
Proof. intros Hv [h t] Hs. unfold liftH, hallocL. cbn. by apply I_al. Qed.
Lemma kv_nextId : kv (nextId (V:=V)).
Proof. intros s. apply kp_getT. apply kp_bind; [by apply kp_putT|]. intros [] s' _. apply kv_ret. Qed.
Lemma kv_addTracked c : kv (addTracked (V:=V) c).
Proof. intros [h t]. unfold addTracked. apply kp_getT. unfold kp, putT. cbn. apply I_t; [done|]. cbn. intros c' Hc. apply elem_of_app. by left. Qed.
Lemma kv_trackN a : kv (trackN (V:=V) a).
Proof.
  intros s. unfold trackN. apply kp_getT. apply kp_bind; [intros Hs; exact Hs|]. intros live s' [= <- <-].
  destruct (_ && _); [|apply kv_ret]. apply kv_bind; [apply kv_liftH, hn_getMutateChN|]. intros c s'.
  apply kv_bind; [apply kv_addTracked|]. intros [] s1. apply kv_bind; [apply kv_liftH, hn_makeChan|].
  intros c' s2. apply kv_liftH, hn_setMutateChN.
Qed.
Lemma kv_trackOptL o : kv (trackOptL (V:=V) o).
Proof. destruct o; [apply I_trackL|apply kv_ret]. Qed.
Lemma kv_trackAllN l : kv (trackAllN (V:=V) l).
Proof. induction l as [|a l IH]; [apply kv_ret|]. intros s. apply kv_bind; [apply kv_trackN|]. intros [] s'. apply IH. Qed.

Hint Resolve kv_ret kv_panic kv_nofuel kv_lift kv_getH kv_byteAt kv_loadN kv_loadL kv_storeN kv_nextId kv_trackN I_trackL kv_trackOptL kv_trackAllN I_writeLeaf : kvdb.
Lemma kv_kp {A} (m : TM A) s : kv m -> kp m s.
Proof. intros Hm. apply Hm. Qed.
Ltac kvs :=
  repeat first
    [ match goal with
      | |- kp (bind getT _) _ => apply kp_getT
      | |- kp (bind (putT _) _) _ => apply kp_bind; [apply kp_putT; reflexivity|intros ???]
      | |- kp (bind ?m _) _ => apply kv_bind; [solve [auto with kvdb | let s := fresh in intros s; solve [kvs]]|intros ??]
      | |- kp (if ?b then _ else _) _ => destruct b
      | |- kp (match ?x with _ => _ end) _ => destruct x
      | |- kp (putT _) _ => apply kp_putT; reflexivity
      | |- kp _ _ => solve [apply kv_kp; auto with kvdb]
      end
    | match goal with |- kv _ => let s := fresh in intros s end ].

Lemma kv_writeNode a b : kv (writeNode (V:=V) a b).
Proof.
  intros s. unfold writeNode. apply kv_bind; [destruct b; kvs|]. intros [] s1. kvs.
  apply kv_bind; [apply kv_liftH, hn_cloneN|]. intros a' s2. kvs.
Qed.
Lemma kv_updN a f : kv (updN (V:=V) a f).
Proof. unfold updN. kvs. Qed.
Lemma kv_allocNode k : kv (allocNode (V:=V) k).
Proof. intros s. unfold allocNode. apply kv_bind; [kvs|]. intros i s1. apply kv_kp, kv_liftH, hn_allocN. Qed.
Lemma kv_allocLeaf : kv (allocLeaf (V:=V)).
Proof. intros s. unfold allocLeaf. apply kv_bind; [kvs|]. intros i s1. by apply kv_kp, kv_allocL. Qed.
Hint Resolve kv_writeNode kv_updN kv_allocNode kv_allocLeaf : kvdb.
Lemma kv_setNodeLeaf a l : kv (setNodeLeaf (V:=V) a l).
Proof. unfold setNodeLeaf. kvs. Qed.
Lemma kv_setChild a i c : kv (setChild (V:=V) a i c).
Proof. unfold setChild. kvs. Qed.
Lemma kv_setKV l k v : okv v -> kv (setKV l k v).
Proof. intros HK s. unfold setKV. apply kp_loadL. intros x Hx. eapply kp_storeL; [exact Hx|done|by right]. Qed.
Lemma kv_copyPartial a src : kv (copyPartial (V:=V) a src).
Proof. unfold copyPartial. kvs. Qed.
Hint Resolve kv_setNodeLeaf kv_setChild kv_setKV kv_copyPartial : kvdb.
Lemma kv_makeLeaf k v : okv v -> kv (makeLeaf k v).
Proof.
  intros HK s. unfold makeLeaf. apply kv_bind; [kvs|]. intros l s1. apply kv_bind; [kvs|]. intros i s2. apply kp_loadL. intros x Hx.
  apply kp_bind; [eapply kp_storeL; [exact Hx|done|by right]|]. intros [] s3 _. kvs.
Qed.
Lemma kv_moveLeaf a l : kv (moveLeaf (V:=V) a l).
Proof. unfold moveLeaf. kvs. Qed.
Hint Resolve kv_makeLeaf kv_moveLeaf : kvdb.
Lemma kv_addChild256 a c d : kv (addChild256 (V:=V) a c d).
Proof. unfold addChild256. kvs. Qed.
Hint Resolve kv_addChild256 : kvdb.
Lemma kv_addChild48 a c d : kv (addChild48 (V:=V) a c d).
Proof. unfold addChild48. kvs. Qed.
Hint Resolve kv_addChild48 : kvdb.
Lemma kv_addChild16 a c d : kv (addChild16 (V:=V) a c d).
Proof. unfold addChild16. kvs. Qed.
Hint Resolve kv_addChild16 : kvdb.
Lemma kv_addChild4 a c d : kv (addChild4 (V:=V) a c d).
Proof. unfold addChild4. kvs. Qed.
Hint Resolve kv_addChild4 : kvdb.
Lemma kv_addChild a c d : kv (addChild (V:=V) a c d).
Proof. unfold addChild. kvs. Qed.
Lemma kv_removeChild a c : kv (removeChild (V:=V) a c).
Proof. unfold removeChild, removeChild4, removeChild16, removeChild48, removeChild256. kvs. Qed.
Hint Resolve kv_addChild kv_removeChild : kvdb.

Lemma kv_recursiveInsert key value : okv value -> forall fuel,
  (forall node depth, kv (recursiveInsert fuel node key value depth)) /\ (forall node depth, kv (insertInner fuel node key value depth)).
Proof.
  intros HK. induction fuel as [|fuel [IH1 IH2]]; (split; intros node depth; [cbn [recursiveInsert]|cbn [insertInner]]); [kvs..| |].
  - intros s. apply kp_getT. destruct (_ =? 0)%N; [kvs|]. apply kv_bind; [kvs|]. intros n s1. destruct (n_leaf n) as [nodeLeaf|]; [|apply IH2].
    apply kp_loadL. intros nl Hnl. destruct (isLeafN n).
    + kvs.
    + destruct (leafMatches (l_key nl) key) eqn:Em; [|apply IH2].
      apply kv_bind; [kvs|]. intros newLeaf s2.
      apply kp_loadL. intros x Hx. apply kp_bind; [|intros; kvs]. eapply kp_storeL; [exact Hx|done|by right].
  - intros s. apply kv_bind; [kvs|]. intros n s1. destruct (Nat.ltb 0 (n_plen n)); kvs.
Qed.
Lemma kv_txnInsert k v : okv v -> kv (txnInsert k v).
Proof.
  intros HK s. unfold txnInsert. apply kp_getT. apply kv_bind; [by apply kv_recursiveInsert|]. intros [[[newRoot oldVal] m] old] s1. apply kp_getT.
  apply kp_bind; [|intros; kvs]. destruct old; by apply kp_putT.
Qed.
Lemma kv_installEmptyRoot : kv (installEmptyRoot (V:=V)).
Proof.
  intros s. unfold installEmptyRoot. apply kp_getT. apply kp_bind; [by apply kv_allocL|]. intros l s1 E1. apply liftH_t in E1.
  apply kp_bind; [apply kv_liftH, hn_allocN|]. intros r s2 E2. apply liftH_t in E2. apply kp_putT; cbn; congruence.
Qed.
Hint Resolve kv_installEmptyRoot : kvdb.
Lemma kv_recursiveDelete key : forall fuel node depth, kv (recursiveDelete fuel node key depth).
Proof. induction fuel as [|fuel IH]; intros node depth; cbn [recursiveDelete]; [kvs|]. kvs. Qed.
Hint Resolve kv_recursiveDelete : kvdb.
Lemma kv_txnDelete k : kv (txnDelete (V:=V) k).
Proof. unfold txnDelete. kvs. Qed.
Lemma kv_deletePrefix key : forall fuel node depth, kv (deletePrefix (V:=V) fuel node key depth).
Proof.
  induction fuel as [|fuel IH]; intros node depth; cbn [deletePrefix]; [kvs|]. destruct node as [node|]; [|kvs]. intros s. apply kv_bind; [kvs|]. intros n s1.
  destruct (isLeafN n); [kvs|]. apply kv_bind; [kvs|]. intros d s2. apply kv_bind; [kvs|]. intros nd s3.
  apply kv_bind; [|intros [m nd'] s4; kvs].
  match goal with |- kv (?f _ _ _ _) => assert (Hl : forall chs idx m nd, kv (f chs idx m nd)); [|apply Hl] end.
  induction chs as [|[ch|] chs IHc]; intros idx m nd'; [kvs| |apply IHc].
  intros s0. apply kv_bind; [apply IH|]. intros [newCh del] s4. apply kv_bind; [kvs|]. intros [] s5. apply IHc.
Qed.
Hint Resolve kv_deletePrefix : kvdb.
Lemma kv_txnDeletePrefix k : kv (txnDeletePrefix (V:=V) k).
Proof. unfold txnDeletePrefix. kvs. Qed.
End Keep.
