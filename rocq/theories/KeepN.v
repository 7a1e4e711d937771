(** Predicates on the memory and a transaction that every update preserves, given that they survive new nodes,
    node updates that keep the node's channel, trackChannel and cloning.  Used for facts about the channels of
    inner nodes. *)
From Verif Require Export Prims.
From stdpp Require Import list.
Local Open Scope nat_scope.

(** ** Node routines keep the channel of the node they change *)
Section Ch.
Definition kc (f : inode -> outcome inode) : Prop := forall n n', f n = Ok n' -> n_ch n' = n_ch n.
Lemma obind_Ok {A B} (o : outcome A) (k : A -> outcome B) b : obind o k = Ok b -> exists a, o = Ok a /\ k a = Ok b.
Proof. destruct o as [a| |]; [|done..]. eauto. Qed.
Lemma kc_ok f : (forall n, n_ch (f n) = n_ch n) -> kc (fun n => Ok (f n)).
Proof. intros Hf n n' [= <-]. apply Hf. Qed.
Lemma kc_setChildN i c : kc (fun n => setChildN n i c).
Proof. intros n n'. unfold setChildN. destruct (Nat.ltb _ _); [|done]. by intros [= <-]. Qed.
Lemma kc_setKeyAtIdx i k : kc (fun n => setKeyAtIdx n i k).
Proof. intros n n'. unfold setKeyAtIdx. destruct (n_kind n); try (destruct (Nat.ltb _ _); [|done]); by intros [= <-]. Qed.
Lemma kc_insertSorted c ch : kc (fun n => insertSorted n c ch).
Proof.
  intros n n'. unfold insertSorted. cbv zeta. intros (n1 & E1 & E)%obind_Ok. apply obind_Ok in E as (n2 & E2 & E).
  injection E as <-. apply kc_setKeyAtIdx in E1. apply kc_setChildN in E2. cbn in *. congruence.
Qed.
Lemma kc_insert48 c ch : kc (fun n => insert48 n c ch).
Proof.
  intros n n'. unfold insert48. intros (pos & _ & E)%obind_Ok. apply obind_Ok in E as (n1 & E1 & E). apply obind_Ok in E as (n2 & E2 & E).
  injection E as <-. apply kc_setChildN in E1. apply kc_setKeyAtIdx in E2. cbn in *. congruence.
Qed.
Lemma kc_insert256 c ch : kc (fun n => insert256 n c ch).
Proof. intros n n'. unfold insert256. cbv zeta. intros E. by apply kc_setChildN in E. Qed.
Lemma kc_copyHeader n0 : kc (fun d => copyHeader d n0).
Proof. intros n n'. unfold copyHeader. destruct (_ && _); [|done]. by intros [= <-]. Qed.
Lemma kc_fill48 n0 l : kc (fun d => fill48 d n0 l).
Proof.
  induction l as [|i l IH]; intros d d'; cbn; [by intros [= <-]|]. intros (k & _ & E)%obind_Ok. apply obind_Ok in E as (d1 & E1 & E).
  apply IH in E. apply kc_setKeyAtIdx in E1. congruence.
Qed.
Lemma kc_fill256 n0 l : kc (fun d => fill256 d n0 l).
Proof.
  induction l as [|i l IH]; intros d d'; cbn; [by intros [= <-]|]. intros (k & _ & E)%obind_Ok. destruct (Nat.eqb _ _); [by apply IH in E|].
  apply obind_Ok in E as (ch & _ & E). apply obind_Ok in E as (d1 & E1 & E). apply IH in E. apply kc_setChildN in E1. congruence.
Qed.
Lemma kc_fill16 n0 l : forall j, kc (fun d => fill16 d n0 j l).
Proof.
  induction l as [|i l IH]; intros j d d'; cbn; [by intros [= <-]|]. intros (k & _ & E)%obind_Ok. destruct (Nat.eqb _ _); [by apply IH in E|].
  apply obind_Ok in E as (d1 & E1 & E). apply obind_Ok in E as (ch & _ & E). apply obind_Ok in E as (d2 & E2 & E).
  apply IH in E. apply kc_setKeyAtIdx in E1. apply kc_setChildN in E2. congruence.
Qed.
Lemma kc_fill48from256 n0 l : forall j, kc (fun d => fill48from256 d n0 j l).
Proof.
  induction l as [|i l IH]; intros j d d'; cbn; [by intros [= <-]|]. intros ([ch|] & _ & E)%obind_Ok; [|by apply IH in E].
  apply obind_Ok in E as (d1 & E1 & E). apply obind_Ok in E as (d2 & E2 & E). apply IH in E. apply kc_setChildN in E1. apply kc_setKeyAtIdx in E2. cbn in *. congruence.
Qed.
Lemma mergePrefix_ch n ch p ch' : mergePrefix n ch = Ok (p, ch') -> n_ch ch' = n_ch ch.
Proof.
  unfold mergePrefix. intros ([part prefix] & _ & E)%obind_Ok. apply obind_Ok in E as ([part' prefix'] & _ & E). destruct (Nat.ltb _ _); [done|]. by injection E as <- <-.
Qed.
Lemma compact_ch m l : forall n slow numCh n' s' c', compact_loop m n slow numCh l = Ok (n', s', c') -> n_ch n' = n_ch n.
Proof.
  induction l as [|i l IH]; intros n slow numCh n' s' c'; cbn; [by intros [= <- _ _]|].
  destruct (list_find _ m) as [[? [? [a|]]]|]; [|by intros E; apply IH in E|].
  - intros (nx & E1 & E)%obind_Ok. apply IH in E. apply kc_setChildN in E1. congruence.
  - intros (ch & _ & E)%obind_Ok. apply obind_Ok in E as (nx & E1 & E). apply IH in E. apply kc_setChildN in E1. congruence.
Qed.
End Ch.

Section KeepN.
Context {V : Type} `{GoZero V}.
Notation TM := (M (st V)).
Notation HM := (M (heap V)).
Variable I : st V -> Prop.
(** the transaction's fields other than the tracking flag change, and channels are recorded *)
Hypothesis I_t : forall h t t', t_track t' = t_track t -> (forall c, c ∈ t_chs t -> c ∈ t_chs t') -> I (mkS h t) -> I (mkS h t').
(** memory other than the inner nodes changes *)
Hypothesis I_n : forall h h' t, h_nodes h' = h_nodes h -> h_next h <= h_next h' -> h_nextch h <= h_nextch h' -> I (mkS h t) -> I (mkS h' t).
(** a new node *)
Hypothesis I_al : forall h t n, n_ch n = None -> I (mkS h t) ->
  I (mkS (mkH (<[h_next h := n]> (h_nodes h)) (h_leaves h) (S (h_next h)) (h_nextch h) (h_closed h)) t).
(** a node is overwritten, keeping its channel *)
Hypothesis I_st : forall h t a n n', h_nodes h !! a = Some n -> n_ch n' = n_ch n -> I (mkS h t) ->
  I (mkS (mkH (<[a := n']> (h_nodes h)) (h_leaves h) (h_next h) (h_nextch h) (h_closed h)) t).

Definition np {A} (m : TM A) (s : st V) : Prop := I s -> I (m s).2.
Definition nv {A} (m : TM A) : Prop := forall s, np m s.
Hypothesis I_trackN : forall a, nv (trackN (V:=V) a).
Hypothesis I_cloneN : forall a b, nv (liftH (cloneN (V:=V) a b)).

Lemma np_bind {A B} (m : TM A) (k : A -> TM B) s : np m s -> (forall a s', m s = (Ok a, s') -> np (k a) s') -> np (bind m k) s.
Proof.
  unfold np, bind. intros Hm Hk. destruct (m s) as [[a| |] s'] eqn:E; cbn in *; [|done..]. intros Hs. by apply Hk, Hm.
Qed.
Lemma nv_bind {A B} (m : TM A) (k : A -> TM B) s : nv m -> (forall a s', np (k a) s') -> np (bind m k) s.
Proof. intros Hm Hk. apply np_bind; [apply Hm|intros; apply Hk]. Qed.
Lemma nv_ret {A} (a : A) : nv (ret a).
Proof. intros s Hs. exact Hs. Qed.
Lemma nv_panic {A} : nv (panic (A:=A)).
Proof. intros s Hs. exact Hs. Qed.
Lemma nv_nofuel {A} : nv (nofuel (A:=A)).
Proof. intros s Hs. exact Hs. Qed.
Lemma nv_lift {A} (o : outcome A) : nv (lift o).
Proof. intros s Hs. exact Hs. Qed.
Lemma nv_getH : nv getH.
Proof. intros s Hs. exact Hs. Qed.
Lemma nv_byteAt k i : nv (byteAt k i).
Proof. unfold byteAt. destruct (k !! i); [apply nv_ret|apply nv_panic]. Qed.
Lemma np_getT {B} (k : txn -> TM B) s : np (k (s_t s)) s -> np (bind getT k) s.
Proof. intros Hk. exact Hk. Qed.
Lemma np_lift {A B} (o : outcome A) (k : A -> TM B) s : (forall a, o = Ok a -> np (k a) s) -> np (bind (lift o) k) s.
Proof. intros Hk. unfold np, bind, lift. destruct o as [a| |]; cbn; [by apply Hk|done..]. Qed.
Lemma np_putT t s : t_track t = t_track (s_t s) -> t_chs t = t_chs (s_t s) -> np (putT t) s.
Proof. intros H1 H2. destruct s as [h x]. cbn in *. unfold np, putT. cbn. apply I_t; [done|]. by rewrite H2. Qed.
(** heap programs that do not touch nodes *)
Definition ho {A} (m : HM A) : Prop := forall h, h_nodes (m h).2 = h_nodes h /\ h_next h <= h_next (m h).2 /\ h_nextch h <= h_nextch (m h).2.
Lemma ho_bind {A B} (m : HM A) (k : A -> HM B) : ho m -> (forall a, ho (k a)) -> ho (bind m k).
Proof.
  intros Hm Hk h. specialize (Hm h). unfold bind. destruct (m h) as [[a| |] h']; cbn in *; [|done..]. specialize (Hk a h'). destruct Hm as (? & ? & ?), Hk as (? & ? & ?).
  split_and!; [congruence|lia|lia].
Qed.
Lemma ho_ret {A} (a : A) : ho (ret a).
Proof. by intros h. Qed.
Lemma ho_loadN a : ho (hloadN a).
Proof. intros h. unfold hloadN. by destruct (h_nodes h !! a). Qed.
Lemma ho_loadL a : ho (hloadL (V:=V) a).
Proof. intros h. unfold hloadL. by destruct (h_leaves h !! a). Qed.
Lemma ho_storeL a l : ho (hstoreL (V:=V) a l).
Proof. by intros h. Qed.
Lemma ho_allocL l : ho (hallocL (V:=V) l).
Proof. intros h. cbn. split_and!; [done|lia|lia]. Qed.
Lemma ho_makeChan : ho (hmakeChan (V:=V)).
Proof. intros h. cbn. split_and!; [done|lia|lia]. Qed.
Lemma ho_getMutateChL a : ho (getMutateChL a).
Proof.
  apply ho_bind; [apply ho_loadL|]. intros n. destruct (l_ch n); [apply ho_ret|]. apply ho_bind; [apply ho_makeChan|]. intros c.
  apply ho_bind; [apply ho_storeL|]. intros []. apply ho_ret.
Qed.
Lemma ho_setMutateChL a c : ho (setMutateChL a c).
Proof. apply ho_bind; [apply ho_loadL|]. intros n. apply ho_storeL. Qed.
Lemma ho_cloneL a b : ho (cloneL a b).
Proof.
  unfold cloneL. apply ho_bind.
  - destruct b; [apply ho_bind; [apply ho_getMutateChL|intros; apply ho_ret]|apply ho_ret].
  - intros c. apply ho_bind; [apply ho_loadL|]. intros n. apply ho_allocL.
Qed.
Lemma ho_closeAll l : ho (closeAll (V:=V) l).
Proof.
  induction l as [|c l IH]; [apply ho_ret|]. apply ho_bind; [|done]. intros h. unfold hcloseIfOpen. cbn. by destruct (bool_decide _).
Qed.
Lemma nv_liftH {A} (m : HM A) : ho m -> nv (liftH m).
Proof.
  intros Hm [h t]. specialize (Hm h). unfold np, liftH. cbn [s_h s_t]. destruct (m h) as [o h']. cbn in *. destruct Hm as (? & ? & ?). by apply I_n.
Qed.
Lemma nv_loadN a : nv (loadN (V:=V) a).
Proof. apply nv_liftH, ho_loadN. Qed.
Lemma nv_loadL a : nv (loadL (V:=V) a).
Proof. apply nv_liftH, ho_loadL. Qed.
Lemma nv_storeL a l : nv (storeL (V:=V) a l).
Proof. apply nv_liftH, ho_storeL. Qed.
Lemma np_loadN {B} a (k : inode -> TM B) s : (forall n, h_nodes (s_h s) !! a = Some n -> np (k n) s) -> np (bind (loadN a) k) s.
Proof.
  intros Hk. apply np_bind; [apply nv_loadN|]. intros l s'. unfold loadN, liftH, hloadN. destruct s as [h t]. cbn in *.
  destruct (h_nodes h !! a) as [l0|] eqn:E; [|done]. intros [= <- <-]. by apply Hk.
Qed.
Lemma np_storeN a n n' s : h_nodes (s_h s) !! a = Some n -> n_ch n' = n_ch n -> np (storeN a n') s.
Proof. intros Hl Hc Hs. destruct s as [h t]. unfold storeN, liftH, hstoreN. cbn. by eapply I_st. Qed.
Lemma nv_allocN n : n_ch n = None -> nv (liftH (hallocN n)).
Proof. intros Hv [h t] Hs. unfold liftH, hallocN. cbn. by apply I_al. Qed.
Lemma nv_nextId : nv (nextId (V:=V)).
Proof. intros s. apply np_getT. apply np_bind; [by apply np_putT|]. intros [] s' _. apply nv_ret. Qed.
Lemma nv_addTracked c : nv (addTracked (V:=V) c).
Proof. intros [h t]. unfold addTracked. apply np_getT. unfold np, putT. cbn. apply I_t; [done|]. cbn. intros c' Hc. apply elem_of_app. by left. Qed.
Lemma nv_trackL a : nv (trackL (V:=V) a).
Proof.
  intros s. unfold trackL. apply np_getT. apply np_bind; [intros Hs; exact Hs|]. intros live s' [= <- <-].
  destruct (_ && _); [|apply nv_ret]. apply nv_bind; [apply nv_liftH, ho_getMutateChL|]. intros c s'.
  apply nv_bind; [apply nv_addTracked|]. intros [] s1. apply nv_bind; [apply nv_liftH, ho_makeChan|].
  intros c' s2. apply nv_liftH, ho_setMutateChL.
Qed.
Lemma nv_trackOptL o : nv (trackOptL (V:=V) o).
Proof. destruct o; [apply nv_trackL|apply nv_ret]. Qed.
Lemma nv_trackAllN l : nv (trackAllN (V:=V) l).
Proof. induction l as [|a l IH]; [apply nv_ret|]. intros s. apply nv_bind; [apply I_trackN|]. intros [] s'. apply IH. Qed.

Hint Resolve nv_ret nv_panic nv_nofuel nv_lift nv_getH nv_byteAt nv_loadN nv_loadL nv_storeL nv_nextId nv_trackL I_trackN I_cloneN nv_trackOptL nv_trackAllN : nvdb.
Lemma nv_np {A} (m : TM A) s : nv m -> np m s.
Proof. intros Hm. apply Hm. Qed.
Ltac nvs :=
  repeat first
    [ match goal with
      | |- np (bind getT _) _ => apply np_getT
      | |- np (bind (putT _) _) _ => apply np_bind; [apply np_putT; reflexivity|intros ???]
      | |- np (bind ?m _) _ => apply nv_bind; [solve [auto with nvdb | let s := fresh in intros s; solve [nvs]]|intros ??]
      | |- np (if ?b then _ else _) _ => destruct b
      | |- np (match ?x with _ => _ end) _ => destruct x
      | |- np (putT _) _ => apply np_putT; reflexivity
      | |- np _ _ => solve [apply nv_np; auto with nvdb]
      end
    | match goal with |- nv _ => let s := fresh in intros s end ].

Lemma nv_writeNode a b : nv (writeNode (V:=V) a b).
Proof.
  intros s. unfold writeNode. apply nv_bind; [destruct b; nvs|]. intros [] s1. apply nv_bind; [nvs|]. intros n s2. apply np_getT.
  destruct (Nat.ltb _ _); [nvs|]. apply nv_bind; [nvs|]. intros a' s3. apply nv_bind; [nvs|]. intros i s4.
  apply np_loadN. intros n' Hn'. apply np_bind; [by eapply np_storeN|]. intros; nvs.
Qed.
Lemma nv_updN a f : kc f -> nv (updN (V:=V) a f).
Proof. intros Hf s. unfold updN. apply np_loadN. intros n Hn. apply np_lift. intros n' E. eapply np_storeN; [exact Hn|by apply Hf]. Qed.
Lemma nv_writeLeaf a b : nv (writeLeaf (V:=V) a b).
Proof.
  intros s. unfold writeLeaf. apply nv_bind; [destruct b; nvs|]. intros [] s1. apply nv_bind; [nvs|]. intros n s2. apply np_getT.
  destruct (Nat.ltb _ _); [nvs|]. apply nv_bind; [apply nv_liftH, ho_cloneL|]. intros a' s3. nvs.
Qed.
Lemma nv_allocNode k : nv (allocNode (V:=V) k).
Proof. intros s. unfold allocNode. apply nv_bind; [nvs|]. intros i s1. apply nv_np, nv_allocN. by destruct k. Qed.
Lemma nv_allocLeaf : nv (allocLeaf (V:=V)).
Proof. intros s. unfold allocLeaf. apply nv_bind; [nvs|]. intros i s1. apply nv_np, nv_liftH, ho_allocL. Qed.
Hint Resolve nv_writeNode nv_writeLeaf nv_updN nv_allocNode nv_allocLeaf : nvdb.
Hint Resolve kc_setChildN kc_setKeyAtIdx kc_insertSorted kc_insert48 kc_insert256 kc_copyHeader kc_fill48 kc_fill256 kc_fill16 kc_fill48from256 : nvdb.
Hint Extern 1 (kc (fun n => Ok _)) => (by apply kc_ok) : nvdb.
Lemma nv_setNodeLeaf a l : nv (setNodeLeaf (V:=V) a l).
Proof. unfold setNodeLeaf. nvs. Qed.
Lemma nv_setChild a i c : nv (setChild (V:=V) a i c).
Proof. unfold setChild. nvs. Qed.
Lemma nv_setKV l k v : nv (setKV (V:=V) l k v).
Proof. unfold setKV. nvs. Qed.
Lemma nv_copyPartial a src : nv (copyPartial (V:=V) a src).
Proof. unfold copyPartial. nvs. Qed.
Hint Resolve nv_setNodeLeaf nv_setChild nv_setKV nv_copyPartial : nvdb.
Lemma nv_makeLeaf k v : nv (makeLeaf (V:=V) k v).
Proof. unfold makeLeaf. nvs. Qed.
Lemma nv_moveLeaf a l : nv (moveLeaf (V:=V) a l).
Proof. unfold moveLeaf. nvs. Qed.
Hint Resolve nv_makeLeaf nv_moveLeaf : nvdb.
Lemma nv_addChild256 a c d : nv (addChild256 (V:=V) a c d).
Proof. unfold addChild256. nvs. Qed.
Hint Resolve nv_addChild256 : nvdb.
Lemma nv_addChild48 a c d : nv (addChild48 (V:=V) a c d).
Proof. unfold addChild48. nvs. Qed.
Hint Resolve nv_addChild48 : nvdb.
Lemma nv_addChild16 a c d : nv (addChild16 (V:=V) a c d).
Proof. unfold addChild16. nvs. Qed.
Hint Resolve nv_addChild16 : nvdb.
Lemma nv_addChild4 a c d : nv (addChild4 (V:=V) a c d).
Proof. unfold addChild4. nvs. Qed.
Hint Resolve nv_addChild4 : nvdb.
Lemma nv_addChild a c d : nv (addChild (V:=V) a c d).
Proof. unfold addChild. nvs. Qed.
Lemma nv_removeChild a c : nv (removeChild (V:=V) a c).
Proof.
  intros s. unfold removeChild. apply nv_bind; [nvs|]. intros n0 s0. destruct (n_kind n0).
  - unfold removeChild4. apply nv_bind; [nvs|]. intros n s1. apply nv_bind; [nvs|]. intros [stale n1] s2. apply nv_bind; [nvs|]. intros [] s3.
    apply np_loadN. intros n2 Hn2. apply np_bind; [by eapply np_storeN|]. intros [] s4 _. apply nv_bind; [nvs|]. intros n3 s5. destruct (_ && _); [|nvs].
    apply nv_bind; [nvs|]. intros [ch|] s6; [|nvs]. apply nv_bind; [nvs|]. intros nr s7. apply np_loadN. intros n4 Hn4. apply np_loadN. intros n5 Hn5.
    apply np_lift. intros [part ch'] E. apply np_bind; [by eapply np_storeN|]. intros [] s8 E8. unfold storeN, liftH, hstoreN in E8. cbn in E8. injection E8 as <-.
    apply np_bind; [|intros; nvs]. apply mergePrefix_ch in E. destruct (decide (nr = a)) as [->|Hne].
    + eapply np_storeN; [cbn; apply lookup_insert|]. cbn. congruence.
    + eapply np_storeN; [cbn; rewrite lookup_insert_ne by done; exact Hn5|done].
  - unfold removeChild16. apply nv_bind; [nvs|]. intros n s1. apply nv_bind; [nvs|]. intros [stale n1] s2. apply nv_bind; [nvs|]. intros [] s3.
    apply np_loadN. intros n2 Hn2. apply np_bind; [by eapply np_storeN|]. intros [] s4 _. nvs.
  - unfold removeChild48. nvs.
  - unfold removeChild256. nvs.
Qed.
Hint Resolve nv_addChild nv_removeChild : nvdb.

Lemma nv_recursiveInsert key value : forall fuel,
  (forall node depth, nv (recursiveInsert (V:=V) fuel node key value depth)) /\ (forall node depth, nv (insertInner (V:=V) fuel node key value depth)).
Proof.
  induction fuel as [|fuel [IH1 IH2]]; (split; intros node depth; [cbn [recursiveInsert]|cbn [insertInner]]); [nvs..| |].
  - intros s. apply np_getT. destruct (_ =? 0)%N; [nvs|]. apply nv_bind; [nvs|]. intros n s1. destruct (n_leaf n) as [nodeLeaf|]; [|apply IH2].
    apply nv_bind; [nvs|]. intros nl s2. destruct (isLeafN n); [nvs|]. destruct (leafMatches (l_key nl) key) eqn:Em; [nvs|apply IH2].
  - intros s. apply nv_bind; [nvs|]. intros n s1. destruct (Nat.ltb 0 (n_plen n)); nvs.
Qed.
Lemma nv_txnInsert k v : nv (txnInsert (V:=V) k v).
Proof.
  intros s. unfold txnInsert. apply np_getT. apply nv_bind; [by apply nv_recursiveInsert|]. intros [[[newRoot oldVal] m] old] s1. apply np_getT.
  apply np_bind; [|intros; nvs]. destruct old; by apply np_putT.
Qed.
Lemma nv_installEmptyRoot : nv (installEmptyRoot (V:=V)).
Proof.
  intros s. unfold installEmptyRoot. apply np_getT. apply np_bind; [by apply nv_liftH, ho_allocL|]. intros l s1 E1. apply liftH_t in E1.
  apply np_bind; [by apply nv_allocN|]. intros r s2 E2. apply liftH_t in E2. apply np_putT; cbn; congruence.
Qed.
Hint Resolve nv_installEmptyRoot : nvdb.
Lemma nv_recursiveDelete key : forall fuel node depth, nv (recursiveDelete (V:=V) fuel node key depth).
Proof. induction fuel as [|fuel IH]; intros node depth; cbn [recursiveDelete]; [nvs|]. nvs. Qed.
Hint Resolve nv_recursiveDelete : nvdb.
Lemma nv_txnDelete k : nv (txnDelete (V:=V) k).
Proof. unfold txnDelete. nvs. Qed.
Lemma nv_deletePrefix key : forall fuel node depth, nv (deletePrefix (V:=V) fuel node key depth).
Proof.
  induction fuel as [|fuel IH]; intros node depth; cbn [deletePrefix]; [nvs|]. destruct node as [node|]; [|nvs]. intros s. apply nv_bind; [nvs|]. intros n s1.
  destruct (isLeafN n); [nvs|]. apply nv_bind; [nvs|]. intros d s2. apply nv_bind; [nvs|]. intros nd s3.
  apply nv_bind.
  - match goal with |- nv (?f _ _ _ _) => assert (Hl : forall chs idx m nd, nv (f chs idx m nd)); [|apply Hl] end.
    induction chs as [|[ch|] chs IHc]; intros idx m nd'; [nvs| |apply IHc].
    intros s0. apply nv_bind; [apply IH|]. intros [newCh del] s4. apply nv_bind; [nvs|]. intros [] s5. apply IHc.
  - intros [m nd'] s4. apply nv_bind; [nvs|]. intros node' s5. apply np_loadN. intros n1 Hn1. apply np_lift. intros [[n2 slow] numCh] E.
    apply np_bind; [|intros; nvs]. eapply np_storeN; [exact Hn1|]. cbn. by eapply compact_ch.
Qed.
Hint Resolve nv_deletePrefix : nvdb.
Lemma nv_txnDeletePrefix k : nv (txnDeletePrefix (V:=V) k).
Proof. unfold txnDeletePrefix. nvs. Qed.
End KeepN.
