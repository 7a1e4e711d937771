(** What every update leaves alone, whatever the memory looks like: it closes no channel, keeps the tracking flag,
    records channels only when tracking, and the contents of every leaf are old, or empty, or the pair
    being inserted. *)
From Verif Require Export TreeOps Rep.
From stdpp Require Import list.
Local Open Scope nat_scope.

Section Prims.
Context {V : Type} `{GoZero V}.
Notation TM := (M (st V)).
Notation HM := (M (heap V)).
(** the pairs (with terminator) that may be stored *)
Variable K : bytes -> V -> Prop.

(** contents of leaves *)
Definition content (h : heap V) (k : bytes) (v : V) : Prop := exists x l, h_leaves h !! x = Some l /\ l_key l = k /\ l_val l = v.
Record RH (h h' : heap V) : Prop := mk_RH {
  rh_next : h_next h <= h_next h';
  rh_nextch : h_nextch h <= h_nextch h';
  rh_closed : h_closed h' = h_closed h;
  rh_leaf : forall k v, content h' k v -> content h k v \/ (k = [] /\ v = go_zero) \/ K k v }.
Record R (s s' : st V) : Prop := mk_R {
  r_h : RH (s_h s) (s_h s');
  r_track : t_track (s_t s') = t_track (s_t s);
  r_om : t_oldmax (s_t s') = t_oldmax (s_t s);
  r_chs : exists ex, t_chs (s_t s') = t_chs (s_t s) ++ ex /\ (t_track (s_t s) = false -> ex = []) }.

Lemma RH_refl h : RH h h.
Proof. split; auto. Qed.
Lemma RH_trans h1 h2 h3 : RH h1 h2 -> RH h2 h3 -> RH h1 h3.
Proof.
  intros [A1 A2 A3 A4] [B1 B2 B3 B4]. split; [lia|lia|congruence|]. intros k v Hc. destruct (B4 _ _ Hc) as [Hc'|?]; [|by right]. by apply A4.
Qed.
Lemma R_refl s : R s s.
Proof. split; [apply RH_refl|done..|]. exists []. by rewrite app_nil_r. Qed.
Lemma R_trans s1 s2 s3 : R s1 s2 -> R s2 s3 -> R s1 s3.
Proof.
  intros [A1 A2 A3 (e1 & A4 & A5)] [B1 B2 B3 (e2 & B4 & B5)]. split; [by eapply RH_trans|congruence..|].
  exists (e1 ++ e2). rewrite B4, A4, app_assoc. split; [done|]. intros Ht. rewrite A5, B5; [done|congruence|done].
Qed.

(** ** Rules *)
Definition hp {A} (m : HM A) : Prop := forall h, RH h (m h).2.
Definition pr {A} (m : TM A) (s : st V) : Prop := R s (m s).2.
Definition pv {A} (m : TM A) : Prop := forall s, pr m s.

Lemma hp_bind {A B} (m : HM A) (k : A -> HM B) : hp m -> (forall a, hp (k a)) -> hp (bind m k).
Proof.
  intros Hm Hk h. specialize (Hm h). unfold bind. destruct (m h) as [[a| |] h']; cbn in *; [|done..]. eapply RH_trans; [exact Hm|apply Hk].
Qed.
Lemma hp_ret {A} (a : A) : hp (ret a).
Proof. intros h. apply RH_refl. Qed.
Lemma pr_bind {A B} (m : TM A) (k : A -> TM B) s : pr m s -> (forall a s', m s = (Ok a, s') -> pr (k a) s') -> pr (bind m k) s.
Proof.
  unfold pr, bind. intros Hm Hk. destruct (m s) as [[a| |] s'] eqn:E; cbn in *; [|done..]. eapply R_trans; [exact Hm|by apply Hk].
Qed.
Lemma pv_bind {A B} (m : TM A) (k : A -> TM B) s : pv m -> (forall a s', pr (k a) s') -> pr (bind m k) s.
Proof. intros Hm Hk. apply pr_bind; [apply Hm|intros; apply Hk]. Qed.
Lemma pv_ret {A} (a : A) : pv (ret a).
Proof. intros s. apply R_refl. Qed.
Lemma pv_panic {A} : pv (panic (A:=A)).
Proof. intros s. apply R_refl. Qed.
Lemma pv_nofuel {A} : pv (nofuel (A:=A)).
Proof. intros s. apply R_refl. Qed.
Lemma pv_lift {A} (o : outcome A) : pv (lift o).
Proof. intros s. apply R_refl. Qed.
Lemma pv_getH : pv getH.
Proof. intros s. apply R_refl. Qed.
Lemma pv_byteAt k i : pv (byteAt k i).
Proof. unfold byteAt. destruct (k !! i); [apply pv_ret|apply pv_panic]. Qed.
Lemma pr_getT {B} (k : txn -> TM B) s : pr (k (s_t s)) s -> pr (bind getT k) s.
Proof. intros Hk. exact Hk. Qed.
Lemma pv_liftH {A} (m : HM A) : hp m -> pv (liftH m).
Proof.
  intros Hm s. specialize (Hm (s_h s)). unfold pr, liftH. destruct (m (s_h s)) as [o h]. cbn in *. split; cbn; [done..|].
  exists []. by rewrite app_nil_r.
Qed.
Lemma pr_putT t s : t_track t = t_track (s_t s) -> t_oldmax t = t_oldmax (s_t s) -> t_chs t = t_chs (s_t s) -> pr (putT t) s.
Proof. intros H1 H2 H3. split; cbn; [apply RH_refl|done..|]. exists []. by rewrite app_nil_r. Qed.

Lemma hp_loadN a : hp (hloadN a).
Proof. intros h. unfold hloadN. destruct (h_nodes h !! a); apply RH_refl. Qed.
Lemma hp_loadL a : hp (hloadL (V:=V) a).
Proof. intros h. unfold hloadL. destruct (h_leaves h !! a); apply RH_refl. Qed.
Lemma hp_storeN a n : hp (hstoreN a n).
Proof. intros h. split; cbn; auto. Qed.
Lemma hp_allocN n : hp (hallocN n).
Proof. intros h. split; cbn; auto. Qed.
Lemma RH_leaf h a l n m : (content h (l_key l) (l_val l) \/ (l_key l = [] /\ l_val l = go_zero) \/ K (l_key l) (l_val l)) -> h_next h <= n -> h_nextch h <= m ->
  RH h (mkH (h_nodes h) (<[a := l]> (h_leaves h)) n m (h_closed h)).
Proof.
  intros Hl Hn Hm. split; cbn; [done..|]. intros k v (x & l' & Hx & <- & <-). cbn in Hx. apply lookup_insert_Some in Hx as [[-> ->]|[_ Hx]]; [done|].
  left. by exists x, l'.
Qed.
Lemma hp_allocL l : (l_key l = [] /\ l_val l = go_zero) \/ K (l_key l) (l_val l) -> hp (hallocL l).
Proof. intros Hl h. apply RH_leaf; [by right|lia|lia]. Qed.
Lemma hp_makeChan : hp (hmakeChan (V:=V)).
Proof. intros h. split; cbn; auto. Qed.
Lemma hp_getMutateChN a : hp (getMutateChN a).
Proof.
  apply hp_bind; [apply hp_loadN|]. intros n. destruct (n_ch n); [apply hp_ret|]. apply hp_bind; [apply hp_makeChan|]. intros c.
  apply hp_bind; [apply hp_storeN|]. intros []. apply hp_ret.
Qed.
Lemma hp_getMutateChL a : hp (getMutateChL (V:=V) a).
Proof.
  intros h. unfold getMutateChL, bind at 1, hloadL. destruct (h_leaves h !! a) as [l|] eqn:E; [|apply RH_refl].
  destruct (l_ch l); [apply RH_refl|]. unfold bind, hmakeChan, hstoreL. cbn. apply (RH_leaf h a (setl_ch l (Some (h_nextch h))) (h_next h) (S (h_nextch h))); cbn; [|lia..]. left. by exists a, l.
Qed.
Lemma hp_setMutateChN a c : hp (setMutateChN a c).
Proof. apply hp_bind; [apply hp_loadN|]. intros n. apply hp_storeN. Qed.
Lemma hp_setMutateChL a c : hp (setMutateChL (V:=V) a c).
Proof.
  intros h. unfold setMutateChL, bind at 1, hloadL. destruct (h_leaves h !! a) as [l|] eqn:E; [|apply RH_refl].
  apply RH_leaf; cbn; [|lia..]. left. by exists a, l.
Qed.
Lemma hp_cloneN a b : hp (cloneN a b).
Proof.
  unfold cloneN. apply hp_bind.
  - destruct b; [apply hp_bind; [apply hp_getMutateChN|intros; apply hp_ret]|apply hp_ret].
  - intros c. apply hp_bind; [apply hp_loadN|]. intros n. apply hp_allocN.
Qed.
Lemma cloneL_ok a b (h : heap V) a' h' : cloneL a b h = (Ok a', h') ->
  exists l l', h_leaves h !! a = Some l /\ h_leaves h' !! a' = Some l' /\ l_key l' = l_key l /\ l_val l' = l_val l.
Proof.
  unfold cloneL, getMutateChL, bind, hloadL, hallocL, ret, hmakeChan, hstoreL. destruct b.
  - destruct (h_leaves h !! a) as [l|] eqn:E; [|done]. destruct (l_ch l) eqn:Ec.
    + rewrite E. intros [= <- <-]. exists l. eexists. cbn. by rewrite lookup_insert.
    + cbn. rewrite lookup_insert. intros [= <- <-]. exists l. eexists. cbn. by rewrite lookup_insert.
  - destruct (h_leaves h !! a) as [l|] eqn:E; [|done]. intros [= <- <-]. exists l. eexists. cbn. by rewrite lookup_insert.
Qed.
Lemma hp_cloneL a b : hp (cloneL (V:=V) a b).
Proof.
  intros h. unfold cloneL. unfold bind at 1.
  assert (Hc : exists o h1, (if b then let! c := getMutateChL a in ret (Some c) else ret None) h = (o, h1) /\ RH h h1).
  { destruct b; [|by exists (Ok None), h; split; [|apply RH_refl]]. do 2 eexists. split; [apply surjective_pairing|].
    apply (hp_bind (getMutateChL a) (fun c => ret (Some c)) (hp_getMutateChL a) ltac:(intros; apply hp_ret)). }
  destruct Hc as (o & h1 & -> & Hr). destruct o as [c| |]; [|done..]. eapply RH_trans; [exact Hr|].
  unfold bind, hloadL. destruct (h_leaves h1 !! a) as [l|] eqn:E; [|apply RH_refl]. apply RH_leaf; cbn; [|lia..]. left. by exists a, l.
Qed.

Lemma pv_loadN a : pv (loadN (V:=V) a).
Proof. apply pv_liftH, hp_loadN. Qed.
Lemma pv_loadL a : pv (loadL (V:=V) a).
Proof. apply pv_liftH, hp_loadL. Qed.
Lemma pv_storeN a n : pv (storeN (V:=V) a n).
Proof. apply pv_liftH, hp_storeN. Qed.
Lemma pr_loadL {B} a (k : lnode V -> TM B) s : (forall l, h_leaves (s_h s) !! a = Some l -> pr (k l) s) -> pr (bind (loadL a) k) s.
Proof.
  intros Hk. apply pr_bind; [apply pv_loadL|]. intros l s'. unfold loadL, liftH, hloadL. destruct s as [h t]. cbn in *.
  destruct (h_leaves h !! a) as [l0|] eqn:E; [|done]. intros [= <- <-]. by apply Hk.
Qed.
Lemma pr_storeL a l s : (content (s_h s) (l_key l) (l_val l) \/ (l_key l = [] /\ l_val l = go_zero) \/ K (l_key l) (l_val l)) -> pr (storeL a l) s.
Proof.
  intros Hl. unfold pr, storeL, liftH, hstoreL. cbn. split; cbn; [by apply RH_leaf|done..|]. exists []. by rewrite app_nil_r.
Qed.
Lemma pv_nextId : pv (nextId (V:=V)).
Proof. intros s. apply pr_getT. apply pr_bind; [by apply pr_putT|]. intros [] s' _. apply pv_ret. Qed.
Lemma pv_tracked {B} (m : TM B) (a : chan) (k : unit -> TM B) s : t_track (s_t s) = true -> (forall s', pr (k tt) s') -> pr (bind (addTracked a) k) s.
Proof.
  intros Ht Hk. apply pr_bind; [|intros [] s' _; apply Hk]. unfold addTracked, pr, bind, getT, putT. cbn. split; cbn; [apply RH_refl|done..|].
  exists [a]. split; [done|]. by rewrite Ht.
Qed.
Lemma liftH_t {A} (m : HM A) s o s' : liftH m s = (o, s') -> s_t s' = s_t s.
Proof. unfold liftH. destruct (m (s_h s)). by intros [= <- <-]. Qed.
Lemma pv_trackN a : pv (trackN (V:=V) a).
Proof.
  intros s. unfold trackN. apply pr_getT. apply pr_bind; [apply R_refl|]. intros live s' [= <- <-].
  destruct (t_track (s_t s)) eqn:Et; cbn [andb]; [|apply pv_ret]. destruct (bool_decide _); [|apply pv_ret].
  apply pr_bind; [apply pv_liftH, hp_getMutateChN|]. intros c s' E. apply liftH_t in E.
  eapply pv_tracked; [exact (ret tt)|by rewrite E|]. intros s1. apply pv_bind; [apply pv_liftH, hp_makeChan|].
  intros c' s2. apply pv_liftH, hp_setMutateChN.
Qed.
Lemma pv_trackL a : pv (trackL (V:=V) a).
Proof.
  intros s. unfold trackL. apply pr_getT. apply pr_bind; [apply R_refl|]. intros live s' [= <- <-].
  destruct (t_track (s_t s)) eqn:Et; cbn [andb]; [|apply pv_ret]. destruct (bool_decide _); [|apply pv_ret].
  apply pr_bind; [apply pv_liftH, hp_getMutateChL|]. intros c s' E. apply liftH_t in E.
  eapply pv_tracked; [exact (ret tt)|by rewrite E|]. intros s1. apply pv_bind; [apply pv_liftH, hp_makeChan|].
  intros c' s2. apply pv_liftH, hp_setMutateChL.
Qed.
Lemma pv_trackOptL o : pv (trackOptL (V:=V) o).
Proof. destruct o; [apply pv_trackL|apply pv_ret]. Qed.
Lemma pv_trackAllN l : pv (trackAllN (V:=V) l).
Proof. induction l as [|a l IH]; [apply pv_ret|]. intros s. apply pv_bind; [apply pv_trackN|]. intros [] s'. apply IH. Qed.

Hint Resolve pv_ret pv_panic pv_nofuel pv_lift pv_getH pv_byteAt pv_loadN pv_loadL pv_storeN pv_nextId pv_trackN pv_trackL pv_trackOptL pv_trackAllN : pvdb.
Lemma pv_pr {A} (m : TM A) s : pv m -> pr m s.
Proof. intros Hm. apply Hm. Qed.
Ltac pvs :=
  repeat first
    [ match goal with
      | |- pr (bind getT _) _ => apply pr_getT
      | |- pr (bind (putT _) _) _ => apply pr_bind; [apply pr_putT; reflexivity|intros ???]
      | |- pr (bind ?m _) _ => apply pv_bind; [solve [auto with pvdb | let s := fresh in intros s; solve [pvs]]|intros ??]
      | |- pr (if ?b then _ else _) _ => destruct b
      | |- pr (match ?x with _ => _ end) _ => destruct x
      | |- pr (putT _) _ => apply pr_putT; reflexivity
      | |- pr _ _ => solve [apply pv_pr; auto with pvdb]
      end
    | match goal with |- pv _ => let s := fresh in intros s end ].

Lemma pv_writeNode a b : pv (writeNode (V:=V) a b).
Proof.
  intros s. unfold writeNode. apply pv_bind; [destruct b; pvs|]. intros [] s1. pvs.
  apply pv_bind; [apply pv_liftH, hp_cloneN|]. intros a' s2. pvs.
Qed.
Lemma pv_writeLeaf a b : pv (writeLeaf (V:=V) a b).
Proof.
  intros s. unfold writeLeaf. apply pv_bind; [destruct b; pvs|]. intros [] s1. apply pr_loadL. intros l Hl. apply pr_getT.
  destruct (Nat.ltb _ _); [pvs|]. apply pv_bind; [apply pv_liftH, hp_cloneL|]. intros a' s2. apply pv_bind; [pvs|]. intros i s3.
  apply pr_loadL. intros l' Hl'. apply pr_bind; [|intros [] s4 _; pvs]. apply pr_storeL. cbn. left. by exists a', l'.
Qed.
Lemma pv_updN a f : pv (updN (V:=V) a f).
Proof. unfold updN. pvs. Qed.
Lemma pv_allocNode k : pv (allocNode (V:=V) k).
Proof. intros s. unfold allocNode. apply pv_bind; [pvs|]. intros i s1. apply pv_pr, pv_liftH, hp_allocN. Qed.
Lemma pv_allocLeaf : pv (allocLeaf (V:=V)).
Proof. intros s. unfold allocLeaf. apply pv_bind; [pvs|]. intros i s1. apply pv_pr, pv_liftH, hp_allocL. by left. Qed.
Hint Resolve pv_writeNode pv_writeLeaf pv_updN pv_allocNode pv_allocLeaf : pvdb.
Lemma pv_setNodeLeaf a l : pv (setNodeLeaf (V:=V) a l).
Proof. unfold setNodeLeaf. pvs. Qed.
Lemma pv_setChild a i c : pv (setChild (V:=V) a i c).
Proof. unfold setChild. pvs. Qed.
Lemma pv_setKV l k v : K k v -> pv (setKV l k v).
Proof. intros HK s. unfold setKV. apply pr_loadL. intros x _. apply pr_storeL. cbn. by right; right. Qed.
Lemma pv_copyPartial a src : pv (copyPartial (V:=V) a src).
Proof. unfold copyPartial. pvs. Qed.
Hint Resolve pv_setNodeLeaf pv_setChild pv_setKV pv_copyPartial : pvdb.
Lemma pv_makeLeaf k v : K k v -> pv (makeLeaf k v).
Proof.
  intros HK s. unfold makeLeaf. apply pv_bind; [pvs|]. intros l s1. apply pv_bind; [pvs|]. intros i s2. apply pr_loadL. intros x _.
  apply pr_bind; [apply pr_storeL; cbn; by right; right|]. intros [] s3 _. pvs.
Qed.
Lemma pv_moveLeaf a l : pv (moveLeaf (V:=V) a l).
Proof. unfold moveLeaf. pvs. Qed.
Hint Resolve pv_makeLeaf pv_moveLeaf : pvdb.
Lemma pv_addChild256 a c d : pv (addChild256 (V:=V) a c d).
Proof. unfold addChild256. pvs. Qed.
Hint Resolve pv_addChild256 : pvdb.
Lemma pv_addChild48 a c d : pv (addChild48 (V:=V) a c d).
Proof. unfold addChild48. pvs. Qed.
Hint Resolve pv_addChild48 : pvdb.
Lemma pv_addChild16 a c d : pv (addChild16 (V:=V) a c d).
Proof. unfold addChild16. pvs. Qed.
Hint Resolve pv_addChild16 : pvdb.
Lemma pv_addChild4 a c d : pv (addChild4 (V:=V) a c d).
Proof. unfold addChild4. pvs. Qed.
Hint Resolve pv_addChild4 : pvdb.
Lemma pv_addChild a c d : pv (addChild (V:=V) a c d).
Proof. unfold addChild. pvs. Qed.
Lemma pv_removeChild a c : pv (removeChild (V:=V) a c).
Proof. unfold removeChild, removeChild4, removeChild16, removeChild48, removeChild256. pvs. Qed.
Hint Resolve pv_addChild pv_removeChild : pvdb.

(** ** Insert *)
(** writeLeaf keeps the key *)
Lemma track_key a s o s' l : trackL (V:=V) a s = (o, s') -> h_leaves (s_h s) !! a = Some l -> exists l', h_leaves (s_h s') !! a = Some l' /\ l_key l' = l_key l.
Proof.
  intros E Hl. unfold trackL, bind, getT in E. cbn in E. rewrite bool_decide_eq_true_2 in E by eauto. destruct (t_track (s_t s)); cbn in E; [|injection E as <- <-; eauto].
  unfold liftH, getMutateChL, bind, hloadL in E. cbn in E. rewrite Hl in E. destruct (l_ch l).
  - cbn in E. unfold addTracked, bind, getT, putT, setMutateChL, hloadL, hmakeChan, bind in E. cbn in E. rewrite Hl in E. cbn in E. injection E as <- <-. cbn.
    rewrite lookup_insert. eauto.
  - cbn in E. unfold addTracked, bind, getT, putT, setMutateChL, hloadL, hmakeChan, bind in E. cbn in E. rewrite lookup_insert in E. cbn in E. injection E as <- <-. cbn.
    rewrite lookup_insert. eauto.
Qed.
Lemma writeLeaf_key a b s a' s' l : writeLeaf (V:=V) a b s = (Ok a', s') -> h_leaves (s_h s) !! a = Some l -> exists l', h_leaves (s_h s') !! a' = Some l' /\ l_key l' = l_key l.
Proof.
  intros E Hl. unfold writeLeaf in E. unfold bind at 1 in E.
  assert (Ht : exists o s1 l1, (if b then trackL a else ret tt) s = (o, s1) /\ h_leaves (s_h s1) !! a = Some l1 /\ l_key l1 = l_key l).
  { destruct b; [|by exists (Ok tt), s, l]. destruct (trackL a s) as [o s1] eqn:Et. destruct (track_key _ _ _ _ _ Et Hl) as (l1 & H1 & H2). by exists o, s1, l1. }
  destruct Ht as (o & s1 & l1 & Et & Hl1 & Hk). rewrite Et in E. destruct o as [[]| |]; [|done..].
  unfold bind at 1 in E. unfold loadL, liftH, hloadL in E. destruct s1 as [h1 t1]. cbn in Hl1. cbn [s_h s_t] in E. rewrite Hl1 in E. unfold bind at 1, getT in E. cbn [s_t] in E.
  destruct (Nat.ltb _ _); [injection E as <- <-; cbn; eauto|]. unfold bind at 1, liftH in E. cbn [s_h s_t] in E. destruct (cloneL a (negb b) h1) as [[a1| |] h2] eqn:Ec; [|done..].
  destruct (cloneL_ok _ _ _ _ _ Ec) as (l2 & l3 & H2 & H3 & H4 & _). rewrite Hl1 in H2. injection H2 as <-.
  unfold bind, nextId, getT, putT, bind, ret, storeL, liftH, hstoreL in E. cbn in E. rewrite H3 in E. injection E as <- <-. cbn. rewrite lookup_insert.
  eexists. split; [done|]. cbn. congruence.
Qed.

Lemma pv_recursiveInsert key value : K key value -> forall fuel,
  (forall node depth, pv (recursiveInsert fuel node key value depth)) /\ (forall node depth, pv (insertInner fuel node key value depth)).
Proof.
  intros HK. induction fuel as [|fuel [IH1 IH2]]; (split; intros node depth; [cbn [recursiveInsert]|cbn [insertInner]]); [pvs..| |].
  - intros s. apply pr_getT. destruct (_ =? 0)%N; [pvs|]. apply pv_bind; [pvs|]. intros n s1. destruct (n_leaf n) as [nodeLeaf|]; [|apply IH2].
    apply pr_loadL. intros nl Hnl. destruct (isLeafN n).
    + pvs.
    + destruct (leafMatches (l_key nl) key) eqn:Em; [|apply IH2].
      apply pr_bind; [pvs|]. intros newLeaf s2 Ew. destruct (writeLeaf_key _ _ _ _ _ _ Ew Hnl) as (l' & Hl' & Hk).
      apply pr_loadL. intros x Hx. rewrite Hl' in Hx. injection Hx as <-. apply pr_bind; [|intros; pvs].
      apply pr_storeL. cbn. right. right. rewrite Hk. apply leafMatches_true in Em as ->. done.
  - intros s. apply pv_bind; [pvs|]. intros n s1. destruct (Nat.ltb 0 (n_plen n)); pvs.
Qed.
Lemma pv_txnInsert k v : K (getTreeKey k) v -> pv (txnInsert k v).
Proof.
  intros HK s. unfold txnInsert. apply pr_getT. apply pv_bind; [by apply pv_recursiveInsert|]. intros [[[newRoot oldVal] m] old] s1. apply pr_getT.
  apply pr_bind; [|intros; pvs]. destruct old; by apply pr_putT.
Qed.

(** ** Delete and DeletePrefix *)
Lemma pv_installEmptyRoot : pv (installEmptyRoot (V:=V)).
Proof.
  intros s. unfold installEmptyRoot. apply pr_getT. apply pr_bind; [apply pv_liftH, hp_allocL; by left|]. intros l s1 E1. apply liftH_t in E1.
  apply pr_bind; [apply pv_liftH, hp_allocN|]. intros r s2 E2. apply liftH_t in E2. apply pr_putT; cbn; congruence.
Qed.
Hint Resolve pv_installEmptyRoot : pvdb.
Lemma pv_recursiveDelete key : forall fuel node depth, pv (recursiveDelete fuel node key depth).
Proof. induction fuel as [|fuel IH]; intros node depth; cbn [recursiveDelete]; [pvs|]. pvs. Qed.
Hint Resolve pv_recursiveDelete : pvdb.
Lemma pv_txnDelete k : pv (txnDelete (V:=V) k).
Proof. unfold txnDelete. pvs. Qed.
Lemma pv_deletePrefix key : forall fuel node depth, pv (deletePrefix (V:=V) fuel node key depth).
Proof.
  induction fuel as [|fuel IH]; intros node depth; cbn [deletePrefix]; [pvs|]. destruct node as [node|]; [|pvs]. intros s. apply pv_bind; [pvs|]. intros n s1.
  destruct (isLeafN n); [pvs|]. apply pv_bind; [pvs|]. intros d s2. apply pv_bind; [pvs|]. intros nd s3.
  apply pv_bind; [|intros [m nd'] s4; pvs].
  match goal with |- pv (?f _ _ _ _) => assert (Hl : forall chs idx m nd, pv (f chs idx m nd)); [|apply Hl] end.
  induction chs as [|[ch|] chs IHc]; intros idx m nd'; [pvs| |apply IHc].
  intros s0. apply pv_bind; [apply IH|]. intros [newCh del] s4. apply pv_bind; [pvs|]. intros [] s5. apply IHc.
Qed.
Hint Resolve pv_deletePrefix : pvdb.
Lemma pv_txnDeletePrefix k : pv (txnDeletePrefix (V:=V) k).
Proof. unfold txnDeletePrefix. pvs. Qed.

(** ** Trees and watches *)
Lemma hp_getWatchFrom r k : hp (getWatchFrom (V:=V) r k).
Proof.
  apply hp_bind; [intros h; apply RH_refl|]. intros h. apply hp_bind; [intros h'; apply RH_refl|]. intros [la|a].
  - apply hp_bind; [apply hp_loadL|]. intros l. apply hp_bind; [apply hp_getMutateChL|]. intros c. apply hp_ret.
  - apply hp_bind; [apply hp_getMutateChN|]. intros c. apply hp_ret.
Qed.
Lemma hp_newTxn t : hp (newTxn (V:=V) t).
Proof. apply hp_bind; [apply hp_cloneN|]. intros; apply hp_ret. Qed.
Lemma hp_cloneTxn t : hp (cloneTxn (V:=V) t).
Proof. apply hp_bind; [apply hp_cloneN|]. intros; apply hp_ret. Qed.
Lemma hp_cloneTree t : hp (cloneTree (V:=V) t).
Proof. apply hp_bind; [apply hp_cloneN|]. intros; apply hp_ret. Qed.
Lemma hp_newTree : hp (newTree (V:=V)).
Proof. apply hp_bind; [apply hp_allocL; by left|]. intros l. apply hp_bind; [apply hp_allocN|]. intros; apply hp_ret. Qed.
(** an update on a tree does not track, so its Commit does not notify *)
Lemma hp_withTxn {A} t (m : TM A) : pv m -> hp (withTxn t m).
Proof.
  intros Hm h. unfold withTxn. pose proof (hp_newTxn t h) as Hn. destruct (newTxn t h) as [[tx| |] h1] eqn:En; cbn in *; [|done..].
  assert (Ht : t_track tx = false). { unfold newTxn, bind in En. destruct (cloneN _ _ h) as [[r| |] h2]; [|done..]. by injection En as <- <-. }
  pose proof (Hm (mkS h1 tx)) as Hr. unfold pr in Hr. destruct (m (mkS h1 tx)) as [[a| |] s]; cbn in Hr; destruct Hr as [R1 R2 R3 R4]; cbn in *.
  - unfold commit, bind, getT. rewrite R2, Ht. cbn. by eapply RH_trans.
  - by eapply RH_trans.
  - by eapply RH_trans.
Qed.
End Prims.
