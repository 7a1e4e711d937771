(** The programs do not look at values: if two memories differ only in the values of the leaves, related by
    a function f, then so do the memories after every update. *)
From Verif Require Export TreeOps Erase World.
From stdpp Require Import list.
Local Open Scope nat_scope.

Section Tag.
Context {V W : Type} `{GoZero V} `{GoZero W} (f : W -> V) (Hz : f go_zero = go_zero).

Definition fl (l : lnode W) : lnode V := mkL (l_id l) (f (l_val l)) (l_key l) (l_ch l).
Definition fh (h : heap W) : heap V := mkH (h_nodes h) (fl <$> h_leaves h) (h_next h) (h_nextch h) (h_closed h).
Definition fs (s : st W) : st V := mkS (fh (s_h s)) (s_t s).

Definition vs {A B} (g : A -> B) (m : M (st W) A) (m0 : M (st V) B) : Prop := forall s, m0 (fs s) = (omapo g (m s).1, fs (m s).2).
Definition vh {A B} (g : A -> B) (m : M (heap W) A) (m0 : M (heap V) B) : Prop := forall h, m0 (fh h) = (omapo g (m h).1, fh (m h).2).

Lemma vs_ret {A B} (g : A -> B) a b : g a = b -> vs g (ret a) (ret b).
Proof. by intros <- s. Qed.
Lemma vs_panic {A B} (g : A -> B) : vs g panic panic.
Proof. done. Qed.
Lemma vs_nofuel {A B} (g : A -> B) : vs g nofuel nofuel.
Proof. done. Qed.
Lemma vs_lift {A B} (g : A -> B) o o0 : omapo g o = o0 -> vs g (lift o) (lift o0).
Proof. by intros <- s. Qed.
Lemma vs_bind {A B A' B'} (g : A -> A') (g' : B -> B') m m0 k k0 : vs g m m0 -> (forall a, vs g' (k a) (k0 (g a))) -> vs g' (bind m k) (bind m0 k0).
Proof. intros Hm Hk s. unfold bind. rewrite (Hm s). destruct (m s) as [[a| |] s']; cbn; [apply Hk|done..]. Qed.
Lemma vs_bind_id {A B B'} (g' : B -> B') m m0 (k : A -> M (st W) B) (k0 : A -> M (st V) B') : vs id m m0 -> (forall a, vs g' (k a) (k0 a)) -> vs g' (bind m k) (bind m0 k0).
Proof. apply (vs_bind id). Qed.
Lemma vh_ret {A B} (g : A -> B) a b : g a = b -> vh g (ret a) (ret b).
Proof. by intros <- s. Qed.
Lemma vh_bind {A B A' B'} (g : A -> A') (g' : B -> B') m m0 k k0 : vh g m m0 -> (forall a, vh g' (k a) (k0 (g a))) -> vh g' (bind m k) (bind m0 k0).
Proof. intros Hm Hk s. unfold bind. rewrite (Hm s). destruct (m s) as [[a| |] s']; cbn; [apply Hk|done..]. Qed.
Lemma vs_liftH {A B} (g : A -> B) m m0 : vh g m m0 -> vs g (liftH m) (liftH m0).
Proof. intros Hm s. unfold liftH. cbn. rewrite (Hm (s_h s)). destruct (m (s_h s)). done. Qed.
Lemma vs_if {A B} (g : A -> B) (b : bool) m m0 k k0 : vs g m m0 -> vs g k k0 -> vs g (if b then m else k) (if b then m0 else k0).
Proof. by destruct b. Qed.

Lemma fl_lookup h a : h_leaves (fh h) !! a = fl <$> h_leaves h !! a.
Proof. apply lookup_fmap. Qed.
Lemma fh_insL (h : heap W) a l n c : mkH (h_nodes h) (<[a := fl l]> (fl <$> h_leaves h)) n c (h_closed h) = fh (mkH (h_nodes h) (<[a := l]> (h_leaves h)) n c (h_closed h)).
Proof. unfold fh. cbn. by rewrite fmap_insert. Qed.

Lemma vh_loadN a : vh id (hloadN a) (hloadN a).
Proof. intros h. unfold hloadN. cbn. by destruct (h_nodes h !! a). Qed.
Lemma vh_loadL a : vh fl (hloadL a) (hloadL a).
Proof. intros h. unfold hloadL. rewrite fl_lookup. by destruct (h_leaves h !! a). Qed.
Lemma vh_storeN a n : vh id (hstoreN a n) (hstoreN a n).
Proof. done. Qed.
Lemma vh_storeL a l l0 : fl l = l0 -> vh id (hstoreL a l) (hstoreL a l0).
Proof. intros <- h. unfold hstoreL, set_leaves. cbn. by rewrite <- fh_insL. Qed.
Lemma vh_allocN n : vh id (hallocN n) (hallocN n).
Proof. done. Qed.
Lemma vh_allocL l l0 : fl l = l0 -> vh id (hallocL l) (hallocL l0).
Proof. intros <- h. unfold hallocL. cbn. by rewrite <- fh_insL. Qed.
Lemma vh_makeChan : vh id hmakeChan hmakeChan.
Proof. done. Qed.
Lemma vh_getMutateChN a : vh id (getMutateChN a) (getMutateChN a).
Proof.
  eapply vh_bind; [apply vh_loadN|]. intros n. unfold id. destruct (n_ch n); [by apply vh_ret|]. eapply vh_bind; [apply vh_makeChan|]. intros c.
  eapply vh_bind; [apply vh_storeN|]. intros []. by apply vh_ret.
Qed.
Lemma vh_getMutateChL a : vh id (getMutateChL a) (getMutateChL a).
Proof.
  eapply vh_bind; [apply vh_loadL|]. intros l. cbn [fl l_ch]. destruct (l_ch l); [by apply vh_ret|]. eapply vh_bind; [apply vh_makeChan|]. intros c.
  eapply vh_bind; [by apply vh_storeL|]. intros []. by apply vh_ret.
Qed.
Lemma vh_setMutateChN a c : vh id (setMutateChN a c) (setMutateChN a c).
Proof. eapply vh_bind; [apply vh_loadN|]. intros n. apply vh_storeN. Qed.
Lemma vh_setMutateChL a c : vh id (setMutateChL a c) (setMutateChL a c).
Proof. eapply vh_bind; [apply vh_loadL|]. intros n. by apply vh_storeL. Qed.
Lemma vh_cloneN a b : vh id (cloneN a b) (cloneN a b).
Proof.
  eapply (vh_bind id).
  - destruct b; [|by apply vh_ret]. eapply vh_bind; [apply vh_getMutateChN|]. intros c. by apply vh_ret.
  - intros c. eapply vh_bind; [apply vh_loadN|]. intros n. apply vh_allocN.
Qed.
Lemma vh_cloneL a b : vh id (cloneL a b) (cloneL a b).
Proof.
  eapply (vh_bind id).
  - destruct b; [|by apply vh_ret]. eapply vh_bind; [apply vh_getMutateChL|]. intros c. by apply vh_ret.
  - intros c. eapply vh_bind; [apply vh_loadL|]. intros n. by apply vh_allocL.
Qed.

Lemma vs_loadN a : vs id (loadN a) (loadN a).
Proof. apply vs_liftH, vh_loadN. Qed.
Lemma vs_loadL a : vs fl (loadL a) (loadL a).
Proof. apply vs_liftH, vh_loadL. Qed.
Lemma vs_storeN a n : vs id (storeN a n) (storeN a n).
Proof. apply vs_liftH, vh_storeN. Qed.
Lemma vs_storeL a l l0 : fl l = l0 -> vs id (storeL a l) (storeL a l0).
Proof. intros E. by apply vs_liftH, vh_storeL. Qed.
Lemma vs_getT : vs id getT getT.
Proof. done. Qed.
Lemma vs_putT t : vs id (putT t) (putT t).
Proof. done. Qed.
Lemma vs_getH : vs fh getH getH.
Proof. done. Qed.
Lemma vs_byteAt k i : vs id (byteAt k i) (byteAt k i).
Proof. unfold byteAt. by destruct (k !! i). Qed.
Lemma vs_nextId : vs id nextId nextId.
Proof. done. Qed.
Lemma vs_addTracked c : vs id (addTracked c) (addTracked c).
Proof. done. Qed.
Lemma vs_trackN a : vs id (trackN a) (trackN a).
Proof.
  eapply vs_bind_id; [apply vs_getT|]. intros t. eapply (vs_bind_id _ (fun s => (Ok (bool_decide (is_Some (h_nodes (s_h s) !! a))), s))); [done|]. intros live.
  apply vs_if; [|by apply vs_ret]. eapply vs_bind_id; [apply vs_liftH, vh_getMutateChN|]. intros c. eapply vs_bind_id; [apply vs_addTracked|]. intros [].
  eapply vs_bind_id; [apply vs_liftH, vh_makeChan|]. intros c'. apply vs_liftH, vh_setMutateChN.
Qed.
Lemma vs_trackL a : vs id (trackL a) (trackL a).
Proof.
  eapply vs_bind_id; [apply vs_getT|]. intros t. eapply (vs_bind_id _ (fun s => (Ok (bool_decide (is_Some (h_leaves (s_h s) !! a))), s))).
  { intros s. cbn. unfold fs, id. cbn [s_h]. f_equal. f_equal. apply bool_decide_ext. rewrite lookup_fmap. by rewrite fmap_is_Some. }
  intros live. apply vs_if; [|by apply vs_ret]. eapply vs_bind_id; [apply vs_liftH, vh_getMutateChL|]. intros c. eapply vs_bind_id; [apply vs_addTracked|]. intros [].
  eapply vs_bind_id; [apply vs_liftH, vh_makeChan|]. intros c'. apply vs_liftH, vh_setMutateChL.
Qed.
Lemma vs_trackOptL o : vs id (trackOptL o) (trackOptL o).
Proof. destruct o; [apply vs_trackL|by apply vs_ret]. Qed.
Lemma vs_trackAllN l : vs id (trackAllN l) (trackAllN l).
Proof. induction l as [|a l IH]; [by apply vs_ret|]. eapply vs_bind_id; [apply vs_trackN|]. intros []. apply IH. Qed.
Lemma vs_cloneN a b : vs id (liftH (cloneN a b)) (liftH (cloneN a b)).
Proof. apply vs_liftH, vh_cloneN. Qed.
Lemma vs_cloneL a b : vs id (liftH (cloneL a b)) (liftH (cloneL a b)).
Proof. apply vs_liftH, vh_cloneL. Qed.
Lemma vs_allocN n : vs id (liftH (hallocN n)) (liftH (hallocN n)).
Proof. apply vs_liftH, vh_allocN. Qed.
Lemma vs_allocL l l0 : fl l = l0 -> vs id (liftH (hallocL l)) (liftH (hallocL l0)).
Proof. intros E. by apply vs_liftH, vh_allocL. Qed.

(** readers *)
Lemma v_minimum fuel h o : minimum fuel (fh h) o = minimum fuel h o.
Proof.
  revert o. induction fuel as [|fuel IH]; intros o; [done|]. cbn [minimum]. destruct o as [a|]; [|done]. cbn [fh h_nodes].
  destruct (h_nodes h !! a) as [n|]; [|done]. destruct (isLeafN n); [done|]. destruct (n_leaf n); [done|]. apply obind_ext. intros [c|]; [apply IH|done].
Qed.
Lemma v_prefixMismatch h a n key depth : prefixMismatch (fh h) a n key depth = prefixMismatch h a n key depth.
Proof.
  unfold prefixMismatch. apply obind_ext. intros idx. destruct (Nat.ltb idx _); [done|]. destruct (Nat.ltb _ _); [|done].
  change (walk_fuel (fh h)) with (walk_fuel h). rewrite v_minimum. apply obind_ext. intros [la|]; [|done]. rewrite fl_lookup. by destruct (h_leaves h !! la).
Qed.
Lemma v_ownLeaf h key n : ownLeaf (fh h) key n = ownLeaf h key n.
Proof. unfold ownLeaf. destruct (n_leaf n) as [la|]; [|done]. rewrite fl_lookup. by destruct (h_leaves h !! la). Qed.
Lemma v_scanChildren h key chs : scanChildren (fh h) key chs = scanChildren h key chs.
Proof.
  induction chs as [|[c|] chs IH]; [done| |apply IH]. cbn [scanChildren fh h_nodes]. destruct (h_nodes h !! c) as [n|]; [|done]. destruct (n_leaf n) as [la|]; [|apply IH].
  change (fl <$> h_leaves h) with (h_leaves (fh h)). rewrite fl_lookup. destruct (h_leaves h !! la) as [l|]; cbn; [|done]. by rewrite <- IH.
Qed.
Lemma v_search fuel h a key depth : search fuel (fh h) a key depth = search fuel h a key depth.
Proof.
  assert (Hex : forall n b, searchExit (fh h) key b n = searchExit h key b n).
  { intros n b. unfold searchExit. rewrite v_ownLeaf. apply obind_ext. intros [la|]; [done|]. by rewrite v_scanChildren. }
  revert a depth. induction fuel as [|fuel IH]; intros a depth; [done|]. cbn [search]. change (h_nodes (fh h)) with (h_nodes h). destruct (h_nodes h !! a) as [n|]; [|done].
  rewrite v_ownLeaf. apply obind_ext. intros [la|]; [done|]. apply obind_ext. intros pl. rewrite Hex. destruct (_ && _); [done|]. destruct (key !! _); [|done].
  apply obind_ext. intros [[ca|] i]; [apply IH|done].
Qed.

Lemma vs_updN a g : vs id (updN a g) (updN a g).
Proof. eapply vs_bind_id; [apply vs_loadN|]. intros n. eapply vs_bind_id; [apply vs_lift; by destruct (g n)|]. intros n'. apply vs_storeN. Qed.
Lemma vs_setKV l k v v0 : f v = v0 -> vs id (setKV l k v) (setKV l k v0).
Proof. intros <-. eapply vs_bind; [apply vs_loadL|]. intros x. by apply vs_storeL. Qed.
End Tag.

Ltac vstep :=
  lazymatch goal with
  | |- vs _ _ nofuel _ => apply vs_nofuel
  | |- vs _ _ panic _ => apply vs_panic
  | |- vs _ _ (ret _) _ => apply vs_ret; try reflexivity
  | |- vs _ _ (setNodeLeaf _ _) _ => apply vs_updN
  | |- vs _ _ (setChild _ _ _) _ => apply vs_updN
  | |- vs _ _ (copyPartial _ _) _ => apply vs_updN
  | |- vs _ _ (updN _ _) _ => apply vs_updN
  | |- vs _ _ (setKV _ _ _) _ => apply vs_setKV; reflexivity
  | |- vs _ _ (loadN _) _ => apply vs_loadN
  | |- vs _ _ (storeN _ _) _ => apply vs_storeN
  | |- vs _ _ (storeL _ _) _ => apply vs_storeL; try reflexivity
  | |- vs _ _ (putT _) _ => apply vs_putT
  | |- vs _ _ getT _ => apply vs_getT
  | |- vs _ _ nextId _ => apply vs_nextId
  | |- vs _ _ (byteAt _ _) _ => apply vs_byteAt
  | |- vs _ _ (trackN _) _ => apply vs_trackN
  | |- vs _ _ (trackL _) _ => apply vs_trackL
  | |- vs _ _ (trackOptL _) _ => apply vs_trackOptL
  | |- vs _ _ (trackAllN _) _ => apply vs_trackAllN
  | |- vs _ _ (liftH (cloneN _ _)) _ => apply vs_cloneN
  | |- vs _ _ (liftH (cloneL _ _)) _ => apply vs_cloneL
  | |- vs _ _ (liftH (hallocN _)) _ => apply vs_allocN
  | |- vs _ _ (bind (loadL _) _) _ => eapply vs_bind; [apply vs_loadL|intros ?]
  | |- vs _ _ (bind getH _) _ => eapply vs_bind; [apply vs_getH|intros ?]
  | |- vs _ _ (bind (lift (prefixMismatch _ _ _ _ _)) _) _ => eapply vs_bind_id; [apply vs_lift; rewrite v_prefixMismatch; by destruct (prefixMismatch _ _ _ _ _)|intros ?]
  | |- vs _ _ (bind (lift (minimum ?x _ _)) _) _ => eapply vs_bind_id; [apply vs_lift; change (walk_fuel (fh _ ?h)) with (walk_fuel h); rewrite v_minimum; by destruct (minimum x _ _)|intros ?]
  | |- vs _ _ (bind _ _) (bind _ _) => eapply vs_bind_id; [|intros ?]
  | |- vs _ _ (lift ?o) (lift _) => apply vs_lift; change (omapo id o = o); by destruct o
  | |- vs _ _ (if ?b then _ else _) (if _ then _ else _) => apply (vs_if _ _ b)
  | |- vs _ _ (match ?x with (_, _) => _ end) _ => destruct x
  | |- vs _ _ (match ?x with Some _ => _ | None => _ end) _ => destruct x
  | |- vs _ _ (match ?x with K4 => _ | _ => _ end) _ => destruct x
  | |- vs _ _ (match ?x with RL _ => _ | RN _ => _ end) _ => destruct x
  end.
Ltac vgo := repeat (cbn beta iota zeta; vstep).

Section Tag2.
Context {V W : Type} `{GoZero V} `{GoZero W} (f : W -> V) (Hz : f go_zero = go_zero).
Notation vs := (vs f).

Lemma vs_writeNode a b : vs id (writeNode a b) (writeNode a b).
Proof. unfold writeNode. vgo. Qed.
Lemma vs_writeLeaf a b : vs id (writeLeaf a b) (writeLeaf a b).
Proof. unfold writeLeaf. vgo. Qed.
Lemma vs_allocNode k : vs id (allocNode k) (allocNode k).
Proof. unfold allocNode. vgo. Qed.
Lemma vs_allocLeaf : vs id allocLeaf allocLeaf.
Proof. unfold allocLeaf. vgo. apply vs_allocL. unfold fl. cbn. by rewrite Hz. Qed.
Lemma vs_makeLeaf k v v0 : f v = v0 -> vs id (makeLeaf k v) (makeLeaf k v0).
Proof. intros <-. unfold makeLeaf. vgo; [apply vs_allocLeaf|apply vs_allocNode]. Qed.
Lemma vs_moveLeaf a o : vs id (moveLeaf a o) (moveLeaf a o).
Proof. unfold moveLeaf. vgo. apply vs_writeLeaf. Qed.
End Tag2.

Ltac vgo2 tac := vgo; try first [apply vs_writeNode | apply vs_writeLeaf | apply vs_allocNode | by apply vs_allocLeaf | by apply vs_makeLeaf | apply vs_moveLeaf | solve [tac]].
Section Tag3.
Context {V W : Type} `{GoZero V} `{GoZero W} (f : W -> V) (Hz : f go_zero = go_zero).
Notation vs := (vs f).
Lemma vs_addChild256 a c d : vs id (addChild256 a c d) (addChild256 a c d).
Proof. unfold addChild256. vgo2 fail. Qed.
Lemma vs_addChild48 a c d : vs id (addChild48 a c d) (addChild48 a c d).
Proof. unfold addChild48. vgo2 ltac:(apply vs_addChild256). Qed.
Lemma vs_addChild16 a c d : vs id (addChild16 a c d) (addChild16 a c d).
Proof. unfold addChild16. vgo2 ltac:(apply vs_addChild48). Qed.
Lemma vs_addChild4 a c d : vs id (addChild4 a c d) (addChild4 a c d).
Proof. unfold addChild4. vgo2 ltac:(apply vs_addChild16). Qed.
Lemma vs_addChild a c d : vs id (addChild a c d) (addChild a c d).
Proof. unfold addChild. vgo2 ltac:(first [apply vs_addChild4 | apply vs_addChild16 | apply vs_addChild48 | apply vs_addChild256]). Qed.
Lemma vs_removeChild4 a c : vs id (removeChild4 a c) (removeChild4 a c).
Proof. unfold removeChild4. vgo2 fail. Qed.
Lemma vs_removeChild16 a c : vs id (removeChild16 a c) (removeChild16 a c).
Proof. unfold removeChild16. vgo2 fail. Qed.
Lemma vs_removeChild48 a c : vs id (removeChild48 a c) (removeChild48 a c).
Proof. unfold removeChild48. vgo2 fail. Qed.
Lemma vs_removeChild256 a c : vs id (removeChild256 a c) (removeChild256 a c).
Proof. unfold removeChild256. vgo2 fail. Qed.
Lemma vs_removeChild a c : vs id (removeChild a c) (removeChild a c).
Proof. unfold removeChild. vgo2 ltac:(first [apply vs_removeChild4 | apply vs_removeChild16 | apply vs_removeChild48 | apply vs_removeChild256]). Qed.

(** the result of recursiveInsert *)
Definition fr (r : addr * W * bool * bool) : addr * V * bool * bool := (r.1.1.1, f r.1.1.2, r.1.2, r.2).
Lemma vs_insert fuel :
  (forall node key v depth, vs fr (recursiveInsert fuel node key v depth) (recursiveInsert fuel node key (f v) depth)) /\
  (forall node key v depth, vs fr (insertInner fuel node key v depth) (insertInner fuel node key (f v) depth)).
Proof.
  induction fuel as [|fuel [IH1 IH2]]; (split; intros; [cbn [recursiveInsert]|cbn [insertInner]]); try apply vs_nofuel.
  - Ltac vgi IH1 IH2 := repeat (cbn beta iota zeta; cbn [fr fst snd]; lazymatch goal with
      | |- vs _ (@bind _ (addr * W * bool * bool)%type _ _ _) _ => eapply vs_bind; [apply IH1|intros [[[? ?] ?] ?]; cbn [fr fst snd]]
      | |- _ => first [vstep | apply vs_writeNode | apply vs_writeLeaf | apply vs_allocNode | by apply vs_allocLeaf | by apply vs_makeLeaf | apply vs_moveLeaf | apply vs_addChild | apply IH1 | apply IH2]
      end).
    vgi IH1 IH2; unfold fr; cbn [fst snd]; by rewrite Hz.
  - vgi IH1 IH2; unfold fr; cbn [fst snd]; by rewrite Hz.
Qed.
Lemma vs_delete fuel : forall node key depth, vs id (recursiveDelete fuel node key depth) (recursiveDelete fuel node key depth).
Proof.
  induction fuel as [|fuel IH]; intros; cbn [recursiveDelete]; [apply vs_nofuel|]. vgo2 ltac:(first [apply IH | apply vs_removeChild]).
  destruct o; [by apply vs_ret|apply vs_removeChild].
Qed.
Lemma vs_installEmptyRoot : vs id installEmptyRoot installEmptyRoot.
Proof. unfold installEmptyRoot. vgo. apply vs_allocL. unfold fl. cbn. by rewrite Hz. Qed.

Definition frv (p : W * bool) : V * bool := (f p.1, p.2).
Lemma vs_txnInsert key v : vs frv (txnInsert key v) (txnInsert key (f v)).
Proof.
  unfold txnInsert. eapply vs_bind; [apply vs_getT|]. intros t. eapply vs_bind; [apply vs_insert|]. intros [[[r ov] m] o]. cbn [fr fst snd].
  vgo.
Qed.
Lemma vs_txnDelete key : vs frv (txnDelete key) (txnDelete key).
Proof.
  unfold txnDelete. vgo2 ltac:(first [apply vs_delete | apply vs_installEmptyRoot]); unfold frv; cbn; by rewrite Hz.
Qed.
End Tag3.
