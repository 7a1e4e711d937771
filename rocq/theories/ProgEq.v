(** A program of Prog.v run alone does what the function of HeapOps.v or TxnOps.v with the same name does. *)
From Verif Require Export Prog.

Section ProgEq.
Context {V : Type} `{GoZero V}.

Definition req {A} (p : prog V A) (m : M (st V) A) : Prop := forall s, run p s = m s.
Lemma run_pbind {A B} (p : prog V A) (f : A -> prog V B) s : run (pbind p f) s = bind (run p) (fun a => run (f a)) s.
Proof.
  revert s. induction p as [o|C c k IH]; intros s; [by destruct o|]. cbn [pbind run]. unfold bind at 1. unfold bind at 1. unfold bind at 1.
  destruct (sem c s) as [[b| |] s']; [|done..]. by rewrite IH.
Qed.
Lemma req_bind {A B} (p : prog V A) (f : A -> prog V B) m k : req p m -> (forall a, req (f a) (k a)) -> req (pbind p f) (bind m k).
Proof. intros Hp Hf s. rewrite run_pbind. unfold bind. rewrite Hp. destruct (m s) as [[a| |] s']; [apply Hf|done..]. Qed.
Lemma req_ret {A} (a : A) : req (pret a) (ret a). Proof. done. Qed.
Lemma req_panic {A} : req (@ppanic V A) panic. Proof. done. Qed.
Lemma req_nofuel {A} : req (@pnofuel V A) nofuel. Proof. done. Qed.
Lemma req_lift {A} (o : outcome A) : req (plift o) (lift o). Proof. done. Qed.
Lemma req_do {B} (c : cmd V B) : req (pdo c) (sem c).
Proof. intros s. cbn. unfold bind. by destruct (sem c s) as [[b| |] s']. Qed.
Lemma req_pdo {B} (c : cmd V B) m : sem c = m -> req (pdo c) m.
Proof. intros <-. apply req_do. Qed.
Lemma liftH_bind {A B} (m : M (heap V) A) (k : A -> M (heap V) B) s : liftH (bind m k) s = bind (liftH m) (fun a => liftH (k a)) s.
Proof. unfold liftH, bind. destruct s as [h t]. cbn [s_h s_t]. by destruct (m h) as [[a| |] h']. Qed.
Lemma req_liftH_bind {A B} (p : prog V A) (f : A -> prog V B) m k : req p (liftH m) -> (forall a, req (f a) (liftH (k a))) -> req (pbind p f) (liftH (bind m k)).
Proof. intros Hp Hf s. rewrite liftH_bind. by apply (req_bind _ _ (liftH m) (fun a => liftH (k a))). Qed.
Lemma req_liftH_ret {A} (a : A) : req (pret a) (liftH (ret a)). Proof. by intros [h t]. Qed.
Lemma req_eq {A} (p : prog V A) m m' : req p m -> (forall s, m s = m' s) -> req p m'.
Proof. intros Hp E s. by rewrite Hp. Qed.

Lemma req_loadN a : req (ploadN a) (loadN (V:=V) a). Proof. by apply req_pdo. Qed.
Lemma req_loadL a : req (ploadL a) (loadL (V:=V) a). Proof. by apply req_pdo. Qed.
Lemma req_storeN a n : req (pstoreN a n) (storeN (V:=V) a n). Proof. by apply req_pdo. Qed.
Lemma req_storeL a n : req (pstoreL a n) (storeL (V:=V) a n). Proof. by apply req_pdo. Qed.
Lemma req_allocN n : req (pallocN n) (liftH (V:=V) (hallocN n)). Proof. by apply req_pdo. Qed.
Lemma req_allocL n : req (pallocL n) (liftH (V:=V) (hallocL n)). Proof. by apply req_pdo. Qed.
Lemma req_makeChan : req pmakeChan (liftH (V:=V) hmakeChan). Proof. by apply req_pdo. Qed.
Lemma req_close c : req (pclose c) (liftH (V:=V) (hcloseIfOpen c)). Proof. by apply req_pdo. Qed.
Lemma req_getT : req pgetT (getT (V:=V)). Proof. by apply req_pdo. Qed.
Lemma req_putT t : req (pputT t) (putT (V:=V) t). Proof. by apply req_pdo. Qed.
Lemma req_setMutateChN a c : req (psetMutateChN a c) (liftH (V:=V) (setMutateChN a c)). Proof. by apply req_pdo. Qed.
Lemma req_setMutateChL a c : req (psetMutateChL a c) (liftH (V:=V) (setMutateChL a c)). Proof. by apply req_pdo. Qed.
Lemma req_liveN a : req (pliveN a) (fun s : st V => (Ok (bool_decide (is_Some (h_nodes (s_h s) !! a))), s)). Proof. by apply req_pdo. Qed.
Lemma req_liveL a : req (pliveL a) (fun s : st V => (Ok (bool_decide (is_Some (h_leaves (s_h s) !! a))), s)). Proof. by apply req_pdo. Qed.

Lemma req_getMutateChN a : req (pgetMutateChN a) (liftH (V:=V) (getMutateChN a)).
Proof.
  intros [h t]. unfold pgetMutateChN. rewrite run_pbind. unfold bind at 1. rewrite req_loadN. unfold loadN, liftH, getMutateChN, bind, hloadN. cbn [s_h s_t].
  destruct (h_nodes h !! a) as [n|] eqn:En; [|done]. cbn. destruct (n_ch n) as [c|] eqn:Ec; [done|].
  cbn. unfold bind. cbn. unfold liftH, casChN, bind, hloadN. cbn. rewrite En. cbn. rewrite Ec. done.
Qed.
Lemma req_getMutateChL a : req (pgetMutateChL a) (liftH (V:=V) (getMutateChL a)).
Proof.
  intros [h t]. unfold pgetMutateChL. rewrite run_pbind. unfold bind at 1. rewrite req_loadL. unfold loadL, liftH, getMutateChL, bind, hloadL. cbn [s_h s_t].
  destruct (h_leaves h !! a) as [n|] eqn:En; [|done]. cbn. destruct (l_ch n) as [c|] eqn:Ec; [done|].
  cbn. unfold bind. cbn. unfold liftH, casChL, bind, hloadL. cbn. rewrite En. cbn. rewrite Ec. done.
Qed.
Create HintDb req discriminated.
Hint Resolve req_ret req_panic req_nofuel req_lift req_loadN req_loadL req_storeN req_storeL req_allocN req_allocL req_makeChan req_close req_getT req_putT
  req_setMutateChN req_setMutateChL req_liveN req_liveL req_getMutateChN req_getMutateChL req_liftH_ret : req.
Ltac r1 := first
  [ solve [eauto 2 with req]
  | apply req_bind; [|intros ?]
  | apply req_liftH_bind; [|intros ?]
  | match goal with |- req (match ?x with _ => _ end) _ => destruct x end ].
Ltac r := repeat r1.
Lemma req_cloneN a b : req (pcloneN a b) (liftH (V:=V) (cloneN a b)).
Proof. unfold pcloneN, cloneN. destruct b; r. Qed.
Lemma req_cloneL a b : req (pcloneL a b) (liftH (V:=V) (cloneL a b)).
Proof. unfold pcloneL, cloneL. destruct b; r. Qed.
Hint Resolve req_cloneN req_cloneL : req.
Lemma req_nextId : req pnextId (nextId (V:=V)). Proof. unfold pnextId, nextId. r. Qed.
Lemma req_addTracked c : req (paddTracked c) (addTracked (V:=V) c). Proof. unfold paddTracked, addTracked. r. Qed.
Hint Resolve req_nextId req_addTracked : req.
Lemma req_trackN a : req (ptrackN a) (trackN (V:=V) a). Proof. unfold ptrackN, trackN. r. Qed.
Lemma req_trackL a : req (ptrackL a) (trackL (V:=V) a). Proof. unfold ptrackL, trackL. r. Qed.
Hint Resolve req_trackN req_trackL : req.
Lemma req_trackOptL a : req (ptrackOptL a) (trackOptL (V:=V) a). Proof. unfold ptrackOptL, trackOptL. r. Qed.
Lemma req_trackAllN l : req (ptrackAllN l) (trackAllN (V:=V) l). Proof. induction l; cbn [ptrackAllN trackAllN]; r. Qed.
Hint Resolve req_trackOptL req_trackAllN : req.
Lemma req_writeNode a b : req (pwriteNode a b) (writeNode (V:=V) a b). Proof. unfold pwriteNode, writeNode. destruct b; r. Qed.
Lemma req_writeLeaf a b : req (pwriteLeaf a b) (writeLeaf (V:=V) a b). Proof. unfold pwriteLeaf, writeLeaf. destruct b; r. Qed.
Lemma req_allocNode k : req (pallocNode k) (allocNode (V:=V) k). Proof. unfold pallocNode, allocNode. r. Qed.
Lemma req_allocLeaf : req pallocLeaf (allocLeaf (V:=V)). Proof. unfold pallocLeaf, allocLeaf. r. Qed.
Lemma req_updN a f : req (pupdN a f) (updN (V:=V) a f). Proof. unfold pupdN, updN. r. Qed.
Hint Resolve req_writeNode req_writeLeaf req_allocNode req_allocLeaf req_updN : req.
Lemma req_setNodeLeaf a l : req (psetNodeLeaf a l) (setNodeLeaf (V:=V) a l). Proof. unfold psetNodeLeaf, setNodeLeaf. r. Qed.
Lemma req_setChild a i c : req (psetChild a i c) (setChild (V:=V) a i c). Proof. unfold psetChild, setChild. r. Qed.
Lemma req_setKV l k v : req (psetKV l k v) (setKV (V:=V) l k v). Proof. unfold psetKV, setKV. r. Qed.
Lemma req_copyPartial l k : req (pcopyPartial l k) (copyPartial (V:=V) l k). Proof. unfold pcopyPartial, copyPartial. r. Qed.
Hint Resolve req_setNodeLeaf req_setChild req_setKV req_copyPartial : req.
Lemma req_makeLeaf k v : req (pmakeLeaf k v) (makeLeaf (V:=V) k v). Proof. unfold pmakeLeaf, makeLeaf. r. Qed.
Lemma req_moveLeaf a o : req (pmoveLeaf a o) (moveLeaf (V:=V) a o). Proof. unfold pmoveLeaf, moveLeaf. r. Qed.
Lemma req_byteAt k i : req (pbyteAt k i) (byteAt (V:=V) k i). Proof. unfold pbyteAt, byteAt. r. Qed.
Hint Resolve req_makeLeaf req_moveLeaf req_byteAt : req.
Lemma req_addChild256 a c ch : req (paddChild256 a c ch) (addChild256 (V:=V) a c ch). Proof. unfold paddChild256, addChild256. r. Qed.
Hint Resolve req_addChild256 : req.
Lemma req_addChild48 a c ch : req (paddChild48 a c ch) (addChild48 (V:=V) a c ch). Proof. unfold paddChild48, addChild48. r. Qed.
Hint Resolve req_addChild48 : req.
Lemma req_addChild16 a c ch : req (paddChild16 a c ch) (addChild16 (V:=V) a c ch). Proof. unfold paddChild16, addChild16. r. Qed.
Hint Resolve req_addChild16 : req.
Lemma req_addChild4 a c ch : req (paddChild4 a c ch) (addChild4 (V:=V) a c ch). Proof. unfold paddChild4, addChild4. r. Qed.
Hint Resolve req_addChild4 : req.
Lemma req_addChild a c ch : req (paddChild a c ch) (addChild (V:=V) a c ch). Proof. unfold paddChild, addChild. r. Qed.
Hint Resolve req_addChild : req.
Lemma req_removeChild4 a c : req (premoveChild4 a c) (removeChild4 (V:=V) a c). Proof. unfold premoveChild4, removeChild4. r. Qed.
Lemma req_removeChild16 a c : req (premoveChild16 a c) (removeChild16 (V:=V) a c). Proof. unfold premoveChild16, removeChild16. r. Qed.
Lemma req_removeChild48 a c : req (premoveChild48 a c) (removeChild48 (V:=V) a c). Proof. unfold premoveChild48, removeChild48. r. Qed.
Lemma req_removeChild256 a c : req (premoveChild256 a c) (removeChild256 (V:=V) a c). Proof. unfold premoveChild256, removeChild256. r. Qed.
Hint Resolve req_removeChild4 req_removeChild16 req_removeChild48 req_removeChild256 : req.
Lemma req_removeChild a c : req (premoveChild a c) (removeChild (V:=V) a c). Proof. unfold premoveChild, removeChild. r. Qed.
Hint Resolve req_removeChild : req.

Lemma run_fuel s : run (V:=V) pfuel s = (Ok (walk_fuel (s_h s)), s).
Proof. done. Qed.
Lemma run_minimum f o (s : st V) : run (pminimum f o) s = (minimum f (s_h s) o, s).
Proof.
  revert o s. induction f as [|f IH]; intros o s; cbn [pminimum minimum]; [done|]. destruct o as [a|]; [|done].
  rewrite run_pbind. unfold bind at 1. rewrite req_loadN. unfold loadN, liftH, hloadN, bind. destruct s as [h t]. cbn [s_h s_t].
  destruct (h_nodes h !! a) as [n|]; [|done]. cbn [ret].
  unfold ret. destruct (isLeafN n); [done|]. destruct (n_leaf n); [done|]. rewrite run_pbind. unfold bind. rewrite req_lift. unfold lift.
  destruct (minChild n) as [[c|]| |]; [by rewrite IH|done..].
Qed.
Lemma run_prefixMismatch a n key d (s : st V) : run (pprefixMismatch a n key d) s = (prefixMismatch (s_h s) a n key d, s).
Proof.
  unfold pprefixMismatch, prefixMismatch. rewrite run_pbind. unfold bind. rewrite req_lift. unfold lift.
  destruct (cmp_loop _ _ _ _ _ _) as [i| |]; cbn [obind]; [|done..]. destruct (i <? _); [done|]. destruct (maxPrefixLen <? n_plen n); [|done].
  rewrite run_pbind. unfold bind. rewrite run_fuel. rewrite run_pbind. unfold bind. rewrite run_minimum.
  destruct (minimum _ _ _) as [[l|]| |]; cbn [obind]; [|done..].
  rewrite run_pbind. unfold bind. rewrite req_loadL. unfold loadL, liftH, hloadL. destruct s as [h t]; cbn [s_h s_t].
  destruct (h_leaves h !! l); [|done]. done.
Qed.
Lemma req_getH {A B} (p : prog V A) (g : A -> prog V B) (o : heap V -> outcome A) k :
  (forall s, run p s = (o (s_h s), s)) -> (forall a, req (g a) (k a)) -> req (pbind p g) (bind getH (fun h => bind (lift (o h)) k)).
Proof. intros Hp Hg s. rewrite run_pbind. unfold bind, getH, lift. rewrite Hp. destruct s as [h t]; cbn [s_h s_t]. destruct (o h); [apply Hg|done..]. Qed.
Lemma req_mismatch {B} a n key d (g : nat -> prog V B) k : (forall x, req (g x) (k x)) ->
  req (pbind (pprefixMismatch a n key d) g) (bind getH (fun h => bind (lift (prefixMismatch h a n key d)) k)).
Proof. intros Hg. apply req_getH; [|done]. intros s. apply run_prefixMismatch. Qed.
Lemma req_minimum {B} o (g : option addr -> prog V B) k : (forall x, req (g x) (k x)) ->
  req (pbind pfuel (fun f => pbind (pminimum f o) g)) (bind getH (fun h => bind (lift (minimum (walk_fuel h) h o)) k)).
Proof.
  intros Hg s. rewrite run_pbind. unfold bind at 1. rewrite run_fuel. rewrite run_pbind. unfold bind, getH, lift. rewrite run_minimum.
  destruct s as [h t]; cbn [s_h s_t]. destruct (minimum _ _ _); [apply Hg|done..].
Qed.
Ltac r2 := first
  [ solve [eauto 2 with req]
  | apply req_mismatch; intros ?
  | apply req_minimum; intros ?
  | apply req_bind; [|intros ?]
  | match goal with |- req (match ?x with _ => _ end) _ => destruct x end
  | match goal with |- req (let x := _ in _) _ => cbv zeta end ].
Lemma req_insert f :
  (forall node key v d, req (precursiveInsert f node key v d) (recursiveInsert (V:=V) f node key v d)) /\
  (forall node key v d, req (pinsertInner f node key v d) (insertInner (V:=V) f node key v d)).
Proof.
  induction f as [|f [IH1 IH2]]; split; intros; cbn [precursiveInsert recursiveInsert pinsertInner insertInner]; try apply req_nofuel; repeat r2.
Qed.
Lemma req_txnInsert k v : req (ptxnInsert k v) (txnInsert (V:=V) k v).
Proof. unfold ptxnInsert, txnInsert. cbv zeta. repeat first [apply req_insert | r2]. Qed.
Lemma req_recursiveDelete f : forall node key d, req (precursiveDelete f node key d) (recursiveDelete (V:=V) f node key d).
Proof. induction f as [|f IH]; intros; cbn [precursiveDelete recursiveDelete]; [apply req_nofuel|]. repeat r2. Qed.
Lemma req_installEmptyRoot : req pinstallEmptyRoot (installEmptyRoot (V:=V)).
Proof. by intros [h t]. Qed.
Hint Resolve req_recursiveDelete req_installEmptyRoot : req.
Lemma req_txnDelete k : req (ptxnDelete k) (txnDelete (V:=V) k).
Proof. unfold ptxnDelete, txnDelete. cbv zeta. repeat r2. Qed.
Lemma req_deletePrefix f : forall node key d, req (pdeletePrefix f node key d) (deletePrefix (V:=V) f node key d).
Proof.
  induction f as [|f IH]; intros; cbn [pdeletePrefix deletePrefix]; [apply req_nofuel|]. destruct node as [node|]; [|apply req_ret].
  apply req_bind; [apply req_loadN|intros n]. destruct (isLeafN n); [repeat r2|].
  apply req_bind; [repeat r2|intros d']. apply req_bind; [repeat r2|intros nd].
  apply req_bind; [|intros []; repeat r2].
  match goal with |- req (?F _ 0 [] nd) (?G _ 0 [] nd) => enough (forall cs i m nd, req (F cs i m nd) (G cs i m nd)) by done end.
  clear nd. induction cs as [|[c|] cs IHcs]; intros; [repeat r2| |apply IHcs].
  apply req_bind; [apply IH|intros []]. apply req_bind; [repeat r2|intros _]. apply IHcs.
Qed.
Hint Resolve req_deletePrefix : req.
Lemma req_txnDeletePrefix k : req (ptxnDeletePrefix k) (txnDeletePrefix (V:=V) k).
Proof.
  unfold ptxnDeletePrefix, txnDeletePrefix. cbv zeta. apply req_bind; [apply req_getT|intros t].
  intros s. rewrite run_pbind. unfold bind at 1. rewrite run_fuel. unfold bind at 1, getH.
  match goal with |- run ?p s = ?m s => enough (req p m) by done end. repeat r2.
Qed.
Lemma req_closeAll l : req (pcloseAll l) (liftH (V:=V) (closeAll l)).
Proof. induction l as [|c l IH]; cbn [pcloseAll closeAll]; [apply req_liftH_ret|]. apply req_liftH_bind; [apply req_close|intros _; apply IH]. Qed.
Hint Resolve req_closeAll : req.
Lemma req_slowNotify : req pslowNotify (slowNotify (V:=V)). Proof. unfold pslowNotify, slowNotify. repeat r2. Qed.
Hint Resolve req_slowNotify : req.
Lemma req_notify : req pnotify (notify (V:=V)). Proof. unfold pnotify, notify. repeat r2. Qed.
Hint Resolve req_notify : req.
Lemma req_commit : req pcommit (commit (V:=V)). Proof. unfold pcommit, commit. repeat r2. Qed.
Lemma run_newTxn tr s : run (pnewTxn tr) s = match newTxn (V:=V) tr (s_h s) with (Ok t, h) => (Ok tt, mkS h t) | (Panic, h) => (Panic, mkS h (s_t s)) | (NoFuel, h) => (NoFuel, mkS h (s_t s)) end.
Proof.
  unfold pnewTxn, newTxn. rewrite run_pbind. unfold bind. rewrite req_cloneN. unfold liftH. destruct s as [h t]; cbn [s_h s_t].
  by destruct (cloneN (r_root tr) true h) as [[a| |] h'].
Qed.
Lemma run_scan key chs (s : st V) : run (pscanChildren key chs) s = (scanChildren (s_h s) key chs, s).
Proof.
  revert s. induction chs as [|[c|] chs IH]; intros s; cbn [pscanChildren scanChildren]; [done| |apply IH].
  rewrite run_pbind. unfold bind. rewrite req_loadN. unfold loadN, liftH, hloadN. destruct s as [h t]; cbn [s_h s_t]. destruct (h_nodes h !! c) as [n|]; [|done].
  destruct (n_leaf n) as [la|]; [|apply IH]. rewrite run_pbind. unfold bind. rewrite req_loadL. unfold loadL, liftH, hloadL. cbn [s_h s_t]. destruct (h_leaves h !! la) as [l|]; [|done].
  destruct (leafMatches _ _); [done|apply IH].
Qed.
Lemma run_ownLeaf key n (s : st V) : run (pownLeaf key n) s = (ownLeaf (s_h s) key n, s).
Proof.
  unfold pownLeaf, ownLeaf. destruct (n_leaf n) as [la|]; [|done]. rewrite run_pbind. unfold bind. rewrite req_loadL. unfold loadL, liftH, hloadL.
  destruct s as [h t]; cbn [s_h s_t]. by destruct (h_leaves h !! la).
Qed.
Lemma run_searchExit key a n (s : st V) : run (psearchExit key a n) s = (searchExit (s_h s) key a n, s).
Proof.
  unfold psearchExit, searchExit. rewrite run_pbind. unfold bind. rewrite run_ownLeaf. destruct (ownLeaf _ _ _) as [[la|]| |]; cbn [obind]; [done| |done..].
  rewrite run_pbind. unfold bind. rewrite run_scan. by destruct (scanChildren _ _ _) as [[la|]| |].
Qed.
Lemma run_search f a key d (s : st V) : run (psearch f a key d) s = (search f (s_h s) a key d, s).
Proof.
  revert a d s. induction f as [|f IH]; intros a d s; cbn [psearch search]; [done|]. rewrite run_pbind. unfold bind. rewrite req_loadN. unfold loadN, liftH, hloadN.
  destruct s as [h t]; cbn [s_h s_t]. destruct (h_nodes h !! a) as [n|]; [|done]. rewrite run_pbind. unfold bind.
  assert (E : run (if isLeafN n then pownLeaf key n else pret None) (mkS h t) = (if isLeafN n then ownLeaf h key n else Ok None, mkS h t)).
  { destruct (isLeafN n); [apply run_ownLeaf|done]. }
  rewrite E. destruct (if isLeafN n then ownLeaf h key n else Ok None) as [[la|]| |]; cbn [obind]; [done| |done..].
  rewrite run_pbind. unfold bind.
  assert (E2 : run (if 0 <? n_plen n then plift (checkPrefix (n_partial n) (n_plen n) key d) else pret 0) (mkS h t) =
    (if 0 <? n_plen n then checkPrefix (n_partial n) (n_plen n) key d else Ok 0, mkS h t)) by by destruct (0 <? n_plen n).
  rewrite E2. destruct (if 0 <? n_plen n then _ else Ok 0) as [pl| |]; cbn [obind]; [|done..].
  destruct (_ && _); [apply run_searchExit|]. destruct (key !! _) as [c|]; [|apply run_searchExit]. rewrite run_pbind. unfold bind. rewrite req_lift. unfold lift.
  destruct (findChild n c) as [[[ca|] i]| |]; cbn [obind fst]; [apply IH|apply run_searchExit|done..].
Qed.
Lemma run_getFrom root key (s : st V) : run (pgetFrom root key) s = (getFrom (s_h s) root key, s).
Proof.
  unfold pgetFrom, getFrom. rewrite run_pbind. unfold bind. rewrite run_search. destruct (search _ _ _ _ _) as [[la|a]| |]; cbn [obind]; [|done..].
  rewrite run_pbind. unfold bind. rewrite req_loadL. unfold loadL, liftH, hloadL. destruct s as [h t]; cbn [s_h s_t]. by destruct (h_leaves h !! la).
Qed.
End ProgEq.
