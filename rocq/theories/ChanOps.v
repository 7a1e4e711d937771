(** The routines that build and change nodes, and the channels they record (ChanKind.v). *)
From Verif Require Export ChanKind.
From stdpp Require Import list.
Local Open Scope nat_scope.

(** rewrite a fact [b = true -> goodN h a] along [stable h h'] *)
Lemma stN {V} `{GoZero V} kk b (h h' : heap V) a : stable kk b h h' -> (b = true -> goodN kk h a) -> b = true -> goodN kk h' a.
Proof. intros Hs Hg Eb. by apply (Hs Eb), Hg. Qed.
Lemma stL {V} `{GoZero V} kk b (h h' : heap V) a : stable kk b h h' -> (b = true -> goodL kk h a) -> b = true -> goodL kk h' a.
Proof. intros Hs Hg Eb. by apply (Hs Eb), Hg. Qed.
Ltac fwd St := cbv beta in *; lazymatch type of St with ChanKind.stable _ _ ?h ?h' => repeat match goal with
  | G : _ = true -> goodN _ h _ |- _ => pose proof (stN _ _ _ _ _ St G); clear G
  | G : _ = true -> goodL _ h _ |- _ => pose proof (stL _ _ _ _ _ St G); clear G
  end end.

Section ChanOps.
Context {V : Type} `{GoZero V}.
Notation TM := (M (st V)).
Variable kk : bytes.
Variable c : chan.
Variable b : bool.
Notation tp := (tp (V:=V) kk c b).
Notation goodL := (goodL (V:=V) kk).
Notation goodN := (goodN (V:=V) kk).
Notation stable := (stable (V:=V) kk b).
Notation tT := (fun _ _ => True).

(** node routines keep the leaf *)
Definition kl (f : inode -> outcome inode) : Prop := forall n n', f n = Ok n' -> n_leaf n' = n_leaf n.
Notation tr := (fun _ : option addr => True).
Lemma FT (l : list (option addr)) : Forall tr l.
Proof. by apply Forall_true. Qed.
Lemma kl_setChildN i x : kl (fun n => setChildN n i x).
Proof. intros n n' E. by apply (kp_setChildN tr n i x n' E I). Qed.
Lemma kl_setKeyAtIdx i x : kl (fun n => setKeyAtIdx n i x).
Proof. intros n n' E. by apply (kp_setKeyAtIdx tr n i x n' E). Qed.
Lemma kl_insertSorted x y : kl (fun n => insertSorted n x y).
Proof. intros n n' E. by apply (kp_insertSorted tr n x y n' E I). Qed.
Lemma kl_insert48 x y : kl (fun n => insert48 n x y).
Proof. intros n n' E. by apply (kp_insert48 tr n x y n' E I). Qed.
Lemma kl_insert256 x y : kl (fun n => insert256 n x y).
Proof. intros n n' E. by apply (kp_insert256 tr n x y n' E I). Qed.
Lemma kl_copyHeader x : kl (fun n => copyHeader n x).
Proof. intros n n' E. by apply (kp_copyHeader tr n x n' E). Qed.
Lemma kl_fill48 x l : kl (fun n => fill48 n x l).
Proof. intros n n' E. by apply (kp_fill48 tr l n x n' E). Qed.
Lemma kl_fill256 x l : kl (fun n => fill256 n x l).
Proof. intros n n' E. by apply (kp_fill256 tr I l n x n' E (FT _)). Qed.
Lemma kl_fill16 x j l : kl (fun n => fill16 n x j l).
Proof. intros n n' E. by apply (kp_fill16 tr I l j n x n' E (FT _)). Qed.
Lemma kl_fill48from256 x j l : kl (fun n => fill48from256 n x j l).
Proof. intros n n' E. by apply (kp_fill48from256 tr I l j n x n' E (FT _)). Qed.
Lemma kl_ok f : (forall n, n_leaf (f n) = n_leaf n) -> kl (fun n => Ok (f n)).
Proof. intros Hf n n' [= <-]. apply Hf. Qed.
Lemma tp_u a f s : kc f -> kl f -> tp (updN a f) s tT.
Proof. intros Hc Hl. eapply tp_conseq; [by apply tp_upd|done]. Qed.
Ltac tu := apply tp_u;
  first [ by apply kc_ok | apply kc_setChildN | apply kc_setKeyAtIdx | apply kc_insertSorted | apply kc_insert48 | apply kc_insert256 | apply kc_copyHeader | apply kc_fill48 | apply kc_fill256
        | apply kc_fill16 | apply kc_fill48from256
        | by apply kl_ok | apply kl_setChildN | apply kl_setKeyAtIdx | apply kl_insertSorted | apply kl_insert48 | apply kl_insert256 | apply kl_copyHeader | apply kl_fill48 | apply kl_fill256
        | apply kl_fill16 | apply kl_fill48from256 ].
(** one step: [tb L] runs the first statement by lemma L and moves the known facts to the new state *)
Ltac tb L := eapply tp_bind; [L|]; let St := fresh "St" in intros ? ? _ St ?; fwd St.
Ltac tbu := tb tu.

Lemma tp_setChild a i x s : tp (setChild a i x) s tT.
Proof. unfold setChild. tu. Qed.
Lemma tp_copyPartial a l s : tp (copyPartial a l) s tT.
Proof. unfold copyPartial. tu. Qed.

Lemma tp_cloneN a k s : tp (liftH (cloneN a k)) s (fun a' s' => (b = true -> goodN (s_h s) a -> goodN (s_h s') a') /\ is_Some (h_nodes (s_h s') !! a')).
Proof.
  assert (E : forall s, liftH (cloneN (V:=V) a k) s = (let! d := (if k then let! d := liftH (getMutateChN a) in ret (Some d) else ret None) in
     let! n := loadN a in liftH (hallocN (set_ch (set_partial n (clonePartial (n_partial n))) d))) s).
  { intros [h x]. unfold liftH, cloneN, loadN, liftH, bind, ret. cbn. destruct k; [|cbn; by destruct (hloadN a h) as [[]]]. cbn [s_h s_t]. destruct (getMutateChN a h) as [[d| |] h1]; [|done..].
    cbn. by destruct (hloadN a h1) as [[]]. }
  unfold ChanKind.tp. rewrite E. revert s.
  enough (Hx : forall s, tp (let! d := (if k then let! d := liftH (getMutateChN a) in ret (Some d) else ret None) in
     let! n := loadN a in liftH (hallocN (set_ch (set_partial n (clonePartial (n_partial n))) d))) s
     (fun a' s' => (b = true -> goodN (s_h s) a -> goodN (s_h s') a') /\ is_Some (h_nodes (s_h s') !! a'))) by exact Hx.
  intros s. eapply (tp_bind _ _ _ _ _ _ (fun d s' => forall d', d = Some d' -> exists n, h_nodes (s_h s') !! a = Some n /\ n_ch n = Some d')).
  { destruct k; [|by apply tp_ret]. eapply tp_bind; [apply tp_getMutateChN|]. intros d s' _ _ (_ & n & n' & _ & Hn & Hd & _). apply tp_ret. intros d' [= <-]. eauto. }
  intros d s1 _ St Hd. eapply tp_bind; [apply tp_loadN|]. intros n s' _ _ [-> Hn]. eapply tp_conseq; [apply tp_allocN|].
  - cbn. intros d' ->. destruct (Hd _ eq_refl) as (n' & Hn' & Hd'). eauto.
  - cbn. intros a' (Hg & _ & _ & Ha'). split; [|by rewrite Ha']. intros Eb G. apply Hg; [done|]. apply (St Eb) in G as (n' & Hn' & G). rewrite Hn in Hn'. injection Hn' as <-. exact G.
Qed.
Lemma tp_cloneL a k s : tp (liftH (cloneL a k)) s (fun a' s' => exists l l', h_leaves (s_h s) !! a = Some l /\ h_leaves (s_h s') !! a' = Some l' /\ l_key l' = l_key l).
Proof.
  assert (E : forall s, liftH (cloneL (V:=V) a k) s = (let! d := (if k then let! d := liftH (getMutateChL a) in ret (Some d) else ret None) in
     let! l := loadL a in liftH (hallocL (setl_ch l d))) s).
  { intros [h x]. unfold liftH, cloneL, loadL, liftH, bind, ret. cbn. destruct k; [|cbn; by destruct (hloadL a h) as [[]]]. cbn [s_h s_t]. destruct (getMutateChL a h) as [[d| |] h1]; [|done..].
    cbn. by destruct (hloadL a h1) as [[]]. }
  unfold ChanKind.tp. rewrite E. revert s.
  enough (Hx : forall s, tp (let! d := (if k then let! d := liftH (getMutateChL a) in ret (Some d) else ret None) in
     let! l := loadL a in liftH (hallocL (setl_ch l d))) s
     (fun a' s' => exists l l', h_leaves (s_h s) !! a = Some l /\ h_leaves (s_h s') !! a' = Some l' /\ l_key l' = l_key l)) by exact Hx.
  intros s. eapply (tp_bind _ _ _ _ _ _ (fun d s' => (forall d', d = Some d' -> exists l, h_leaves (s_h s') !! a = Some l /\ l_ch l = Some d') /\
     (forall l', h_leaves (s_h s') !! a = Some l' -> exists l, h_leaves (s_h s) !! a = Some l /\ l_key l' = l_key l))).
  { destruct k; [|apply tp_ret; split; [done|eauto]]. eapply tp_bind; [apply tp_getMutateChL|]. intros d s' _ _ (_ & l & Hl & Hl'). apply tp_ret. split.
    - intros d' [= <-]. eauto.
    - intros l' Hl2. rewrite Hl' in Hl2. injection Hl2 as <-. eauto. }
  intros d s1 _ St [Hd Hk]. eapply tp_bind; [apply tp_loadL|]. intros l s' _ _ [-> Hl]. destruct (Hk _ Hl) as (l0 & Hl0 & Ek). eapply tp_conseq; [apply tp_allocL|].
  - cbn. intros d' ->. destruct (Hd _ eq_refl) as (l' & Hl' & Hd'). rewrite Hl in Hl'. injection Hl' as <-. eauto.
  - cbn. intros a' (Ha' & _). exists l0. eexists. split; [done|]. split; [done|]. done.
Qed.

Lemma tp_writeNode a k s : (k = true -> b = true -> goodN (s_h s) a) -> tp (writeNode a k) s (fun a' s' => b = true -> goodN (s_h s) a -> goodN (s_h s') a').
Proof.
  intros Hg. unfold writeNode.
  eapply (tp_bind _ _ _ _ _ _ (fun _ s' => stable (s_h s) (s_h s'))).
  { destruct k; [|apply tp_ret; apply stable_refl]. eapply tp_bind; [apply tp_trackN|]. intros [] s1 _ St1 _. assert (G : b = true -> goodN (s_h s1) a) by (intros Eb; apply (St1 Eb); by apply Hg).
    eapply tp_bind; [apply tp_loadN|]. intros n s' _ _ [-> Hn]. destruct (n_leaf n) as [la|] eqn:El; cbn [trackOptL]; [|apply tp_ret; exact St1].
    intros q Hq. destruct (tp_trackL kk c b la s1) with (q := q) as (q' & H1 & H2 & H3 & H4 & H5); [|done|].
    - intros Eb. destruct (G Eb) as (n' & Hn' & Hl). rewrite Hn in Hn'. injection Hn' as <-. by apply Hl.
    - exists q'. split_and!; try done. destruct (trackL la s1).1; [|done..]. by eapply stable_trans. }
  intros [] s1 _ _ St1. eapply tp_bind; [apply tp_loadN|]. intros n s' _ _ [-> Hn]. apply tp_getT. destruct (Nat.ltb _ _).
  - apply tp_ret. intros Eb G. by apply (St1 Eb).
  - eapply tp_bind; [apply tp_cloneN|]. intros a' s2 _ St2 [Hc [n1 Hn1]]. eapply tp_bind; [apply tp_nextId|]. intros i s3 _ St3 E3.
    eapply tp_bind; [apply tp_loadN|]. intros n2 s' _ _ [-> Hn2]. eapply tp_bind; [eapply tp_storeN; [exact Hn2|done|]|].
    + cbn. intros Eb (n3 & Hn3 & G). rewrite Hn2 in Hn3. injection Hn3 as <-. exact G.
    + intros [] s4 _ St4 _. apply tp_ret. intros Eb G. apply (St4 Eb), (St3 Eb), Hc; [done|]. by apply (St1 Eb).
Qed.
Lemma tp_writeNodeF a s : tp (writeNode a false) s (fun a' s' => b = true -> goodN (s_h s) a -> goodN (s_h s') a').
Proof. by apply tp_writeNode. Qed.
Lemma tp_writeLeaf a k s : (k = true -> b = true -> goodL (s_h s) a) -> tp (writeLeaf a k) s (fun a' s' => b = true -> goodL (s_h s) a -> goodL (s_h s') a').
Proof.
  intros Hg. unfold writeLeaf.
  eapply (tp_bind _ _ _ _ _ _ (fun _ s' => stable (s_h s) (s_h s'))).
  { destruct k; [|apply tp_ret; apply stable_refl].
    intros q Hq. destruct (tp_trackL kk c b a s) with (q := q) as (q' & H1 & H2 & H3 & H4 & H5); [|done|].
    - intros Eb. by apply Hg.
    - exists q'. split_and!; try done. by destruct (trackL a s).1. }
  intros [] s1 _ _ St1. eapply tp_bind; [apply tp_loadL|]. intros n s' _ _ [-> Hn]. apply tp_getT. destruct (Nat.ltb _ _).
  - apply tp_ret. intros Eb G. by apply (St1 Eb).
  - eapply tp_bind; [apply tp_cloneL|]. intros a' s2 _ St2 (l & l' & Hl & Hl' & Ek). eapply tp_bind; [apply tp_nextId|]. intros i s3 _ St3 E3.
    eapply tp_bind; [apply tp_loadL|]. intros n2 s' _ _ [-> Hn2]. eapply tp_bind; [eapply tp_storeL; [exact Hn2|by right|done]|].
    intros [] s4 _ St4 _. apply tp_ret. intros Eb G. apply (St4 Eb), (St3 Eb). apply (St1 Eb) in G as (l2 & Hl2 & G). exists l'. split; [done|].
    rewrite Ek. rewrite Hl in Hl2. by injection Hl2 as <-.
Qed.
Lemma tp_moveLeaf nn o s : (b = true -> forall la, o = Some la -> goodL (s_h s) la) -> tp (moveLeaf nn o) s tT.
Proof.
  intros Hg. destruct o as [la|]; cbn [moveLeaf]; [|by apply tp_ret]. assert (G : b = true -> goodL (s_h s) la) by auto. clear Hg.
  eapply tp_bind; [by apply tp_writeLeaf|]. intros nl s' _ St Hp. apply tp_setNodeLeaf. intros Eb la' [= <-]. auto.
Qed.
Lemma tp_makeLeaf k v s : (b = true -> k <> kk) -> tp (makeLeaf k v) s (fun a s' => b = true -> goodN (s_h s') a).
Proof.
  intros Hk. unfold makeLeaf. eapply tp_bind; [apply tp_allocLeaf|]. intros l s1 _ _ (i & Hl). eapply tp_bind; [apply tp_nextId|]. intros j s2 _ _ E. 
  eapply tp_bind; [apply tp_loadL|]. intros x s' _ _ [-> Hx]. rewrite E, Hl in Hx. injection Hx as <-. eapply tp_bind; [eapply tp_storeL; [rewrite E; exact Hl|by left|]|].
  { cbn. auto. }
  cbn. intros [] s3 _ _ [Hl3 _]. assert (G : b = true -> goodL (s_h s3) l). { intros Eb. eexists. split; [exact Hl3|]. cbn. auto. }
  eapply tp_bind; [apply tp_allocNode|]. intros n4 s4 _ St Gn. fwd St. eapply tp_bind; [apply tp_setNodeLeaf|]. { intros Eb la [= <-]. auto. }
  intros [] s5 _ St5 _. fwd St5. tb ltac:(apply tp_nextId). tb tu. by apply tp_ret.
Qed.

(** ** addChild and removeChild *)
Notation tG := (fun (a' : addr) (s' : st V) => b = true -> goodN (s_h s') a').
Lemma tp_addChild256 a x d s : (b = true -> goodN (s_h s) a) -> tp (addChild256 a x d) s tG.
Proof. intros G. unfold addChild256. tbu. by apply tp_ret. Qed.
Lemma good_leaf (h : heap V) a n : h_nodes h !! a = Some n -> (b = true -> goodN h a) -> b = true -> forall la, n_leaf n = Some la -> goodL h la.
Proof. intros Hn G Eb la Hla. destruct (G Eb) as (n' & Hn' & Gl). rewrite Hn in Hn'. injection Hn' as <-. by apply Gl. Qed.
Lemma st_leaf h h' (o : option addr) : stable h h' -> (b = true -> forall la, o = Some la -> goodL h la) -> (b = true -> forall la, o = Some la -> goodL h' la).
Proof. intros St G Eb la Hla. apply (St Eb). by apply G. Qed.
Ltac fl St Gl := let G := fresh in pose proof (st_leaf _ _ _ St Gl) as G; clear Gl; rename G into Gl.
Lemma tp_addChild48 a x d s : (b = true -> goodN (s_h s) a) -> tp (addChild48 a x d) s tG.
Proof.
  intros G. unfold addChild48. eapply tp_bind; [apply tp_loadN|]. intros n s' _ _ [-> Hn]. pose proof (good_leaf _ _ _ Hn G) as Gl. destruct (Nat.ltb _ _); [tbu; by apply tp_ret|].
  eapply tp_bind; [apply tp_allocNode|]. intros nn s1 _ St Gn. eapply tp_bind; [apply tp_moveLeaf; by eapply st_leaf|]. intros [] s2 _ St2 _. fwd St2. tbu. tbu. by apply tp_addChild256.
Qed.
Lemma tp_addChild16 a x d s : (b = true -> goodN (s_h s) a) -> tp (addChild16 a x d) s tG.
Proof.
  intros G. unfold addChild16. eapply tp_bind; [apply tp_loadN|]. intros n s' _ _ [-> Hn]. pose proof (good_leaf _ _ _ Hn G) as Gl. destruct (Nat.ltb _ _); [tbu; by apply tp_ret|].
  eapply tp_bind; [apply tp_allocNode|]. intros nn s1 _ St Gn. eapply tp_bind; [apply tp_moveLeaf; by eapply st_leaf|]. intros [] s2 _ St2 _. fwd St2. tbu. tbu. tbu. by apply tp_addChild48.
Qed.
Lemma tp_addChild4 a x d s : (b = true -> goodN (s_h s) a) -> tp (addChild4 a x d) s tG.
Proof.
  intros G. unfold addChild4. eapply tp_bind; [apply tp_loadN|]. intros n s' _ _ [-> Hn]. pose proof (good_leaf _ _ _ Hn G) as Gl. destruct (Nat.ltb _ _); [tbu; by apply tp_ret|].
  eapply tp_bind; [apply tp_allocNode|]. intros nn s1 _ St Gn. eapply tp_bind; [apply tp_moveLeaf; by eapply st_leaf|]. intros [] s2 _ St2 _. fwd St2. tbu. tbu. tbu. by apply tp_addChild16.
Qed.
Lemma tp_addChild a x d s : (b = true -> goodN (s_h s) a) -> tp (addChild a x d) s tG.
Proof.
  intros G. unfold addChild. eapply tp_bind; [apply tp_loadN|]. intros n s' _ _ [-> Hn]. destruct (n_kind n); [by apply tp_addChild4|by apply tp_addChild16|by apply tp_addChild48|by apply tp_addChild256].
Qed.

(** storing back a node with the same channel and leaf *)
Lemma tp_storeSame a n n0 s : h_nodes (s_h s) !! a = Some n0 -> n_ch n = n_ch n0 -> n_leaf n = n_leaf n0 -> tp (storeN a n) s (fun _ s' => h_nodes (s_h s') !! a = Some n).
Proof.
  intros Hn Hc Hl. eapply tp_conseq; [eapply tp_storeN; [exact Hn|done|]|].
  - intros Eb (n' & Hn' & G). rewrite Hn in Hn'. injection Hn' as <-. by rewrite Hl.
  - intros [] ->. cbn. apply lookup_insert.
Qed.
Lemma tp_rhead {B} a x (K : TM B) s (Q : B -> st V -> Prop) : (forall s1, (b = true -> goodN (s_h s) a -> goodN (s_h s1) a) -> tp K s1 Q) ->
  tp (let! n := loadN a in let! '(stale, n1) := lift (removeSorted n x) in trackAllN stale ;;; let! n0 := loadN a in storeN a (set_ch n1 (n_ch n0)) ;;; K) s Q.
Proof.
  intros HK. eapply tp_bind; [apply tp_loadN|]. intros n s' _ _ [-> Hn]. eapply tp_bind; [apply (tp_lift _ _ _ _ _ (fun y s' => s' = s /\ removeSorted n x = Ok y)); done|].
  intros [stale n1] s' _ _ [-> Er]. eapply tp_bind; [apply tp_trackAllN|]. intros [] s1 _ St1 [_ Hk]. destruct (Hk _ _ Hn) as (n0 & Hn0 & El).
  eapply tp_bind; [apply tp_loadN|]. intros n0' s' _ _ [-> Hn0']. rewrite Hn0 in Hn0'. injection Hn0' as <-.
  eapply tp_bind; [eapply tp_storeSame; [exact Hn0|done|]|].
  - cbn. rewrite El. apply (kp_removeSorted tr I n x stale n1 Er).
  - intros [] s2 _ St2 _. apply HK. intros Eb G. by apply (St2 Eb), (St1 Eb).
Qed.
Lemma tp_removeChild4 a x s : (b = true -> goodN (s_h s) a) -> tp (removeChild4 a x) s tT.
Proof.
  intros G0. unfold removeChild4. apply tp_rhead. intros s1 G1. assert (G : b = true -> goodN (s_h s1) a) by auto. clear G0 G1.
  eapply tp_bind; [apply tp_loadN|]. intros n s' _ _ [-> Hn]. destruct (_ && _); [|by apply tp_ret]. eapply tp_bind; [apply (tp_lift _ _ _ _ _ (fun y s' => s' = s1)); done|].
  intros ch0 s' _ _ ->. destruct ch0 as [ch|]; [|apply tp_panic]. tb ltac:(apply tp_writeNodeF). eapply tp_bind; [apply tp_loadN|]. intros n2 s2 _ _ [-> Hn2].
  eapply tp_bind; [apply tp_loadN|]. intros child s2 _ _ [-> Hch]. eapply tp_bind; [apply (tp_lift _ _ _ _ _ (fun y s2 => s2 = s' /\ mergePrefix n2 child = Ok y)); done|].
  intros [part child'] s2 _ _ [-> Em]. eapply tp_bind; [eapply tp_storeSame; [exact Hn2|done..]|]. intros [] s2 E2 St2 Ha2. fwd St2.
  assert (Hx : exists n3, h_nodes (s_h s2) !! a0 = Some n3 /\ n_ch n3 = n_ch child /\ n_leaf n3 = n_leaf child).
  { unfold storeN, liftH, hstoreN in E2. cbn in E2. destruct s' as [h' x']. cbn in *. injection E2 as <-. cbn in *. destruct (decide (a0 = a)) as [->|Hne].
    - rewrite lookup_insert. rewrite Hn2 in Hch. injection Hch as <-. eexists. done.
    - rewrite lookup_insert_ne by done. eauto. }
  destruct Hx as (n3 & Hn3 & Ec & El). eapply tp_bind; [eapply tp_storeSame; [exact Hn3|..]|].
  - rewrite Ec. by eapply mergePrefix_ch.
  - rewrite El. by apply (kp_mergePrefix tr n2 child part child' Em).
  - intros [] s3 _ _ _. eapply tp_bind; [apply tp_trackN|]. intros. by apply tp_ret.
Qed.
Lemma tp_removeChild16 a x s : (b = true -> goodN (s_h s) a) -> tp (removeChild16 a x) s tT.
Proof.
  intros G0. unfold removeChild16. apply tp_rhead. intros s1 G1. assert (G : b = true -> goodN (s_h s1) a) by auto. clear G0 G1.
  eapply tp_bind; [apply tp_loadN|]. intros n s' _ _ [-> Hn]. pose proof (good_leaf _ _ _ Hn G) as Gl. destruct (Nat.eqb _ _); [|by apply tp_ret].
  eapply tp_bind; [apply tp_trackN|]. intros [] s2 _ St _. fl St Gl. clear St. eapply tp_bind; [apply tp_allocNode|]. intros nn s3 _ St _. fl St Gl. clear St.
  do 3 (eapply tp_bind; [tu|]; intros [] ? _ St _; fl St Gl; clear St).
  eapply tp_bind; [by apply tp_moveLeaf|]. intros [] s7 _ St _. fl St Gl. eapply tp_bind; [by apply tp_setNodeLeaf|]. intros. by apply tp_ret.
Qed.
Lemma tp_removeChild48 a x s : (b = true -> goodN (s_h s) a) -> tp (removeChild48 a x) s tT.
Proof.
  intros G. unfold removeChild48. eapply tp_bind; [apply tp_loadN|]. intros n s' _ _ [-> Hn].
  eapply tp_bind; [apply (tp_lift _ _ _ _ _ (fun y s' => s' = s)); done|]. intros pos s' _ _ ->. tbu.
  eapply tp_bind; [apply (tp_lift _ _ _ _ _ (fun y s1 => s1 = s')); done|]. intros old s1 _ _ ->.
  eapply (tp_bind _ _ _ _ _ _ tT). { destruct old; [|by apply tp_ret]. eapply tp_conseq; [apply tp_trackN|done]. }
  intros [] s2 _ St2 _. fwd St2. tbu. tbu. eapply tp_bind; [apply tp_loadN|]. intros n3 s3 _ _ [-> Hn3].
  match goal with G : b = true -> ChanKind.goodN _ _ _ |- _ => pose proof (good_leaf _ _ _ Hn3 G) as Gl end. destruct (Nat.eqb _ _); [|by apply tp_ret].
  eapply tp_bind; [apply tp_allocNode|]. intros nn s4 _ St4 _. fl St4 Gl. clear St4. eapply tp_bind; [apply tp_trackN|]. intros [] s5 _ St5 _. fl St5 Gl. clear St5.
  eapply tp_bind; [tu|]. intros [] s6 _ St6 _. fl St6 Gl. eapply tp_bind; [by apply tp_moveLeaf|]. intros [] s7 _ _ _. tbu. by apply tp_ret.
Qed.
Lemma tp_removeChild256 a x s : (b = true -> goodN (s_h s) a) -> tp (removeChild256 a x) s tT.
Proof.
  intros G. unfold removeChild256. tbu. tbu. eapply tp_bind; [apply tp_loadN|]. intros n3 s3 _ _ [-> Hn3].
  match goal with G : b = true -> ChanKind.goodN _ _ _ |- _ => pose proof (good_leaf _ _ _ Hn3 G) as Gl end. destruct (Nat.eqb _ _); [|by apply tp_ret].
  eapply tp_bind; [apply tp_allocNode|]. intros nn s4 _ St4 _. fl St4 Gl. clear St4.
  eapply tp_bind; [tu|]. intros [] s6 _ St6 _. fl St6 Gl. clear St6. eapply tp_bind; [apply tp_trackN|]. intros [] s5 _ St5 _. fl St5 Gl. clear St5.
  eapply tp_bind; [by apply tp_moveLeaf|]. intros [] s7 _ _ _. tbu. by apply tp_ret.
Qed.
Lemma tp_removeChild a x s : (b = true -> goodN (s_h s) a) -> tp (removeChild a x) s tT.
Proof.
  intros G. unfold removeChild. eapply tp_bind; [apply tp_loadN|]. intros n s' _ _ [-> Hn]. destruct (n_kind n); [by apply tp_removeChild4|by apply tp_removeChild16|by apply tp_removeChild48|by apply tp_removeChild256].
Qed.
Lemma liftH_t {A} (m : M (heap V) A) (s : st V) o s' : liftH m s = (o, s') -> s_t s' = s_t s.
Proof. unfold liftH. destruct (m (s_h s)). by intros [= _ <-]. Qed.
Lemma tp_installEmptyRoot s : tp installEmptyRoot s tT.
Proof.
  unfold installEmptyRoot. apply tp_getT. eapply tp_bind; [apply tp_allocL; done|]. intros l s1 E1%liftH_t _ [Hl _]. eapply tp_bind; [apply tp_allocN; done|].
  intros r s2 E2%liftH_t _ _. eapply tp_conseq; [apply tp_putT|done]. cbn. by rewrite E2, E1.
Qed.
End ChanOps.
