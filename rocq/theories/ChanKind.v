(** Which cells a channel belongs to: a channel is either the channel of inner nodes, or the channel of leaves
    of one key.  And which channels an update records: an update of a key that is neither a prefix nor an
    extension of a given key does not record the channels of the leaves of that key. *)
From Verif Require Export KeepN Own.
From Verif Require Import Prims.
From stdpp Require Import list.
Local Open Scope nat_scope.

Section ChanKind.
Context {V : Type} `{GoZero V}.
Notation TM := (M (st V)).
Notation HM := (M (heap V)).
Variable kk : bytes.
Variable c : chan.
Variable b : bool.

Definition goodL (h : heap V) (la : addr) : Prop := exists l, h_leaves h !! la = Some l /\ l_key l <> kk.
Definition goodN (h : heap V) (a : addr) : Prop := exists n, h_nodes h !! a = Some n /\ forall la, n_leaf n = Some la -> goodL h la.
Definition stable (h h' : heap V) : Prop := b = true -> (forall la, goodL h la -> goodL h' la) /\ (forall a, goodN h a -> goodN h' a).

(** memory *)
Record HInv (q : bool) (h : heap V) : Prop := mk_HInv {
  i_an : forall a n, h_nodes h !! a = Some n -> a < h_next h;
  i_al : forall a l, h_leaves h !! a = Some l -> a < h_next h;
  i_cn : forall a n d, h_nodes h !! a = Some n -> n_ch n = Some d -> d < h_nextch h /\ (d = c -> q = false);
  i_cl : forall a l d, h_leaves h !! a = Some l -> l_ch l = Some d -> d < h_nextch h /\ (d = c -> (l_key l = kk <-> q = true)) }.
(** the channels a transaction has recorded *)
Record XInv (q : bool) (h : heap V) (x : txn) : Prop := mk_XInv {
  i_x : forall d, d ∈ t_chs x -> d < h_nextch h;
  i_q : b = true -> q = true -> c ∉ t_chs x }.
Definition Inv (q : bool) (s : st V) : Prop := HInv q (s_h s) /\ XInv q (s_h s) (s_t s).
(** while the channel does not exist yet its kind is open *)
Definition same (h : heap V) (q q' : bool) : Prop := c < h_nextch h -> q' = q.

Lemma HInv_open q q' h : h_nextch h <= c -> HInv q h -> HInv q' h.
Proof.
  intros Hc [H1 H2 H3 H4]. split; [done..| |].
  - intros a n d Hn Hd. destruct (H3 _ _ _ Hn Hd). split; [done|]. intros ->. lia.
  - intros a l d Hl Hd. destruct (H4 _ _ _ Hl Hd). split; [done|]. intros ->. lia.
Qed.
Lemma XInv_open q q' h x : h_nextch h <= c -> XInv q h x -> XInv q' h x.
Proof. intros Hc [H1 H2]. split; [done|]. intros _ _ Hx. apply H1 in Hx. lia. Qed.
Lemma Inv_open q q' s : h_nextch (s_h s) <= c -> Inv q s -> Inv q' s.
Proof. intros Hc [H1 H2]. split; [by eapply HInv_open|by eapply XInv_open]. Qed.

Lemma XInv_nc q h h' x : h_nextch h' = h_nextch h -> XInv q h x -> XInv q h' x.
Proof. intros E [H1 H2]. split; [|done]. by rewrite E. Qed.

Definition tp {A} (m : TM A) (s : st V) (Q : A -> st V -> Prop) : Prop := forall q, Inv q s ->
  exists q', Inv q' (m s).2 /\ same (s_h s) q q' /\ h_nextch (s_h s) <= h_nextch (s_h (m s).2) /\ stable (s_h s) (s_h (m s).2) /\
    match (m s).1 with Ok a => Q a (m s).2 | _ => True end.
Notation tT := (fun _ _ => True).

Lemma stable_refl h : stable h h.
Proof. by intros _. Qed.
Lemma stable_trans h1 h2 h3 : stable h1 h2 -> stable h2 h3 -> stable h1 h3.
Proof. intros A1 A2 E. destruct (A1 E), (A2 E). split; auto. Qed.
Lemma tp_conseq {A} (m : TM A) s (Q Q' : A -> st V -> Prop) : tp m s Q -> (forall a, Q a (m s).2 -> Q' a (m s).2) -> tp m s Q'.
Proof.
  intros Hm HQ q Hq. destruct (Hm q Hq) as (q' & H1 & H2 & H3 & H4 & H5). exists q'. split_and!; try done. destruct (m s).1; auto.
Qed.
Lemma tp_bind {A B} (m : TM A) (k : A -> TM B) s (Q : A -> st V -> Prop) R : tp m s Q ->
  (forall a s', m s = (Ok a, s') -> stable (s_h s) (s_h s') -> Q a s' -> tp (k a) s' R) -> tp (bind m k) s R.
Proof.
  intros Hm Hk q Hq. destruct (Hm q Hq) as (q' & H1 & H2 & H3 & H4 & H5). unfold bind. destruct (m s) as [[a| |] s'] eqn:E; cbn in *.
  - destruct (Hk a s' eq_refl H4 H5 q' H1) as (q'' & H1' & H2' & H3' & H4' & H5'). exists q''. split_and!; try done; [|lia|by eapply stable_trans].
    intros Hc. rewrite H2' by lia. by apply H2.
  - exists q'. split_and!; done.
  - exists q'. split_and!; done.
Qed.
Lemma tp_id {A} (m : TM A) s (Q : A -> st V -> Prop) : (m s).2 = s -> (forall a, (m s).1 = Ok a -> Q a s) -> tp m s Q.
Proof. intros E HQ q Hq. exists q. rewrite E. split_and!; try done. destruct (m s).1; auto. Qed.
Lemma tp_ret {A} (a : A) s (Q : A -> st V -> Prop) : Q a s -> tp (ret a) s Q.
Proof. intros HQ. apply tp_id; [done|]. by intros a' [= <-]. Qed.
Lemma tp_panic {A} s (Q : A -> st V -> Prop) : tp panic s Q.
Proof. by apply tp_id. Qed.
Lemma tp_nofuel {A} s (Q : A -> st V -> Prop) : tp nofuel s Q.
Proof. by apply tp_id. Qed.
Lemma tp_lift {A} (o : outcome A) s (Q : A -> st V -> Prop) : (forall a, o = Ok a -> Q a s) -> tp (lift o) s Q.
Proof. intros HQ. apply tp_id; [done|]. intros a Ha. by apply HQ. Qed.
Lemma tp_getT {B} (k : txn -> TM B) s R : tp (k (s_t s)) s R -> tp (bind getT k) s R.
Proof. intros Hk. exact Hk. Qed.
Lemma tp_getH {B} (k : heap V -> TM B) s R : tp (k (s_h s)) s R -> tp (bind getH k) s R.
Proof. intros Hk. exact Hk. Qed.
Lemma tp_byteAt k i s : tp (byteAt k i) s tT.
Proof. unfold byteAt. destruct (k !! i); [by apply tp_ret|apply tp_panic]. Qed.
Lemma tp_loadN a s : tp (loadN a) s (fun n s' => s' = s /\ h_nodes (s_h s) !! a = Some n).
Proof. apply tp_id; unfold loadN, liftH, hloadN; destruct s as [h x]; cbn; destruct (h_nodes h !! a); try done. by intros n [= <-]. Qed.
Lemma tp_loadL a s : tp (loadL a) s (fun l s' => s' = s /\ h_leaves (s_h s) !! a = Some l).
Proof. apply tp_id; unfold loadL, liftH, hloadL; destruct s as [h x]; cbn; destruct (h_leaves h !! a); try done. by intros n [= <-]. Qed.
Lemma tp_putT t s : t_chs t = t_chs (s_t s) -> tp (putT t) s (fun _ s' => s' = mkS (s_h s) t).
Proof.
  intros E q [Hq [H1 H2]]. exists q. destruct s as [h x]. cbn in *. split_and!; try done. split; [done|]. split; cbn; by rewrite E.
Qed.
Lemma tp_nextId s : tp nextId s (fun _ s' => s_h s' = s_h s).
Proof. unfold nextId. apply tp_getT. eapply tp_bind; [by apply tp_putT|]. intros [] s' _ _ ->. by apply tp_ret. Qed.

(** ** Stores *)
Lemma goodL_ins h h' la a n : (forall x, goodL h x -> goodL h' x) -> h_nodes h' = <[a := n]> (h_nodes h) ->
  (goodN h a -> forall x, n_leaf n = Some x -> goodL h' x) -> goodN h la -> goodN h' la.
Proof.
  intros HL E Hn (n0 & Hn0 & Hg). unfold goodN. rewrite E. destruct (decide (la = a)) as [->|Hne].
  - exists n. rewrite lookup_insert. split; [done|]. apply Hn. by exists n0.
  - exists n0. rewrite lookup_insert_ne by done. split; [done|]. intros x Hx. by apply HL, Hg.
Qed.
Lemma tp_storeN a n n0 s : h_nodes (s_h s) !! a = Some n0 -> n_ch n = n_ch n0 ->
  (b = true -> goodN (s_h s) a -> forall la, n_leaf n = Some la -> goodL (s_h s) la) ->
  tp (storeN a n) s (fun _ s' => s' = mkS (mkH (<[a := n]> (h_nodes (s_h s))) (h_leaves (s_h s)) (h_next (s_h s)) (h_nextch (s_h s)) (h_closed (s_h s))) (s_t s)).
Proof.
  intros Hn0 Hc Hl q [[H1 H2 H3 H4] Hx]. exists q. destruct s as [h x]. cbn in *. unfold storeN, liftH, hstoreN. cbn. split; [|split; [done|]; split; [done|]; split; [|done]].
  - split; [|apply (XInv_nc q h); [done|exact Hx]]. split; cbn; [|done| |done].
    + intros a' n' [[-> _]|[_ Ha]]%lookup_insert_Some; eauto.
    + intros a' n' d [[-> <-]|[_ Ha]]%lookup_insert_Some; [rewrite Hc|]; by eauto.
  - intros Eb. split; [done|]. intros a' Ha'. apply (goodL_ins h _ a' a n); [done|done|by apply Hl|done].
Qed.
Lemma tp_updN a f s : kc f -> (b = true -> goodN (s_h s) a -> forall n n', h_nodes (s_h s) !! a = Some n -> f n = Ok n' -> forall la, n_leaf n' = Some la -> goodL (s_h s) la) ->
  tp (updN a f) s (fun _ s' => h_leaves (s_h s') = h_leaves (s_h s)).
Proof.
  intros Hc Hl. unfold updN. eapply tp_bind; [apply tp_loadN|]. intros n s' _ _ [-> Hn]. eapply tp_bind; [apply (tp_lift _ _ (fun n' s' => s' = s /\ f n = Ok n'))|].
  { done. }
  intros n' s' _ _ [-> Hf]. eapply tp_conseq; [eapply tp_storeN; [done|by eapply Hc|]|].
  - intros Eb Hg. by eapply Hl.
  - by intros [] ->.
Qed.
Lemma tp_upd a f s : kc f -> (forall n n', f n = Ok n' -> n_leaf n' = n_leaf n) -> tp (updN a f) s (fun _ s' => h_leaves (s_h s') = h_leaves (s_h s)).
Proof.
  intros Hc Hl. apply tp_updN; [done|]. intros Eb (n0 & Hn0 & Hg) n n' Hn Hf la Hla. rewrite Hn0 in Hn. injection Hn as <-. apply Hg. by rewrite <- (Hl _ _ Hf).
Qed.
Lemma tp_setNodeLeaf a o s : (b = true -> forall la, o = Some la -> goodL (s_h s) la) -> tp (setNodeLeaf a o) s tT.
Proof.
  intros Ho. eapply tp_conseq; [apply tp_updN|done].
  - by intros n n' [= <-].
  - intros Eb _ n n' _ [= <-]. cbn. by apply Ho.
Qed.
Lemma tp_storeL a l l0 s : h_leaves (s_h s) !! a = Some l0 -> (l_ch l = None \/ (l_ch l = l_ch l0 /\ l_key l = l_key l0)) ->
  (b = true -> l_key l0 <> kk -> l_key l <> kk) -> tp (storeL a l) s (fun _ s' => h_leaves (s_h s') !! a = Some l /\ h_nodes (s_h s') = h_nodes (s_h s)).
Proof.
  intros Hl0 Hc Hk q [[H1 H2 H3 H4] Hx]. exists q. destruct s as [h x]. cbn in *. unfold storeL, liftH, hstoreL. cbn.
  split; [|split; [done|]; split; [done|]; split; [|by rewrite lookup_insert]].
  - split; [|apply (XInv_nc q h); [done|exact Hx]]. split; cbn; [done| |done|].
    + intros a' n' [[-> _]|[_ Ha]]%lookup_insert_Some; eauto.
    + intros a' n' d [[-> <-]|[_ Ha]]%lookup_insert_Some; [|by eauto]. destruct Hc as [->|[-> ->]]; [done|by eauto].
  - intros Eb. assert (HL : forall la, goodL h la -> goodL (mkH (h_nodes h) (<[a := l]> (h_leaves h)) (h_next h) (h_nextch h) (h_closed h)) la).
    { intros la (l1 & Hl1 & Hk1). unfold goodL. cbn. destruct (decide (la = a)) as [->|]; [|rewrite lookup_insert_ne by done; eauto].
      rewrite lookup_insert. rewrite Hl0 in Hl1. injection Hl1 as <-. exists l. auto. }
    split; [done|]. intros a' (n & Hn & Hg). exists n. split; [done|]. auto.
Qed.

(** ** New cells *)
Lemma tp_allocN n s : (forall d, n_ch n = Some d -> exists a0 n0, h_nodes (s_h s) !! a0 = Some n0 /\ n_ch n0 = Some d) ->
  tp (liftH (hallocN n)) s (fun a s' => (b = true -> (forall la, n_leaf n = Some la -> goodL (s_h s) la) -> goodN (s_h s') a) /\ h_leaves (s_h s') = h_leaves (s_h s) /\
     (forall a0 n0, h_nodes (s_h s) !! a0 = Some n0 -> h_nodes (s_h s') !! a0 = Some n0) /\ h_nodes (s_h s') !! a = Some n).
Proof.
  intros Hc q [[H1 H2 H3 H4] Hx]. exists q. destruct s as [h x]. cbn in *. unfold liftH, hallocN. cbn.
  assert (Hold : forall a0 n0, h_nodes h !! a0 = Some n0 -> <[h_next h := n]> (h_nodes h) !! a0 = Some n0).
  { intros a0 n0 Hn. rewrite lookup_insert_ne; [done|]. apply H1 in Hn. lia. }
  split; [|split; [done|]; split; [done|]; split].
  - split; [|apply (XInv_nc q h); [done|exact Hx]]. split; cbn.
    + intros a' n' [[-> _]|[_ Ha]]%lookup_insert_Some; [lia|]. apply H1 in Ha. lia.
    + intros a' l' Ha. apply H2 in Ha. lia.
    + intros a' n' d [[_ <-]|[_ Ha]]%lookup_insert_Some; [|by eauto]. intros (a0 & n0 & Hn0 & Hd)%Hc. by eauto.
    + done.
  - intros Eb. split; [done|]. intros a' (n' & Hn' & Hg). exists n'. cbn. auto.
  - split; [|split; [done|]; split; [done|by rewrite lookup_insert]]. intros Eb Hg. exists n. cbn. rewrite lookup_insert. split; [done|]. exact Hg.
Qed.
Lemma tp_allocNode k s : tp (allocNode k) s (fun a s' => b = true -> goodN (s_h s') a).
Proof.
  unfold allocNode. eapply tp_bind; [apply tp_nextId|]. intros i s1 _ _ E. eapply tp_conseq; [apply tp_allocN|]; [done|].
  cbn. intros a [Hg _] Eb. by apply Hg.
Qed.
Lemma tp_allocL l s : (forall d, l_ch l = Some d -> exists a0 l0, h_leaves (s_h s) !! a0 = Some l0 /\ l_ch l0 = Some d /\ l_key l0 = l_key l) ->
  tp (liftH (hallocL l)) s (fun a s' => h_leaves (s_h s') !! a = Some l /\ h_nodes (s_h s') = h_nodes (s_h s)).
Proof.
  intros Hc q [[H1 H2 H3 H4] Hx]. exists q. destruct s as [h x]. cbn in *. unfold liftH, hallocL. cbn.
  split; [|split; [done|]; split; [done|]; split; [|by rewrite lookup_insert]].
  - split; [|apply (XInv_nc q h); [done|exact Hx]]. split; cbn.
    + intros a' l' Ha. apply H1 in Ha. lia.
    + intros a' n' [[-> _]|[_ Ha]]%lookup_insert_Some; [lia|]. apply H2 in Ha. lia.
    + done.
    + intros a' n' d [[_ <-]|[_ Ha]]%lookup_insert_Some; [|by eauto]. intros (a0 & n0 & Hn0 & Hd & <-)%Hc. by eauto.
  - intros Eb. assert (HL : forall la, goodL h la -> goodL (mkH (h_nodes h) (<[h_next h := l]> (h_leaves h)) (S (h_next h)) (h_nextch h) (h_closed h)) la).
    { intros la (l1 & Hl1 & Hk1). exists l1. cbn. rewrite lookup_insert_ne; [done|]. apply H2 in Hl1. lia. }
    split; [done|]. intros a' (n & Hn & Hg). exists n. split; [done|]. auto.
Qed.
Lemma tp_allocLeaf s : tp allocLeaf s (fun a s' => exists i, h_leaves (s_h s') !! a = Some (mkL i go_zero [] None)).
Proof.
  unfold allocLeaf. eapply tp_bind; [apply tp_nextId|]. intros i s1 _ _ E. eapply tp_conseq; [apply tp_allocL|]; [done|].
  cbn. intros a [Hl _]. eauto.
Qed.
Lemma tp_setKV l k v i x s : h_leaves (s_h s) !! l = Some (mkL i x [] None) -> (b = true -> k <> kk) -> tp (setKV l k v) s (fun _ s' => b = true -> goodL (s_h s') l).
Proof.
  intros Hl Hk. unfold setKV. eapply tp_bind; [apply tp_loadL|]. intros l1 s' _ _ [-> Hl1]. rewrite Hl in Hl1. injection Hl1 as <-.
  eapply tp_conseq; [eapply tp_storeL; [exact Hl|by left|]|].
  - cbn. auto.
  - cbn. intros [] [Hl' _] Eb. eexists. split; [exact Hl'|]. cbn. auto.
Qed.

(** ** Channels *)
Definition chN (h : heap V) a n d nc : heap V := mkH (<[a := set_ch n (Some d)]> (h_nodes h)) (h_leaves h) (h_next h) nc (h_closed h).
Definition chL (h : heap V) a l d nc : heap V := mkH (h_nodes h) (<[a := setl_ch l (Some d)]> (h_leaves h)) (h_next h) nc (h_closed h).
Lemma chN_stable h a n d nc : h_nodes h !! a = Some n -> stable h (chN h a n d nc).
Proof.
  intros Hn Eb. split; [done|]. intros a' Ha'. apply (goodL_ins h _ a' a (set_ch n (Some d))); [done|done| |done]. cbn. intros (n0 & Hn0 & Hg) la Hla. rewrite Hn in Hn0. injection Hn0 as <-.
  by apply Hg.
Qed.
Lemma chL_stable h a l d nc : h_leaves h !! a = Some l -> stable h (chL h a l d nc).
Proof.
  intros Hl Eb. assert (HL : forall la, goodL h la -> goodL (chL h a l d nc) la).
  { intros la (l1 & Hl1 & Hk1). unfold goodL. cbn. destruct (decide (la = a)) as [->|]; [|rewrite lookup_insert_ne by done; eauto].
    rewrite lookup_insert. rewrite Hl in Hl1. injection Hl1 as <-. eexists. split; [done|]. done. }
  split; [done|]. intros a' (n & Hn & Hg). exists n. split; [done|]. auto.
Qed.
(** a new channel for a node: the kind of c becomes "node" if it is the new one *)
Lemma HInv_chN q q' h a n d nc : HInv q h -> h_nodes h !! a = Some n -> h_nextch h <= d -> d < nc -> same h q q' -> (h_nextch h <= c -> q' = false) -> HInv q' (chN h a n d nc).
Proof.
  intros Hq Hn Hd Hnc Hs Hop. assert (Hq' : HInv q' h).
  { destruct (decide (c < h_nextch h)); [by rewrite Hs|]. eapply HInv_open; [lia|done]. }
  destruct Hq' as [H1 H2 H3 H4]. split; cbn.
  - intros a' n' [[-> _]|[_ Ha]]%lookup_insert_Some; eauto.
  - done.
  - intros a' n' e [[-> <-]|[_ Ha]]%lookup_insert_Some.
    + cbn. intros [= <-]. split; [lia|]. intros ->. apply Hop. lia.
    + intros He. destruct (H3 _ _ _ Ha He). split; [lia|done].
  - intros a' l e Hl He. destruct (H4 _ _ _ Hl He). split; [lia|done].
Qed.
Lemma HInv_chL q q' h a l d nc : HInv q h -> h_leaves h !! a = Some l -> h_nextch h <= d -> d < nc -> same h q q' -> (h_nextch h <= c -> q' = bool_decide (l_key l = kk)) -> HInv q' (chL h a l d nc).
Proof.
  intros Hq Hl Hd Hnc Hs Hop. assert (Hq' : HInv q' h).
  { destruct (decide (c < h_nextch h)); [by rewrite Hs|]. eapply HInv_open; [lia|done]. }
  destruct Hq' as [H1 H2 H3 H4]. split; cbn.
  - done.
  - intros a' n' [[-> _]|[_ Ha]]%lookup_insert_Some; eauto.
  - intros a' n e Hn He. destruct (H3 _ _ _ Hn He). split; [lia|done].
  - intros a' n' e [[-> <-]|[_ Ha]]%lookup_insert_Some.
    + cbn. intros [= <-]. split; [lia|]. intros ->. rewrite Hop by lia. by rewrite bool_decide_eq_true.
    + intros He. destruct (H4 _ _ _ Ha He). split; [lia|done].
Qed.
Definition newkind (h : heap V) (q q0 : bool) : bool := if decide (c < h_nextch h) then q else q0.
Lemma newkind_same h q q0 : same h q (newkind h q q0).
Proof. intros Hc. unfold newkind. by rewrite decide_True. Qed.
Lemma newkind_open h q q0 : h_nextch h <= c -> newkind h q q0 = q0.
Proof. intros Hc. unfold newkind. rewrite decide_False by lia. done. Qed.
Lemma XInv_more q q' h h' x x' : XInv q h x -> h_nextch h <= h_nextch h' -> same h q q' -> t_chs x' = t_chs x -> XInv q' h' x'.
Proof.
  intros [H1 H2] Hn Hs E. split; rewrite E.
  - intros d Hd. apply H1 in Hd. lia.
  - intros Eb Eq Hc. assert (c < h_nextch h) by (by apply H1). rewrite Hs in Eq by done. by destruct (H2 Eb Eq).
Qed.

Lemma getN_cases (h : heap V) a n : h_nodes h !! a = Some n ->
  (exists d, n_ch n = Some d /\ getMutateChN a h = (Ok d, h)) \/
  (n_ch n = None /\ getMutateChN a h = (Ok (h_nextch h), chN h a n (h_nextch h) (S (h_nextch h)))).
Proof. intros Hl. unfold getMutateChN, bind, hloadN. rewrite Hl. destruct (n_ch n) as [d|]; [left; by exists d|right; done]. Qed.
Lemma getL_cases (h : heap V) a l : h_leaves h !! a = Some l ->
  (exists d, l_ch l = Some d /\ getMutateChL a h = (Ok d, h)) \/
  (l_ch l = None /\ getMutateChL a h = (Ok (h_nextch h), chL h a l (h_nextch h) (S (h_nextch h)))).
Proof. intros Hl. unfold getMutateChL, bind, hloadL. rewrite Hl. destruct (l_ch l) as [d|]; [left; by exists d|right; done]. Qed.

Lemma tp_getMutateChN a s : tp (liftH (getMutateChN a)) s
  (fun d s' => h_leaves (s_h s') = h_leaves (s_h s) /\ exists n n', h_nodes (s_h s) !! a = Some n /\ h_nodes (s_h s') !! a = Some n' /\ n_ch n' = Some d /\ n' = set_ch n (Some d)).
Proof.
  destruct s as [h x]. destruct (h_nodes h !! a) as [n|] eqn:Hn.
  2:{ apply tp_id; unfold liftH, getMutateChN, bind, hloadN; cbn; by rewrite Hn. }
  destruct (getN_cases h a n Hn) as [(d & Hd & E)|(Hd & E)].
  - intros q Hq. exists q. unfold liftH. cbn [s_h s_t]. rewrite E. cbn. split_and!; try done. exists n, n. split_and!; try done. destruct n; cbn in *; by subst.
  - intros q [Hq Hx]. exists (newkind h q false). unfold liftH. cbn [s_h s_t]. rewrite E. cbn. split; [split|split; [|split; [|split]]].
    + eapply HInv_chN; [done|done|lia|lia|apply newkind_same|apply newkind_open].
    + eapply XInv_more; [done| |apply newkind_same|done]. cbn. lia.
    + apply newkind_same.
    + lia.
    + by apply chN_stable.
    + split; [done|]. exists n. eexists. rewrite lookup_insert. done.
Qed.
Lemma tp_getMutateChL a s : tp (liftH (getMutateChL a)) s
  (fun d s' => h_nodes (s_h s') = h_nodes (s_h s) /\ exists l, h_leaves (s_h s) !! a = Some l /\ h_leaves (s_h s') !! a = Some (setl_ch l (Some d))).
Proof.
  destruct s as [h x]. destruct (h_leaves h !! a) as [l|] eqn:Hl.
  2:{ apply tp_id; unfold liftH, getMutateChL, bind, hloadL; cbn; by rewrite Hl. }
  destruct (getL_cases h a l Hl) as [(d & Hd & E)|(Hd & E)].
  - intros q Hq. exists q. unfold liftH. cbn [s_h s_t]. rewrite E. cbn. split_and!; try done. exists l. split; [done|]. rewrite Hl. f_equal. destruct l; cbn in *; by subst.
  - intros q [Hq Hx]. exists (newkind h q (bool_decide (l_key l = kk))). unfold liftH. cbn [s_h s_t]. rewrite E. cbn. split; [split|split; [|split; [|split]]].
    + eapply HInv_chL; [done|done|lia|lia|apply newkind_same|apply newkind_open].
    + eapply XInv_more; [done| |apply newkind_same|done]. cbn. lia.
    + apply newkind_same.
    + lia.
    + by apply chL_stable.
    + split; [done|]. exists l. by rewrite lookup_insert.
Qed.

Lemma chN_chN h a n d nc d' nc' : h_nodes h !! a = Some n -> chN (chN h a n d nc) a (set_ch n (Some d)) d' nc' = chN h a n d' nc'.
Proof. intros Hn. unfold chN. cbn. by rewrite insert_insert. Qed.
Lemma chL_chL h a l d nc d' nc' : h_leaves h !! a = Some l -> chL (chL h a l d nc) a (setl_ch l (Some d)) d' nc' = chL h a l d' nc'.
Proof. intros Hn. unfold chL. cbn. by rewrite insert_insert. Qed.
Lemma trackN_eq h x a n : h_nodes h !! a = Some n -> t_track x = true ->
  trackN (V:=V) a (mkS h x) = match n_ch n with
    | Some d => (Ok tt, mkS (chN h a n (h_nextch h) (S (h_nextch h))) (set_t_chs x (t_chs x ++ [d])))
    | None => (Ok tt, mkS (chN h a n (S (h_nextch h)) (S (S (h_nextch h)))) (set_t_chs x (t_chs x ++ [h_nextch h])))
    end.
Proof.
  intros Hn Ht. unfold trackN, bind, getT. cbn. rewrite Ht, Hn, bool_decide_eq_true_2 by eauto. cbn. unfold liftH. cbn.
  destruct (getN_cases h a n Hn) as [(d & Hd & E)|(Hd & E)]; rewrite E, Hd; unfold addTracked, bind, getT, putT, setMutateChN, hloadN, hmakeChan, bind; cbn;
  rewrite ?lookup_insert, ?Hn; cbn; unfold hstoreN; cbn; rewrite ?insert_insert; done.
Qed.
Lemma trackL_eq h x a l : h_leaves h !! a = Some l -> t_track x = true ->
  trackL (V:=V) a (mkS h x) = match l_ch l with
    | Some d => (Ok tt, mkS (chL h a l (h_nextch h) (S (h_nextch h))) (set_t_chs x (t_chs x ++ [d])))
    | None => (Ok tt, mkS (chL h a l (S (h_nextch h)) (S (S (h_nextch h)))) (set_t_chs x (t_chs x ++ [h_nextch h])))
    end.
Proof.
  intros Hn Ht. unfold trackL, bind, getT. cbn. rewrite Ht, Hn, bool_decide_eq_true_2 by eauto. cbn. unfold liftH. cbn.
  destruct (getL_cases h a l Hn) as [(d & Hd & E)|(Hd & E)]; rewrite E, Hd; unfold addTracked, bind, getT, putT, setMutateChL, hloadL, hmakeChan, bind; cbn;
  rewrite ?lookup_insert, ?Hn; cbn; unfold hstoreL; cbn; rewrite ?insert_insert; done.
Qed.
Lemma XInv_add q q' h h' x d : XInv q h x -> h_nextch h <= h_nextch h' -> same h q q' -> d < h_nextch h' -> (b = true -> q' = true -> d <> c) ->
  XInv q' h' (set_t_chs x (t_chs x ++ [d])).
Proof.
  intros [H1 H2] Hn Hs Hd Hk. split; cbn.
  - intros e [He|He]%elem_of_app; [apply H1 in He; lia|]. apply elem_of_list_singleton in He. by subst.
  - intros Eb Eq [Hc|Hc]%elem_of_app.
    + assert (c < h_nextch h) by (by apply H1). rewrite Hs in Eq by done. by destruct (H2 Eb Eq).
    + apply elem_of_list_singleton in Hc. by destruct (Hk Eb Eq).
Qed.
Definition sameK (s s' : st V) : Prop := (forall a l, h_leaves (s_h s) !! a = Some l -> exists l', h_leaves (s_h s') !! a = Some l' /\ l_key l' = l_key l) /\
  (forall a n, h_nodes (s_h s) !! a = Some n -> exists n', h_nodes (s_h s') !! a = Some n' /\ n_leaf n' = n_leaf n).
Lemma tp_trackN a s : tp (trackN a) s (fun _ s' => sameK s s').
Proof.
  destruct s as [h x]. destruct (t_track x) eqn:Ht; [destruct (h_nodes h !! a) as [n|] eqn:Hn|].
  - intros q [Hq Hx]. pose proof (trackN_eq h x a n Hn Ht) as E. destruct (n_ch n) as [d|] eqn:Hd.
    + exists (newkind h q false). rewrite E. cbn. destruct (i_cn _ _ Hq _ _ _ Hn Hd) as [Hdn Hdk]. cbn in Hdn. split; [split|split; [apply newkind_same|split; [lia|split; [by apply chN_stable|]]]].
      * eapply HInv_chN; [done|done|lia|lia|apply newkind_same|apply newkind_open].
      * eapply XInv_add; [done|cbn; lia|apply newkind_same|cbn; lia|]. cbn. intros Eb Eq ->. rewrite newkind_same in Eq by done. by rewrite Hdk in Eq.
      * split; cbn; [eauto|]. intros a' n' Ha'. destruct (decide (a' = a)) as [->|]; [|rewrite lookup_insert_ne by done; eauto]. rewrite lookup_insert.
        rewrite Hn in Ha'. injection Ha' as <-. eexists. split; [done|]. done.
    + exists (newkind h q false). rewrite E. cbn. split; [split|split; [apply newkind_same|split; [lia|split; [by apply chN_stable|]]]].
      * eapply HInv_chN; [done|done|lia|lia|apply newkind_same|apply newkind_open].
      * eapply XInv_add; [done|cbn; lia|apply newkind_same|cbn; lia|]. cbn. intros Eb Eq Hc. rewrite newkind_open in Eq by lia. done.
      * split; cbn; [eauto|]. intros a' n' Ha'. destruct (decide (a' = a)) as [->|]; [|rewrite lookup_insert_ne by done; eauto]. rewrite lookup_insert.
        rewrite Hn in Ha'. injection Ha' as <-. eexists. split; [done|]. done.
  - apply tp_id; unfold trackN, bind, getT; cbn; rewrite Ht, Hn; cbn; try done. intros _ _. split; eauto.
  - apply tp_id; unfold trackN, bind, getT; cbn; rewrite Ht; cbn; try done. intros _ _. split; eauto.
Qed.
Lemma tp_trackL a s : (b = true -> goodL (s_h s) a) -> tp (trackL a) s (fun _ s' => sameK s s').
Proof.
  intros Hg. destruct s as [h x]. cbn [s_h] in Hg. destruct (t_track x) eqn:Ht; [destruct (h_leaves h !! a) as [n|] eqn:Hn|].
  - assert (Hkn : b = true -> l_key n <> kk). { intros Eb. destruct (Hg Eb) as (l & Hl & Hk). rewrite Hn in Hl. by injection Hl as <-. }
    intros q [Hq Hx]. pose proof (trackL_eq h x a n Hn Ht) as E. destruct (l_ch n) as [d|] eqn:Hd.
    + exists (newkind h q (bool_decide (l_key n = kk))). rewrite E. cbn. destruct (i_cl _ _ Hq _ _ _ Hn Hd) as [Hdn Hdk]. cbn in Hdn.
      split; [split|split; [apply newkind_same|split; [lia|split; [by apply chL_stable|]]]].
      * eapply HInv_chL; [done|done|lia|lia|apply newkind_same|apply newkind_open].
      * eapply XInv_add; [done|cbn; lia|apply newkind_same|cbn; lia|]. cbn. intros Eb Eq ->. rewrite newkind_same in Eq by done. apply (Hkn Eb). by apply Hdk.
      * split; cbn; [|eauto]. intros a' n' Ha'. destruct (decide (a' = a)) as [->|]; [|rewrite lookup_insert_ne by done; eauto]. rewrite lookup_insert.
        rewrite Hn in Ha'. injection Ha' as <-. eexists. split; [done|]. done.
    + exists (newkind h q (bool_decide (l_key n = kk))). rewrite E. cbn. split; [split|split; [apply newkind_same|split; [lia|split; [by apply chL_stable|]]]].
      * eapply HInv_chL; [done|done|lia|lia|apply newkind_same|apply newkind_open].
      * eapply XInv_add; [done|cbn; lia|apply newkind_same|cbn; lia|]. cbn. intros Eb Eq Hc. rewrite newkind_open in Eq by lia. apply bool_decide_eq_true in Eq. by apply (Hkn Eb).
      * split; cbn; [|eauto]. intros a' n' Ha'. destruct (decide (a' = a)) as [->|]; [|rewrite lookup_insert_ne by done; eauto]. rewrite lookup_insert.
        rewrite Hn in Ha'. injection Ha' as <-. eexists. split; [done|]. done.
  - apply tp_id; unfold trackL, bind, getT; cbn; rewrite Ht, Hn; cbn; try done. intros _ _. split; eauto.
  - apply tp_id; unfold trackL, bind, getT; cbn; rewrite Ht; cbn; try done. intros _ _. split; eauto.
Qed.
Lemma sameK_refl s : sameK s s.
Proof. split; eauto. Qed.
Lemma sameK_trans s1 s2 s3 : sameK s1 s2 -> sameK s2 s3 -> sameK s1 s3.
Proof.
  intros [A1 A2] [B1 B2]. split.
  - intros a l Hl. destruct (A1 a l Hl) as (l1 & Hl1 & E1). destruct (B1 a l1 Hl1) as (l2 & Hl2 & E2). exists l2. split; [done|]. congruence.
  - intros a n Hn. destruct (A2 a n Hn) as (n1 & Hn1 & E1). destruct (B2 a n1 Hn1) as (n2 & Hn2 & E2). exists n2. split; [done|]. congruence.
Qed.
Lemma tp_trackAllN l s : tp (trackAllN l) s (fun _ s' => sameK s s').
Proof.
  revert s. induction l as [|a l IH]; intros s; cbn [trackAllN]; [apply tp_ret, sameK_refl|]. eapply tp_bind; [apply tp_trackN|]. intros [] s' _ _ Hk.
  eapply tp_conseq; [apply IH|]. intros [] Hk'. by eapply sameK_trans.
Qed.
End ChanKind.
