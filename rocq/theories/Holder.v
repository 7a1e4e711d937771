(** After insertions, a Node4 without children (the node that holds a single leaf) has a partialLen of at most 10, so
    its stored prefix can be sliced. *)
From Verif Require Export Clean Linear PropMap Refute.
From stdpp Require Import list.
Local Open Scope nat_scope.

Section Holder.
Context {V : Type} `{GoZero V}.
Notation TM := (M (st V)).
Notation HM := (M (heap V)).

Definition lim (n : inode) : Prop := n_kind n = K4 -> n_nch n = 0 -> n_leaf n <> None -> n_plen n <= maxPrefixLen.
(** Equal in what matters here. *)
Definition alike (n n' : inode) : Prop := n_kind n' = n_kind n /\ n_nch n' = n_nch n /\ n_plen n' = n_plen n /\ n_leaf n' = n_leaf n.
(** All nodes but the one at X are limited. *)
Definition lims (X : option addr) (h : heap V) : Prop := forall a n, h_nodes h !! a = Some n -> Some a <> X -> lim n.
Lemma lim_same n n' : n_kind n' = n_kind n -> n_nch n' = n_nch n -> n_plen n' = n_plen n -> n_leaf n' = n_leaf n -> lim n -> lim n'.
Proof. unfold lim. by intros -> -> -> ->. Qed.
Lemma alike_lim n n' : alike n n' -> lim n -> lim n'.
Proof. intros (? & ? & ? & ?). by apply lim_same. Qed.
Lemma alike_trans n1 n2 n3 : alike n1 n2 -> alike n2 n3 -> alike n1 n3.
Proof. intros (? & ? & ? & ?) (? & ? & ? & ?). repeat split; congruence. Qed.
Lemma lims_weak X h : lims None h -> lims X h.
Proof. intros Hl a n Hn _. by eapply Hl. Qed.
Lemma lims_insert X h a n : lims X h -> (Some a <> X -> lim n) -> lims X (set_nodes h (<[a := n]> (h_nodes h))).
Proof.
  intros Hl Hn x m Hx Hne. cbn in Hx. destruct (decide (x = a)) as [->|Hxa]; [rewrite lookup_insert in Hx; injection Hx as <-; auto|].
  rewrite lookup_insert_ne in Hx by done. by eapply Hl.
Qed.

Definition hl {A} (X : option addr) (m : HM A) : Prop := forall h a h', lims X h -> m h = (Ok a, h') -> lims X h'.
Definition lp {A} (X : option addr) (m : TM A) (s : st V) : Prop := lims X (s_h s) -> forall a s', m s = (Ok a, s') -> lims X (s_h s').
Definition lv {A} (X : option addr) (m : TM A) : Prop := forall s, lp X m s.

Lemma hl_bind {A B} X (m : HM A) (k : A -> HM B) : hl X m -> (forall a, hl X (k a)) -> hl X (bind m k).
Proof. intros Hm Hk h b h' Hl. unfold bind. destruct (m h) as [[a| |] h1] eqn:E; [|done..]. intros E2. eapply Hk; [|exact E2]. by eapply Hm. Qed.
Lemma hl_same {A} X (m : HM A) : (forall h, h_nodes (m h).2 = h_nodes h) -> hl X m.
Proof. intros Hm h a h' Hl E x n Hx. specialize (Hm h). rewrite E in Hm. cbn in Hm. rewrite Hm in Hx. by eapply Hl. Qed.
Lemma hl_ho {A} X (m : HM A) : ho m -> hl X m.
Proof. intros Hm. apply hl_same. intros h. by destruct (Hm h) as (? & ? & ?). Qed.
Lemma hl_ret {A} X (a : A) : hl X (ret a).
Proof. by apply hl_same. Qed.
Lemma hl_allocN X n : lim n -> hl X (hallocN n).
Proof.
  intros Hn h a h' Hl [= <- <-] x m Hx Hne. cbn in Hx. destruct (decide (x = h_next h)) as [->|Hxa]; [rewrite lookup_insert in Hx; by injection Hx as <-|].
  rewrite lookup_insert_ne in Hx by done. by eapply Hl.
Qed.
Lemma hl_getMutateChN X a : hl X (getMutateChN a).
Proof.
  intros h b h' Hl. unfold getMutateChN, bind, hloadN. destruct (h_nodes h !! a) as [n|] eqn:Ha; [|done].
  destruct (n_ch n); [by intros [= <- <-]|]. intros [= <- <-].
  apply (lims_insert X (mkH (h_nodes h) (h_leaves h) (h_next h) (S (h_nextch h)) (h_closed h))); [done|]. intros Hne. eapply lim_same; [..|by eapply Hl]; done.
Qed.
Lemma hl_setMutateChN X a c : hl X (setMutateChN a c).
Proof.
  intros h b h' Hl. unfold setMutateChN, bind, hloadN. destruct (h_nodes h !! a) as [n|] eqn:Ha; [|done]. intros [= <- <-].
  apply lims_insert; [done|]. intros Hne. eapply lim_same; [..|by eapply Hl]; done.
Qed.
(** the copy of a limited node is limited *)
Lemma hl_cloneN X a b : Some a <> X -> hl X (cloneN a b).
Proof.
  intros HX h a' h' Hl. unfold cloneN. unfold bind at 1.
  set (m0 := if b then bind (getMutateChN a) (fun c => ret (Some c)) else ret None).
  assert (Hm0 : hl X m0).
  { unfold m0. destruct b; [apply hl_bind; [apply hl_getMutateChN|intros; apply hl_ret]|apply hl_ret]. }
  clearbody m0. destruct (m0 h) as [[c| |] h1] eqn:E; [|done..]. pose proof (Hm0 _ _ _ Hl E) as Hl1.
  unfold bind, hloadN. destruct (h_nodes h1 !! a) as [n1|] eqn:Ha; [|done]. intros E2.
  eapply hl_allocN; [|exact Hl1|exact E2]. eapply lim_same; [..|by eapply Hl1]; done.
Qed.

Lemma lp_bind {A B} X (m : TM A) (k : A -> TM B) s :
  lp X m s -> (forall a s', m s = (Ok a, s') -> lims X (s_h s') -> lp X (k a) s') -> lp X (bind m k) s.
Proof.
  unfold lp, bind. intros Hm Hk Hc b s'. destruct (m s) as [[a| |] s1] eqn:E; [|done..]. intros E2. eapply Hk; [done| | |exact E2]; by eapply Hm.
Qed.
Lemma lv_bind {A B} X (m : TM A) (k : A -> TM B) s : lv X m -> (forall a s', lp X (k a) s') -> lp X (bind m k) s.
Proof. intros Hm Hk. apply lp_bind; [apply Hm|intros; apply Hk]. Qed.
Lemma lv_id {A} X (m : TM A) : (forall s, (m s).2 = s) -> lv X m.
Proof. intros Hm s Hc a s' E. specialize (Hm s). rewrite E in Hm. cbn in Hm. by subst. Qed.
Lemma lv_tn {A} X (m : TM A) : tn m -> lv X m.
Proof. intros Hm s Hc a s' E. specialize (Hm s). rewrite E in Hm. cbn in Hm. intros x n Hx. rewrite Hm in Hx. by eapply Hc. Qed.
Lemma lv_ret {A} X (a : A) : lv X (ret a).
Proof. by apply lv_id. Qed.
Lemma lv_panic {A} X : lv X (panic (A:=A)).
Proof. by apply lv_id. Qed.
Lemma lv_nofuel {A} X : lv X (nofuel (A:=A)).
Proof. by apply lv_id. Qed.
Lemma lv_lift {A} X (o : outcome A) : lv X (lift o).
Proof. by apply lv_id. Qed.
Lemma lv_getH X : lv X getH.
Proof. by apply lv_id. Qed.
Lemma lv_getT X : lv X getT.
Proof. by apply lv_id. Qed.
Lemma lv_live {A} X (f : st V -> A) : lv X (fun s => (Ok (f s), s)).
Proof. by apply lv_id. Qed.
Lemma lv_byteAt X k i : lv X (byteAt k i).
Proof. unfold byteAt. destruct (k !! i); [apply lv_ret|apply lv_panic]. Qed.
Lemma lv_putT X t : lv X (putT t).
Proof. by apply lv_tn. Qed.
Lemma lv_liftH {A} X (m : HM A) : hl X m -> lv X (liftH m).
Proof. intros Hm [h t] Hc a s'. unfold liftH. cbn [s_h s_t] in *. destruct (m h) as [o h'] eqn:E. intros [= -> <-]. cbn. by eapply Hm. Qed.
Lemma lv_loadN X a : lv X (loadN (V:=V) a).
Proof. apply lv_liftH, hl_ho, ho_loadN. Qed.
Lemma lv_loadL X a : lv X (loadL (V:=V) a).
Proof. apply lv_liftH, hl_ho, ho_loadL. Qed.
Lemma lv_storeL X a l : lv X (storeL (V:=V) a l).
Proof. apply lv_liftH, hl_ho, ho_storeL. Qed.
Lemma lp_loadN {B} X a (k : inode -> TM B) s : (forall n, h_nodes (s_h s) !! a = Some n -> lp X (k n) s) -> lp X (bind (loadN a) k) s.
Proof.
  intros Hk. apply lp_bind; [apply lv_loadN|]. intros l s'. unfold loadN, liftH, hloadN. destruct s as [h t]. cbn in *.
  destruct (h_nodes h !! a) as [l0|] eqn:E; [|done]. intros [= <- <-] _. by apply Hk.
Qed.
Lemma lp_lift {A B} X (o : outcome A) (k : A -> TM B) s : (forall a, o = Ok a -> lp X (k a) s) -> lp X (bind (lift o) k) s.
Proof. intros Hk. unfold lp, bind, lift. destruct o as [a| |]; [by apply Hk|done..]. Qed.
Lemma lp_updN X a f s : (forall n n', h_nodes (s_h s) !! a = Some n -> Some a <> X -> lim n -> f n = Ok n' -> lim n') -> lp X (updN (V:=V) a f) s.
Proof.
  intros Hf. unfold updN. apply lp_loadN. intros n Hn. apply lp_lift. intros n' E Hc [] s' [= <-]. cbn. apply lims_insert; [done|]. intros Hne.
  eapply Hf; [done|done|by eapply Hc|done].
Qed.
Lemma lv_updN X a f : (forall n n', lim n -> f n = Ok n' -> lim n') -> lv X (updN (V:=V) a f).
Proof. intros Hf s. apply lp_updN. intros n n' _ _. apply Hf. Qed.
Lemma lv_updN_same X a (f : inode -> inode) :
  (forall n, alike n (f n)) -> lv X (updN (V:=V) a (fun n => Ok (f n))).
Proof. intros Hf. apply lv_updN. intros n n' Hl [= <-]. by eapply alike_lim. Qed.
(** the exempted node may be changed at will *)
Lemma lv_updX a f : lv (Some a) (updN (V:=V) a f).
Proof. intros s. by apply lp_updN. Qed.
Lemma lv_nextId X : lv X (nextId (V:=V)).
Proof. by apply lv_tn. Qed.
Lemma lv_addTracked X c : lv X (addTracked (V:=V) c).
Proof. by apply lv_tn. Qed.
Hint Resolve lv_ret lv_panic lv_nofuel lv_lift lv_getH lv_getT lv_putT lv_byteAt lv_loadN lv_loadL lv_storeL lv_nextId lv_addTracked lv_live lv_updX : lvdb.
Lemma lv_lp {A} X (m : TM A) s : lv X m -> lp X m s.
Proof. intros Hm. apply Hm. Qed.
Ltac lvs :=
  repeat first
    [ match goal with
      | |- lp _ (bind ?m _) _ => apply lv_bind; [solve [auto with lvdb | let s := fresh in intros s; solve [lvs]]|intros ??]
      | |- lp _ (if ?b then _ else _) _ => destruct b
      | |- lp _ (match ?x with _ => _ end) _ => destruct x
      | |- lp _ _ _ => solve [apply lv_lp; auto with lvdb]
      end
    | match goal with |- lv _ _ => let s := fresh in intros s end ].
Lemma lv_trackN X a : lv X (trackN (V:=V) a).
Proof.
  intros s. unfold trackN. apply lv_bind; [lvs|]. intros t s1. apply lv_bind; [apply lv_live|]. intros live s2.
  destruct (_ && _); [|lvs]. apply lv_bind; [apply lv_liftH, hl_getMutateChN|]. intros c s3. apply lv_bind; [lvs|]. intros [] s4.
  apply lv_bind; [apply lv_liftH, hl_ho, ho_makeChan|]. intros c' s5. apply lv_liftH, hl_setMutateChN.
Qed.
Lemma lv_trackL X a : lv X (trackL (V:=V) a).
Proof. apply lv_tn, tn_trackL. Qed.
Lemma lv_writeLeaf X a b : lv X (writeLeaf (V:=V) a b).
Proof. apply lv_tn, tn_writeLeaf. Qed.
Lemma lv_trackOptL X o : lv X (trackOptL (V:=V) o).
Proof. destruct o; [apply lv_trackL|apply lv_ret]. Qed.
Hint Resolve lv_trackN lv_trackL lv_trackOptL lv_writeLeaf : lvdb.
Hint Extern 1 (lv _ (updN _ (fun n => Ok (set_id n _)))) => (by eapply (lv_updN_same _ _ (fun n => set_id n _))) : lvdb.
Lemma lv_writeNode X a b : Some a <> X -> lv X (writeNode (V:=V) a b).
Proof.
  intros HX s. unfold writeNode. apply lv_bind; [destruct b; lvs|]. intros [] s1. apply lv_bind; [lvs|]. intros n s2. apply lv_bind; [lvs|]. intros t s3.
  destruct (Nat.ltb _ _); [lvs|]. apply lv_bind; [by apply lv_liftH, hl_cloneN|]. intros a' s4. apply lv_bind; [lvs|]. intros i s5.
  apply lp_loadN. intros n' Hn'. apply lp_bind; [|intros; lvs]. intros Hl [] s' [= <-]. cbn. apply lims_insert; [done|]. intros Hne.
  eapply lim_same; [..|by eapply Hl]; done.
Qed.
(** Programs that change nodes only in their channels and ids. *)
Definition hk {A} (m : HM A) : Prop := forall h a h', m h = (Ok a, h') -> forall x n, h_nodes h !! x = Some n -> exists n', h_nodes h' !! x = Some n' /\ alike n n'.
Lemma hk_getMutateChN a : hk (getMutateChN a).
Proof.
  intros h b h'. unfold getMutateChN, bind, hloadN. destruct (h_nodes h !! a) as [n|] eqn:Ha; [|done].
  destruct (n_ch n); intros [= <- <-] x m Hx; [by exists m|]. cbn. destruct (decide (x = a)) as [->|Hne].
  - rewrite lookup_insert. eexists. split; [done|]. by assert (m = n) as -> by congruence.
  - rewrite lookup_insert_ne by done. by exists m.
Qed.
Lemma hk_setMutateChN a c : hk (setMutateChN a c).
Proof.
  intros h b h'. unfold setMutateChN, bind, hloadN. destruct (h_nodes h !! a) as [n|] eqn:Ha; [|done]. intros [= <- <-] x m Hx. cbn.
  destruct (decide (x = a)) as [->|Hne].
  - rewrite lookup_insert. eexists. split; [done|]. by assert (m = n) as -> by congruence.
  - rewrite lookup_insert_ne by done. by exists m.
Qed.
Definition ak (s s' : st V) : Prop := forall x n, h_nodes (s_h s) !! x = Some n -> exists n', h_nodes (s_h s') !! x = Some n' /\ alike n n'.
Lemma ak_refl s : ak s s.
Proof. intros x n Hx. by exists n. Qed.
Lemma ak_trans s1 s2 s3 : ak s1 s2 -> ak s2 s3 -> ak s1 s3.
Proof. intros H1 H2 x n Hx. destruct (H1 _ _ Hx) as (n' & Hn' & ?). destruct (H2 _ _ Hn') as (n'' & ? & ?). exists n''. split; [done|by eapply alike_trans]. Qed.
Lemma ak_tn {A} (m : TM A) s a s' : tn m -> m s = (Ok a, s') -> ak s s'.
Proof. intros Hm E x n Hx. specialize (Hm s). rewrite E in Hm. cbn in Hm. rewrite Hm. by exists n. Qed.
Lemma ak_trackN a s (r : unit) s' : trackN (V:=V) a s = (Ok r, s') -> ak s s'.
Proof.
  destruct s as [h t]. unfold trackN, bind, getT, liftH. cbn [s_h s_t]. destruct (_ && _); [|intros [= _ <-]; apply ak_refl]. cbn [s_h s_t].
  destruct (getMutateChN a h) as [[c| |] h1] eqn:E1; [|done..]. unfold addTracked, bind, getT, putT. cbn [s_h s_t].
  unfold hmakeChan. destruct (setMutateChN a _ _) as [[[]| |] h2] eqn:E2; [|done..]. intros [= _ <-].
  intros x n Hx. cbn in Hx. destruct (hk_getMutateChN _ _ _ _ E1 _ _ Hx) as (n1 & Hn1 & H1).
  destruct (hk_setMutateChN _ _ _ _ _ E2 x n1) as (n2 & Hn2 & H2); [exact Hn1|]. exists n2. split; [done|by eapply alike_trans].
Qed.
Lemma tn_trackOptL o : tn (trackOptL (V:=V) o).
Proof. destruct o; [apply tn_trackL|done]. Qed.
Lemma writeNode_alike a b s a' s' : writeNode (V:=V) a b s = (Ok a', s') -> forall n, h_nodes (s_h s) !! a = Some n ->
  exists n', h_nodes (s_h s') !! a' = Some n' /\ alike n n'.
Proof.
  unfold writeNode. unfold bind at 1. set (m0 := if b then _ else ret tt). intros E n Hn.
  assert (Hm0 : forall r s1, m0 s = (Ok r, s1) -> ak s s1).
  { intros r s1. unfold m0. destruct b; [|intros [= _ <-]; apply ak_refl]. unfold bind at 1. destruct (trackN a s) as [[[]| |] s2] eqn:E2; [|done..].
    unfold bind. destruct (loadN a s2) as [[n2| |] s3] eqn:E3; [|done..]. intros E4. eapply ak_trans; [by eapply ak_trackN|].
    eapply ak_trans; [eapply ak_tn; [|exact E3]; apply tn_liftH, ho_loadN|]. eapply ak_tn; [|exact E4]. apply tn_trackOptL. }
  clearbody m0. destruct (m0 s) as [[[]| |] s1] eqn:E1; [|done..]. specialize (Hm0 _ _ eq_refl).
  destruct (Hm0 _ _ Hn) as (n1 & Hn1 & Ha1). revert E.
  unfold bind at 1, loadN at 1, liftH, hloadN. rewrite Hn1. unfold bind at 1, getT. cbn [s_t].
  destruct (Nat.ltb _ _).
  { intros [= <- <-]. cbn. eauto. }
  unfold bind at 1. cbn [s_h]. unfold cloneN. unfold bind at 1.
  set (m1 := if negb b then bind (getMutateChN a) (fun c => ret (Some c)) else ret None).
  assert (Hm1 : forall c h2, m1 (s_h s1) = (Ok c, h2) -> exists n2, h_nodes h2 !! a = Some n2 /\ alike n1 n2).
  { intros c h2. unfold m1. destruct (negb b); [|intros [= _ <-]; by exists n1]. unfold bind. destruct (getMutateChN a (s_h s1)) as [[c0| |] h3] eqn:E3; [|done..].
    intros [= _ <-]. by eapply hk_getMutateChN. }
  clearbody m1. destruct (m1 (s_h s1)) as [[c| |] h2] eqn:E2; [|done..]. destruct (Hm1 _ _ eq_refl) as (n2 & Hn2 & Ha2).
  unfold bind at 1, hloadN at 1. rewrite Hn2. unfold hallocN. cbn [s_h s_t].
  unfold bind at 1, nextId at 1, bind at 1, getT, bind at 1, putT. cbn [s_h s_t].
  unfold bind at 1, ret at 1, loadN, liftH, hloadN, bind at 1. cbn [s_h s_t h_nodes]. rewrite lookup_insert. intros [= <- <-]. cbn. rewrite lookup_insert.
  eexists. split; [done|]. eapply alike_trans; [exact Ha1|]. eapply alike_trans; [exact Ha2|]. done.
Qed.
Lemma lim_fresh k i : lim (set_plen (set_partial (set_id (zero_node k) i) (replicate maxPrefixLen 0)) maxPrefixLen).
Proof. intros _ _ _. done. Qed.
Lemma lv_allocNode X k : lv X (allocNode (V:=V) k).
Proof. intros s. unfold allocNode. apply lv_bind; [lvs|]. intros i s1. apply lv_liftH, hl_allocN, lim_fresh. Qed.
Lemma lv_allocLeaf X : lv X (allocLeaf (V:=V)).
Proof. intros s. unfold allocLeaf. apply lv_bind; [lvs|]. intros i s1. apply lv_liftH, hl_ho, ho_allocL. Qed.
Lemma lp_setNodeLeaf X a l s : (forall n, h_nodes (s_h s) !! a = Some n -> n_kind n = K4 -> n_nch n = 0 -> n_plen n <= maxPrefixLen) -> lp X (setNodeLeaf (V:=V) a l) s.
Proof. intros Hn. unfold setNodeLeaf. apply lp_updN. intros n n' Hx _ _ [= <-] Hk Hc _. cbn in *. by apply Hn. Qed.
Lemma lv_setKV X l k v : lv X (setKV (V:=V) l k v).
Proof. unfold setKV. lvs. Qed.
Lemma lv_copyPartial X a src : lv X (copyPartial (V:=V) a src).
Proof. by apply (lv_updN_same X a (fun n => set_partial n (go_copy (n_partial n) 0 src))). Qed.
Lemma lv_setChild X a i c : lv X (setChild (V:=V) a i c).
Proof. apply lv_updN. intros n n' Hl. unfold setChildN. destruct (Nat.ltb _ _); [|done]. intros [= <-]. by eapply lim_same. Qed.
Hint Resolve lv_allocNode lv_allocLeaf lv_setKV lv_copyPartial lv_setChild : lvdb.
Lemma allocNode_at k s a s' : allocNode (V:=V) k s = (Ok a, s') -> a = h_next (s_h s) /\
  exists n, h_nodes (s_h s') !! a = Some n /\ n_kind n = k /\ n_nch n = 0 /\ n_plen n = maxPrefixLen /\ n_leaf n = None.
Proof.
  unfold allocNode, bind, nextId, getT, putT, liftH, hallocN, ret. cbn. intros [= <- <-]. split; [done|]. eexists. cbn. rewrite lookup_insert. by destruct k.
Qed.
Lemma lv_makeLeaf X k v : lv X (makeLeaf (V:=V) k v).
Proof.
  intros s. unfold makeLeaf. apply lv_bind; [lvs|]. intros l s1. apply lv_bind; [lvs|]. intros i s2. apply lv_bind; [lvs|]. intros x s3.
  apply lv_bind; [lvs|]. intros [] s4. apply lp_bind; [lvs|]. intros n4 s5 E _. apply allocNode_at in E as (_ & n & Hn & _ & _ & Hp & _).
  apply lp_bind; [|intros; lvs]. apply lp_setNodeLeaf. intros n' Hn' _ _. assert (n' = n) as -> by congruence. lia.
Qed.
Hint Resolve lv_makeLeaf : lvdb.
(** moveLeaf is only used on nodes that are no Node4 *)
Lemma lp_moveLeaf X a l k s : kind_at k a s -> k <> K4 -> lp X (moveLeaf (V:=V) a l) s.
Proof.
  intros Hk Hne. unfold moveLeaf. destruct l as [l|]; [|lvs]. apply lp_bind; [lvs|]. intros nl s' E _. apply lp_setNodeLeaf.
  pose proof (tn_writeLeaf l true s) as Et. rewrite E in Et. cbn in Et. intros n Hn Hk4. rewrite Et in Hn. destruct Hk as (n' & Hn' & <-). congruence.
Qed.
Lemma moveLeaf_kind a l k s (r : unit) s' : moveLeaf (V:=V) a l s = (Ok r, s') -> kind_at k a s -> kind_at k a s'.
Proof.
  unfold moveLeaf. destruct l as [l|]; [|by intros [= _ <-]]. unfold bind. destruct (writeLeaf l true s) as [[nl| |] s1] eqn:E; [|done..].
  pose proof (tn_writeLeaf l true s) as Et. rewrite E in Et. cbn in Et. intros (n & n' & Hn & [= <-] & ->)%updN_inv (n2 & Hn2 & <-).
  rewrite Et in Hn. eexists. cbn. rewrite lookup_insert. split; [done|]. cbn. congruence.
Qed.
Lemma updN_kind a f k s (r : unit) s' : kk f -> updN (V:=V) a f s = (Ok r, s') -> kind_at k a s -> kind_at k a s'.
Proof.
  intros Hf (n & n' & Hn & E & ->)%updN_inv (n2 & Hn2 & <-). eexists. cbn. rewrite lookup_insert. split; [done|]. apply Hf in E. congruence.
Qed.
Lemma lp_updK X a f k s : kk f -> kind_at k a s -> k <> K4 -> lp X (updN (V:=V) a f) s.
Proof. intros Hf (n & Hn & <-) Hne. apply lp_updN. intros m n' Hm _ _ E Hk. apply Hf in E. exfalso. congruence. Qed.

(** ** addChild on the exempted node: it has a child afterwards *)
Definition lc {A} (a : addr) (m : TM A) (s : st V) : Prop := lims (Some a) (s_h s) -> forall r s', m s = (Ok r, s') -> lims None (s_h s').
Lemma lims_done a h : lims (Some a) h -> (forall n, h_nodes h !! a = Some n -> lim n) -> lims None h.
Proof. intros Hl Ha x n Hx _. destruct (decide (x = a)) as [->|Hne]; [by apply Ha|]. eapply Hl; [done|congruence]. Qed.
Lemma lv_addChild256 X a c d s : kind_at K256 a s -> lp X (addChild256 (V:=V) a c d) s.
Proof. intros Hk. unfold addChild256. apply lp_bind; [|intros; lvs]. eapply lp_updK; [apply kk_insert256|done|done]. Qed.
Lemma lv_addChild48 X a c d s : kind_at K48 a s -> lp X (addChild48 (V:=V) a c d) s.
Proof.
  intros Hk. unfold addChild48. apply lp_loadN. intros n Hn. destruct (Nat.ltb _ _).
  - apply lp_bind; [|intros; lvs]. eapply lp_updK; [apply kk_insert48|done|done].
  - apply lp_bind; [lvs|]. intros nn s1 E1 _. apply allocNode_kind in E1. apply lp_bind; [by eapply lp_moveLeaf|]. intros [] s2 E2 _.
    apply (moveLeaf_kind _ _ K256) in E2; [|done]. apply lp_bind; [eapply lp_updK; [apply kk_fill256|done|done]|]. intros [] s3 E3 _.
    apply (updN_kind _ _ K256) in E3; [|apply kk_fill256|done]. apply lp_bind; [eapply lp_updK; [apply kk_copyHeader|done|done]|]. intros [] s4 E4 _.
    apply (updN_kind _ _ K256) in E4; [|apply kk_copyHeader|done]. by apply lv_addChild256.
Qed.
Lemma kk_insertSorted c ch : kk (fun n => insertSorted n c ch).
Proof.
  intros n n'. unfold insertSorted. cbv zeta. intros (n1 & E1 & E)%obind_Ok. apply obind_Ok in E as (n2 & E2 & E). injection E as <-.
  apply kk_setKeyAtIdx in E1. apply kk_setChildN in E2. cbn in *. congruence.
Qed.
Lemma lv_addChild16 X a c d s : kind_at K16 a s -> lp X (addChild16 (V:=V) a c d) s.
Proof.
  intros Hk. unfold addChild16. apply lp_loadN. intros n Hn. destruct (Nat.ltb _ _).
  - apply lp_bind; [|intros; lvs]. eapply lp_updK; [apply kk_insertSorted|done|done].
  - apply lp_bind; [lvs|]. intros nn s1 E1 _. apply allocNode_kind in E1. apply lp_bind; [by eapply lp_moveLeaf|]. intros [] s2 E2 _.
    apply (moveLeaf_kind _ _ K48) in E2; [|done].
    assert (Hkc : kk (fun d => Ok (set_children d (go_copy (n_children d) 0 (take (n_nch n) (n_children n)))))) by (by intros ?? [= <-]).
    apply lp_bind; [by eapply lp_updK|]. intros [] s3 E3 _. apply (updN_kind _ _ K48) in E3; [|done|done].
    apply lp_bind; [eapply lp_updK; [apply kk_fill48|done|done]|]. intros [] s4 E4 _.
    apply (updN_kind _ _ K48) in E4; [|apply kk_fill48|done]. apply lp_bind; [eapply lp_updK; [apply kk_copyHeader|done|done]|]. intros [] s5 E5 _.
    apply (updN_kind _ _ K48) in E5; [|apply kk_copyHeader|done]. by apply lv_addChild48.
Qed.
Lemma insertSorted_nch n c ch n' : n_nch n < 16 -> insertSorted n c ch = Ok n' -> n_nch n' <> 0.
Proof.
  intros Hlt. unfold insertSorted. cbv zeta. intros (n1 & E1 & E)%obind_Ok. apply obind_Ok in E as (n2 & E2 & E). injection E as <-. cbn.
  unfold setKeyAtIdx in E1. unfold setChildN in E2. destruct (Nat.ltb _ (length (n_children n1))); [|done]. injection E2 as <-. cbn.
  assert (n_nch n1 = n_nch n) as ->.
  { cbn in E1. destruct (n_kind n); try (destruct (Nat.ltb _ _); [|done]); by injection E1 as <-. }
  rewrite u8_incr_small by lia. lia.
Qed.
Lemma lc_addChild4 a c d s : kind_at K4 a s -> lc a (addChild4 (V:=V) a c d) s.
Proof.
  intros Hk Hl r s'. unfold addChild4, bind at 1. destruct (loadN a s) as [[n| |] s0] eqn:E0; [|done..].
  assert (Hn : h_nodes (s_h s) !! a = Some n /\ s0 = s).
  { revert E0. unfold loadN, liftH, hloadN. destruct s as [h t]. cbn. destruct (h_nodes h !! a); [|done]. by intros [= -> <-]. }
  destruct Hn as [Hn ->]. destruct (Nat.ltb_spec (n_nch n) 4) as [Hlt|Hge].
  - unfold bind. destruct (updN a _ s) as [[[]| |] s1] eqn:E1; [|done..]. intros [= _ <-].
    pose proof (lv_updX a _ _ Hl _ _ E1) as Hl1. apply (lims_done a); [done|]. apply updN_inv in E1 as (n1 & n' & Hn1 & E & ->). cbn. rewrite lookup_insert.
    intros m [= <-]. intros _ Hz _. exfalso. assert (n1 = n) as -> by congruence. apply insertSorted_nch in E; [done|lia].
  - assert (Hl0 : lims None (s_h s)).
    { apply (lims_done a); [done|]. intros m Hm _ Hz _. assert (m = n) as -> by congruence. lia. }
    clear E0 Hl. revert Hl0 r s'. fold (lp None (let! nn := allocNode K16 in
    moveLeaf nn (n_leaf n) ;;;
    updN nn (fun d => Ok (set_children d (go_copy (n_children d) 0 (take (n_nch n) (n_children n))))) ;;;
    updN nn (fun d => Ok (set_keys d (go_copy (n_keys d) 0 (take (n_nch n) (n_keys n))))) ;;;
    updN nn (fun d => copyHeader d n) ;;;
    addChild16 nn c d) s).
    apply lp_bind; [lvs|]. intros nn s1 E1 _. apply allocNode_kind in E1. apply lp_bind; [by eapply lp_moveLeaf|]. intros [] s2 E2 _.
    apply (moveLeaf_kind _ _ K16) in E2; [|done].
    assert (Hkc : kk (fun d => Ok (set_children d (go_copy (n_children d) 0 (take (n_nch n) (n_children n)))))) by (by intros ?? [= <-]).
    assert (Hkc2 : kk (fun d => Ok (set_keys d (go_copy (n_keys d) 0 (take (n_nch n) (n_keys n)))))) by (by intros ?? [= <-]).
    apply lp_bind; [by eapply lp_updK|]. intros [] s3 E3 _. apply (updN_kind _ _ K16) in E3; [|done|done].
    apply lp_bind; [by eapply lp_updK|]. intros [] s4 E4 _. apply (updN_kind _ _ K16) in E4; [|done|done].
    apply lp_bind; [eapply lp_updK; [apply kk_copyHeader|done|done]|]. intros [] s5 E5 _.
    apply (updN_kind _ _ K16) in E5; [|apply kk_copyHeader|done]. by apply lv_addChild16.
Qed.
Lemma lc_weak a k {A} (m : TM A) s : kind_at k a s -> k <> K4 -> lp None m s -> lc a m s.
Proof.
  intros (n & Hn & <-) Hne Hm Hl. apply Hm. apply (lims_done a); [done|]. intros m' Hm' Hk. exfalso. congruence.
Qed.
Lemma lc_addChild a c d s : lc a (addChild (V:=V) a c d) s.
Proof.
  intros Hl r s'. unfold addChild, bind. destruct (loadN a s) as [[n| |] s0] eqn:E0; [|done..].
  assert (Hn : h_nodes (s_h s) !! a = Some n /\ s0 = s).
  { revert E0. unfold loadN, liftH, hloadN. destruct s as [h t]. cbn. destruct (h_nodes h !! a); [|done]. by intros [= -> <-]. }
  destruct Hn as [Hn ->]. revert Hl r s'. destruct (n_kind n) eqn:Ek.
  - apply lc_addChild4. by exists n.
  - eapply (lc_weak a K16); [by exists n|done|]. apply lv_addChild16. by exists n.
  - eapply (lc_weak a K48); [by exists n|done|]. apply lv_addChild48. by exists n.
  - eapply (lc_weak a K256); [by exists n|done|]. apply lv_addChild256. by exists n.
Qed.
Lemma lv_addChild a c d : lv None (addChild (V:=V) a c d).
Proof. intros s Hl. apply lc_addChild. by apply lims_weak. Qed.
Hint Resolve lv_addChild : lvdb.

(** ** recursiveInsert *)
Lemma lc_open {A} a (m : TM A) s : lc a m s -> lp None m s.
Proof. intros Hm Hl. apply Hm. by apply lims_weak. Qed.
Lemma lc_before {A B} a (m : TM A) (k : A -> TM B) s :
  lp (Some a) m s -> (forall r s', m s = (Ok r, s') -> lc a (k r) s') -> lc a (bind m k) s.
Proof.
  unfold lc, bind. intros Hm Hk Hc b s'. destruct (m s) as [[r| |] s1] eqn:E; [|done..]. intros E2. eapply Hk; [done| |exact E2]. by eapply Hm.
Qed.
Lemma lc_after {A B} a (m : TM A) (k : A -> TM B) s : lc a m s -> (forall r s', lp None (k r) s') -> lc a (bind m k) s.
Proof.
  unfold lc, bind. intros Hm Hk Hc b s'. destruct (m s) as [[r| |] s1] eqn:E; [|done..]. intros E2. eapply Hk; [|exact E2]. by eapply Hm.
Qed.
Lemma lc_panic {A} a s : lc a (panic (A:=A)) s.
Proof. by intros Hl r s'. Qed.
Definition bare (a : addr) (s : st V) : Prop := forall n, h_nodes (s_h s) !! a = Some n -> n_leaf n = None.
Lemma lc_bare {A} a (r : A) s : bare a s -> lc a (ret r) s.
Proof. intros Hb Hl r' s' [= _ <-]. apply (lims_done a); [done|]. intros n Hn _ _ Hne. exfalso. by apply Hne, Hb. Qed.
Lemma updN_bare a f s (r : unit) s' : (forall n n', f n = Ok n' -> n_leaf n' = n_leaf n) -> updN (V:=V) a f s = (Ok r, s') -> bare a s -> bare a s'.
Proof. intros Hf (n & n' & Hn & E & ->)%updN_inv Hb m. cbn. rewrite lookup_insert. intros [= <-]. rewrite (Hf _ _ E). by apply Hb. Qed.
Lemma lp_getT {B} X (k : txn -> TM B) s : lp X (k (s_t s)) s -> lp X (bind getT k) s.
Proof. done. Qed.
Lemma lp_getH {B} X (k : heap V -> TM B) s : lp X (k (s_h s)) s -> lp X (bind getH k) s.
Proof. done. Qed.
Lemma lp_byteAt {B} X k i (f : byte -> TM B) s : (forall c, lp X (f c) s) -> lp X (bind (byteAt k i) f) s.
Proof. intros Hf. unfold byteAt. destruct (k !! i) as [c|]; [apply Hf|]. by intros Hc x s' E. Qed.
Lemma lv_writeNode_None a b : lv None (writeNode (V:=V) a b).
Proof. by apply lv_writeNode. Qed.
Hint Resolve lv_writeNode_None : lvdb.
(** a leaf is put into a node that already holds one, or that is limited anyway *)
Definition soft (a : addr) (s : st V) : Prop := forall n, h_nodes (s_h s) !! a = Some n -> n_kind n = K4 -> n_nch n = 0 -> n_plen n <= maxPrefixLen.
Lemma soft_tn {A} a (m : TM A) s r s' : tn m -> m s = (Ok r, s') -> soft a s -> soft a s'.
Proof. intros Hm E Hs n Hn. specialize (Hm s). rewrite E in Hm. cbn in Hm. rewrite Hm in Hn. by apply Hs. Qed.
Lemma writeNode_soft a b s a' s' : soft a s -> writeNode (V:=V) a b s = (Ok a', s') -> soft a' s'.
Proof.
  intros Hn E1 n Hx Hkd Hc.
  assert (Ha : is_Some (h_nodes (s_h s) !! a)).
  { revert E1. unfold writeNode. unfold bind at 1. set (m0 := if b then _ else ret tt).
    destruct (h_nodes (s_h s) !! a) as [n0|] eqn:E; [by eauto|]. destruct b; unfold m0.
    - unfold bind at 1. destruct (trackN a s) as [[[]| |] s3] eqn:E3; [|done..]. unfold trackN in E3. revert E3. unfold bind, getT. cbn.
      rewrite E. rewrite andb_false_r. intros [= <-]. unfold loadN, liftH, hloadN. by rewrite E.
    - unfold ret at 1, bind at 1, loadN at 1, liftH, hloadN. by rewrite E. }
  destruct Ha as [n0 Hn0]. destruct (writeNode_alike _ _ _ _ _ E1 n0 Hn0) as (n1 & Hn1 & Hk1 & Hc1 & Hp1 & _).
  assert (n1 = n) as -> by congruence. rewrite Hp1. apply (Hn n0); congruence.
Qed.
Lemma lp_putLeaf {B} a b key value (k : addr -> TM B) s : soft a s -> (forall a' s', lp None (k a') s') ->
  lp None (let! node := writeNode (V:=V) a b in let! newLeaf := allocLeaf in setKV newLeaf key value ;;; setNodeLeaf node (Some newLeaf) ;;; k node) s.
Proof.
  intros Hs Hk. apply lp_bind; [lvs|]. intros a' s1 E1 _. apply writeNode_soft in E1; [|done]. apply lp_bind; [lvs|]. intros l s2 E2 _.
  apply (soft_tn a') in E2; [|done|done]. apply lp_bind; [lvs|]. intros [] s3 E3 _. apply (soft_tn a') in E3; [| |done].
  - apply lp_bind; [by apply lp_setNodeLeaf|]. intros; apply Hk.
  - unfold setKV. apply tn_bind; [apply tn_liftH, ho_loadL|]. done.
Qed.
(** the cases that make a new Node4 *)
Lemma lp_newNode {B} q (k : addr -> TM B) s :
  (forall a s1 s2, allocNode (V:=V) K4 s = (Ok a, s1) -> bare a s2 -> lc a (k a) s2) ->
  forall (src : bytes) (b : bool), lp None (let! a := allocNode (V:=V) K4 in updN a (fun m => Ok (set_plen m q)) ;;; (if b then panic else copyPartial a src) ;;; k a) s.
Proof.
  intros Hk src b. apply lp_bind; [lvs|]. intros a s1 E1 _. apply (lc_open a). apply lc_before; [lvs|]. intros [] s2 E2.
  destruct (allocNode_at _ _ _ _ E1) as (_ & n & Hn & _ & _ & _ & Hlf).
  assert (Hb : bare a s2). { eapply updN_bare; [|exact E2|]; [by intros ?? [= <-]|]. intros m Hm. congruence. }
  apply lc_before; [lvs|]. intros [] s3 E3. destruct b; [done|]. eapply Hk; [done|]. eapply updN_bare; [|exact E3|exact Hb]. by intros ?? [= <-].
Qed.
Lemma lv_recursiveInsert key value : forall fuel,
  (forall node depth s, clean (s_h s) -> (t_tsize (s_t s) = 0%N -> soft node s) -> lp None (recursiveInsert (V:=V) fuel node key value depth) s) /\
  (forall node depth s, clean (s_h s) -> t_tsize (s_t s) <> 0%N -> lp None (insertInner (V:=V) fuel node key value depth) s).
Proof.
  induction fuel as [|fuel [IH1 IH2]]; (split; intros node depth; [cbn [recursiveInsert]|cbn [insertInner]]); [intros; lvs..| |].
  - intros s Hc Hz. apply lp_getT. destruct (N.eqb_spec (t_tsize (s_t s)) 0) as [E0|E0]; [apply lp_putLeaf; [by apply Hz|intros; lvs]|].
    apply lp_loadN. intros n Hn. destruct (n_leaf n) as [nodeLeaf|] eqn:El; [|by apply IH2].
    intros Hl0. assert (Hs : soft node s).
    { intros n' Hn' Hk4 Hnc. assert (n' = n) as -> by congruence. apply (Hl0 node n); [done|done|done|done|by rewrite El]. }
    revert Hl0. apply lp_bind; [lvs|]. intros nl s' E _.
    assert (s' = s) as ->.
    { revert E. unfold loadL, liftH, hloadL. destruct s as [h t]. cbn. destruct (h_leaves h !! nodeLeaf); [|done]. by intros [= _ <-]. }
    destruct (isLeafN n).
    + destruct (_ && _); [apply lp_putLeaf; [done|intros; lvs]|].
      apply lv_bind; [lvs|]. intros newLeaf2 s1. apply lv_bind; [lvs|]. intros nl2 s2. apply lv_bind; [lvs|]. intros [] s3.
      apply lv_bind; [lvs|]. intros node' s4. apply lp_lift. intros lcp _.
      apply (lp_newNode lcp). intros a s5 s6 E5 Hb.
      apply lc_after; [|intros; lvs]. destruct (has_prefix _ _).
      * apply lc_before; [lvs|]. intros [] s7 _. apply lc_before; [unfold setNodeLeaf; lvs|]. intros [] s8 _. apply lc_before; [lvs|]. intros c s9 _. apply lc_addChild.
      * destruct (has_prefix _ _).
        -- apply lc_before; [unfold setNodeLeaf; lvs|]. intros [] s8 _. apply lc_before; [lvs|]. intros c s9 _. apply lc_addChild.
        -- destruct (Nat.ltb _ _).
           ++ apply lc_after; [|intros; lvs]. apply lc_before; [lvs|]. intros c s9 _. apply lc_addChild.
           ++ apply lc_before; [lvs|]. intros r s9 [= <- <-]. destruct (Nat.ltb _ _); [|by apply lc_bare]. apply lc_before; [lvs|]. intros c s9 _. apply lc_addChild.
    + destruct (leafMatches _ _); [|by apply IH2]. apply lp_bind; [lvs|]. intros newLeaf s1 E1 _.
      apply (soft_tn node) in E1; [|apply tn_writeLeaf|done]. apply lp_bind; [lvs|]. intros x s2 E2 _. apply (soft_tn node) in E2; [|apply tn_liftH, ho_loadL|done].
      apply lp_bind; [lvs|]. intros [] s3 E3 _. apply (soft_tn node) in E3; [|done|done]. apply lp_bind; [lvs|]. intros node' s4 E4 _.
      apply writeNode_soft in E4; [|done]. apply lp_bind; [by apply lp_setNodeLeaf|]. intros; lvs.
  - intros s Hc Hz. apply lp_loadN. intros n Hn. destruct (Nat.ltb 0 (n_plen n)).
    + apply lp_getH. apply lp_lift. intros pd _. destruct (Nat.leb _ _).
      * apply lp_bind; [lvs|]. intros [ch idx] s' E _.
        assert (s' = s) as ->.
        { destruct (Nat.ltb _ _); [|by injection E as _ _ <-]. revert E. unfold byteAt, bind. destruct (key !! _); [|done]. unfold ret, lift. by intros [= _ <-]. }
        destruct ch as [child|]; [|lvs]. apply lp_bind; [apply IH1; done|]. intros [[[newChild val] mu] old] s1 _ _. lvs.
      * apply (lp_newNode pd). intros a s1 s2 E1 Hb. apply allocNode_at in E1 as (-> & _). destruct (Hc _ _ Hn) as [_ Hlt].
        set (a := h_next (s_h s)) in *. apply lc_before; [lvs|]. intros [] s3 _. apply lc_before; [apply lv_writeNode; intros [= E]; lia|]. intros node' s4 _.
        unfold lc. intros Hl4 r s'. unfold bind at 1. destruct (loadN node' s4) as [[m| |] s5] eqn:E5; [|done..].
        assert (Hm : h_nodes (s_h s4) !! node' = Some m /\ s5 = s4).
        { revert E5. unfold loadN, liftH, hloadN. destruct s4 as [h t]. cbn. destruct (h_nodes h !! node'); [|done]. by intros [= -> <-]. }
        destruct Hm as [Hm ->]. clear E5. revert Hl4 r s'. apply lc_after.
        -- destruct (Nat.leb_spec (n_plen m) maxPrefixLen) as [Hle|Hgt].
           ++ apply lc_before; [lvs|]. intros c s5 _. apply lc_after; [apply lc_addChild|]. intros nn s6.
              apply lv_bind; [|intros; lvs]. apply lv_updN. intros m1 m2 _ [= <-] _ _ _. cbn. lia.
           ++ apply lc_before.
              { apply lp_updN. intros m1 m2 Hm1 _ Hlm [= <-] Hk4 Hz0 Hlf. exfalso. assert (m1 = m) as -> by congruence. specialize (Hlm Hk4 Hz0 Hlf). lia. }
              intros [] s5 _. apply lc_before; [lvs|]. intros h s6 _. apply lc_before; [lvs|]. intros lo s7 _. destruct lo as [la|]; [|apply lc_panic].
              apply lc_before; [lvs|]. intros l s8 _. apply lc_before; [lvs|]. intros c s9 _. apply lc_after; [apply lc_addChild|]. intros nn s10. lvs.
        -- intros nn s5. lvs.
    + apply lp_byteAt. intros c. apply lp_lift. intros [ch idx] _. destruct ch as [child|]; [|lvs].
      apply lp_bind; [apply IH1; done|]. intros [[[newChild val] mu] old] s1 _ _. lvs.
Qed.
Lemma lv_commit : lv None (commit (V:=V)).
Proof.
  intros s. unfold commit. apply lv_bind; [lvs|]. intros t0 s0. apply lv_bind; [|intros; lvs]. destruct (t_track t0); [|lvs]. unfold notify, slowNotify.
  intros s4. apply lv_bind; [lvs|]. intros t4 s5. destruct (t_track t4); [|lvs]. apply lv_bind; [lvs|]. intros t6 s6.
  apply lv_bind; [apply lv_liftH, hl_ho, ho_closeAll|]. intros; lvs.
Qed.
(** the root of an empty tree *)
Definition low_root (h : heap V) (t : rtree) : Prop := r_size t = 0%N -> forall n, h_nodes h !! r_root t = Some n -> n_plen n <= maxPrefixLen.
Lemma lims_treeInsert t k v h t' r h' : clean h -> lims None h -> low_root h t -> treeInsert (V:=V) t k v h = (Ok (t', r), h') -> lims None h'.
Proof.
  intros Hc Hl Hr. unfold treeInsert, withTxn. destruct (newTxn t h) as [[tx| |] h1] eqn:E1; [|done..].
  assert (Hh1 : clean h1 /\ lims None h1 /\ (t_tsize tx = 0%N -> soft (t_root tx) (mkS h1 tx))).
  { split; [|split].
    - revert E1. apply hc_bind; [apply hc_cloneN|intros; apply hc_ret|done].
    - revert E1. apply hl_bind; [by apply hl_cloneN|intros; apply hl_ret|done].
    - revert E1. unfold newTxn, bind at 1. destruct (cloneN (r_root t) true h) as [[a| |] h2] eqn:E2; [|done..]. intros [= <- <-]. cbn [t_tsize t_root]. intros Hz n Hn _ _.
      cbn in Hn. revert E2. unfold cloneN, bind at 1, bind at 1.
      destruct (getMutateChN (r_root t) h) as [[c| |] h3] eqn:E3; [|done..]. unfold ret at 1, bind, hloadN.
      destruct (h_nodes h3 !! r_root t) as [n3|] eqn:E4; [|done]. intros [= <- <-]. cbn in Hn. rewrite lookup_insert in Hn. injection Hn as <-. cbn.
      destruct (h_nodes h !! r_root t) as [n0|] eqn:E0.
      + destruct (hk_getMutateChN _ _ _ _ E3 _ _ E0) as (n4 & Hn4 & _ & _ & Hp & _). assert (n4 = n3) as -> by congruence. rewrite Hp. by apply Hr.
      + revert E3. unfold getMutateChN, bind, hloadN. by rewrite E0. }
  destruct Hh1 as (Hc1 & Hl1 & Hs1). destruct (txnInsert k v (mkS h1 tx)) as [[a| |] s2] eqn:E2; [|done..].
  assert (Hl2 : lims None (s_h s2)).
  { revert E2. unfold txnInsert, bind at 1, getT at 1. cbn [s_t].
    unfold bind at 1. destruct (recursiveInsert _ (t_root tx) (getTreeKey k) v 0 (mkS h1 tx)) as [[[[[newRoot oldVal] m] old]| |] s3] eqn:E3; [|done..].
    intros E2. assert (Hl3 : lims None (s_h s3)).
    { eapply (proj1 (lv_recursiveInsert (getTreeKey k) v _) (t_root tx) 0 (mkS h1 tx)); [exact Hc1|exact Hs1|exact Hl1|exact E3]. }
    revert E2. unfold bind, getT, putT, ret. by intros [= _ <-]. }
  destruct (commit s2) as [[t2| |] s3] eqn:E3; [|done..]. intros [= _ _ <-]. by eapply lv_commit.
Qed.
Lemma build_snoc (os : list (op V)) o h t rs : build (os ++ [o]) h t rs -> exists h1 t1 rs1 r, build os h1 t1 rs1 /\ treeOp o t1 h1 = (Ok (t, r), h).
Proof.
  unfold build, bind at 1, bind at 1. destruct (newTree h_init) as [[t0| |] h0]; [|done..]. clear. revert t0 h0 h t rs.
  induction os as [|o' os IH]; intros t0 h0 h t rs; cbn [treeOps app].
  - unfold bind, ret. destruct (treeOp o t0 h0) as [[[t1 r1]| |] h1] eqn:E; [|done..]. cbn. intros [= <- <- <-]. do 4 eexists. split; [done|exact E].
  - unfold bind at 1. destruct (treeOp o' t0 h0) as [[[t1 r1]| |] h1] eqn:E; [|done..]. cbn [fst snd]. unfold bind at 1.
    destruct (treeOps (os ++ [o]) t1 h1) as [[[t2 rs2]| |] h2] eqn:E2; [|done..]. cbn [fst snd]. intros [= <- <- <-].
    destruct (IH _ _ _ _ _ E2) as (h3 & t3 & rs3 & r & E3 & E4). do 4 eexists. split; [|exact E4]. unfold bind. rewrite E. cbn [fst snd]. rewrite E3. done.
Qed.
Lemma build_lims (os : list (op V)) : Forall (fun o => is_insert o /\ valid_key (op_key o)) os -> (N.of_nat (length os) < 2 ^ 64)%N ->
  forall h t rs, build os h t rs -> lims None h.
Proof.
  induction os as [|o os IH] using rev_ind; intros Ho Hlen h t rs Hb.
  - revert Hb. unfold build, bind. cbn. intros [= _ _ <-]. intros a n. cbn. rewrite lookup_insert_Some, lookup_empty. intros [[_ <-]|[_ E]]; [|done].
    intros _ _ _ _. cbn. lia.
  - apply Forall_app in Ho as [Ho Hoo]. apply Forall_cons in Hoo as [[Hi Hv] _]. rewrite app_length in Hlen. cbn in Hlen.
    apply build_snoc in Hb as (h1 & t1 & rs1 & r & Hb & E). destruct o as [k v|k|k]; [|done..]. cbn in E. unfold bind at 1 in E.
    destruct (treeInsert t1 k v h1) as [[[t2 r2]| |] h2] eqn:E2; [|done..]. injection E as _ _ <-.
    eapply lims_treeInsert; [| | |exact E2].
    + eapply build_clean; [|exact Hb]. eapply Forall_impl; [exact Ho|]. by intros [] [? _].
    + eapply IH; [done|lia|exact Hb].
    + destruct (tame_inserts os Ho) as [d Ht]. destruct (build_spec os d Ht) as (h3 & t3 & rs3 & x & Hb3 & (_ & Hsz & _) & _ & _ & Hle); [lia|].
      assert (h3 = h1 /\ t3 = t1) as [-> ->] by (unfold build in *; rewrite Hb in Hb3; by injection Hb3 as -> _ ->).
      intros Hz. destruct os as [|o os _] using rev_ind.
      * revert Hb. unfold build, bind. cbn. intros [= <- _ <-]. intros n. cbn. rewrite lookup_insert. intros [= <-]. cbn. lia.
      * exfalso. rewrite Hsz in Hz. apply Forall_app in Ho as [_ Hoo]. apply Forall_cons in Hoo as [[Hi' _] _]. destruct o as [k' v'|?|?]; [|done..].
        assert (size (ref_ops (os ++ [OInsert k' v']) (∅ : gmap (list nat) V)) = 0) as Hz0 by lia.
        apply map_size_empty_inv in Hz0. rewrite ref_ops_snoc in Hz0. cbn in Hz0. by apply insert_non_empty in Hz0.
Qed.
End Holder.
