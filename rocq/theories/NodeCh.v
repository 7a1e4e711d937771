(** Two facts about the channels of inner nodes, along histories: a transaction that does not track leaves the
    channel of every existing node alone, and every node's channel was created by the runtime before. *)
From Verif Require Import World.
From Verif Require Export KeepN Observe.
From stdpp Require Import list.
Local Open Scope nat_scope.

(** ** Predicates on the memory, along calls *)
Section Calls.
Context {V : Type} `{GoZero V}.
Notation TM := (M (st V)).
Notation HM := (M (heap V)).
Variable Q : bool -> Prop.
Variable P : heap V -> Prop.
Hypothesis P_n : forall h h', h_nodes h' = h_nodes h -> h_next h <= h_next h' -> h_nextch h <= h_nextch h' -> P h -> P h'.
Hypothesis P_al : forall h n, n_ch n = None -> P h -> P (mkH (<[h_next h := n]> (h_nodes h)) (h_leaves h) (S (h_next h)) (h_nextch h) (h_closed h)).
Hypothesis P_st : forall h a n n', h_nodes h !! a = Some n -> n_ch n' = n_ch n -> P h -> P (mkH (<[a := n']> (h_nodes h)) (h_leaves h) (h_next h) (h_nextch h) (h_closed h)).
Definition hk {A} (m : HM A) : Prop := forall h, P h -> P (m h).2.
Hypothesis P_getMutateChN : forall a, hk (getMutateChN a).
Hypothesis P_cloneN : forall a b, hk (cloneN a b).
Definition PI (s : st V) : Prop := Q (t_track (s_t s)) /\ P (s_h s).
Hypothesis P_trackN : forall a, nv PI (trackN (V:=V) a).

Lemma PI_t : forall h t t', t_track t' = t_track t -> (forall c, c ∈ t_chs t -> c ∈ t_chs t') -> PI (mkS h t) -> PI (mkS h t').
Proof. intros h t t' E _ [H1 H2]. split; cbn in *; [by rewrite E|done]. Qed.
Lemma PI_n : forall h h' t, h_nodes h' = h_nodes h -> h_next h <= h_next h' -> h_nextch h <= h_nextch h' -> PI (mkS h t) -> PI (mkS h' t).
Proof. intros h h' t E1 E2 E3 [H1 H2]. split; [done|]. by eapply P_n. Qed.
Lemma PI_al : forall h t n, n_ch n = None -> PI (mkS h t) ->
  PI (mkS (mkH (<[h_next h := n]> (h_nodes h)) (h_leaves h) (S (h_next h)) (h_nextch h) (h_closed h)) t).
Proof. intros h t n E [H1 H2]. split; [done|]. by apply P_al. Qed.
Lemma PI_st : forall h t a n n', h_nodes h !! a = Some n -> n_ch n' = n_ch n -> PI (mkS h t) ->
  PI (mkS (mkH (<[a := n']> (h_nodes h)) (h_leaves h) (h_next h) (h_nextch h) (h_closed h)) t).
Proof. intros h t a n n' E1 E2 [H1 H2]. split; [done|]. by eapply P_st. Qed.
Lemma nv_liftHk {A} (m : HM A) : hk m -> nv PI (liftH m).
Proof. intros Hm [h t] [H1 H2]. unfold liftH. cbn [s_h s_t] in *. specialize (Hm h H2). by destruct (m h) as [o h']. Qed.
Lemma PI_cloneN a b : nv PI (liftH (cloneN (V:=V) a b)).
Proof. apply nv_liftHk, P_cloneN. Qed.
Lemma PI_insert k v : nv PI (txnInsert (V:=V) k v).
Proof. apply (nv_txnInsert PI PI_t PI_n PI_al PI_st P_trackN PI_cloneN). Qed.
Lemma PI_delete k : nv PI (txnDelete (V:=V) k).
Proof. apply (nv_txnDelete PI PI_t PI_n PI_al PI_st P_trackN PI_cloneN). Qed.
Lemma PI_deletePrefix k : nv PI (txnDeletePrefix (V:=V) k).
Proof. apply (nv_txnDeletePrefix PI PI_t PI_n PI_al PI_st P_trackN PI_cloneN). Qed.

Lemma hk_bind {A B} (m : HM A) (k : A -> HM B) : hk m -> (forall a, hk (k a)) -> hk (bind m k).
Proof. intros Hm Hk h Hh. specialize (Hm h Hh). unfold bind. destruct (m h) as [[a| |] h']; cbn in *; [|done..]. by apply Hk. Qed.
Lemma hk_ho {A} (m : HM A) : ho m -> hk m.
Proof. intros Hm h Hh. destruct (Hm h) as (? & ? & ?). by eapply P_n. Qed.
Lemma hk_id {A} (m : HM A) : (forall h, (m h).2 = h) -> hk m.
Proof. intros Hm h Hh. by rewrite Hm. Qed.
Lemma hk_getWatchFrom r k : hk (getWatchFrom (V:=V) r k).
Proof.
  apply hk_bind; [by apply hk_id|]. intros h. apply hk_bind; [by apply hk_id|]. intros [a|a].
  - apply hk_bind; [apply hk_ho, ho_loadL|]. intros l. apply hk_bind; [apply hk_ho, ho_getMutateChL|]. intros c'. by apply hk_id.
  - apply hk_bind; [apply P_getMutateChN|]. intros c'. by apply hk_id.
Qed.
Lemma hk_seekWatch it p : hk (seekPrefixWatch (V:=V) it p).
Proof.
  apply hk_bind; [by apply hk_id|]. intros h. apply hk_bind; [by apply hk_id|]. intros it'. destruct (it_node it') as [[b|]|]; [|by apply hk_id..].
  apply hk_bind; [apply P_getMutateChN|]. intros; by apply hk_id.
Qed.
Lemma hk_newTxn t : hk (newTxn (V:=V) t).
Proof. apply hk_bind; [apply P_cloneN|]. intros; by apply hk_id. Qed.
Lemma hk_cloneTxn t : hk (cloneTxn (V:=V) t).
Proof. apply hk_bind; [apply P_cloneN|]. intros; by apply hk_id. Qed.
Lemma hk_cloneTree t : hk (cloneTree (V:=V) t).
Proof. apply hk_bind; [apply P_cloneN|]. intros; by apply hk_id. Qed.
Lemma hk_newTree : hk (newTree (V:=V)).
Proof. apply hk_bind; [apply hk_ho, ho_allocL|]. intros l. apply hk_bind; [intros h Hh; by apply P_al|]. intros; by apply hk_id. Qed.
Lemma hk_withTxn {A} t (m : TM A) : Q false -> nv PI m -> pv (fun _ _ => True) m -> hk (withTxn t m).
Proof.
  intros HQ Hm Hp h Hh. unfold withTxn. pose proof (hk_newTxn t h Hh) as Hn. destruct (newTxn t h) as [[tx| |] h1] eqn:En; cbn in *; [|done..].
  assert (Ht : t_track tx = false). { unfold newTxn, bind in En. destruct (cloneN _ _ h) as [[r| |] h2]; [|done..]. by injection En as <- <-. }
  destruct (Hm (mkS h1 tx)) as [R1 R2]; [split; cbn; [by rewrite Ht|done]|]. pose proof (Hp (mkS h1 tx)) as [_ Htr _ _]. cbn in Htr.
  destruct (m (mkS h1 tx)) as [[a| |] s]; cbn in *; [|done..].
  unfold commit, bind, getT. rewrite Htr, Ht. done.
Qed.
Lemma P_notify (s : st V) : P (s_h s) -> P (s_h (notify (V:=V) s).2).
Proof.
  intros Hu. unfold notify, bind, getT. cbn. destruct (t_track (s_t s)); [|done]. unfold slowNotify, bind, getT, liftH, putT. cbn.
  pose proof (ho_closeAll (t_chs (s_t s)) (s_h s)) as (E1 & E2 & E3). destruct (closeAll (t_chs (s_t s)) (s_h s)) as [[u| |] h']; cbn in *; by eapply P_n.
Qed.
Lemma P_onHeap {A} w (m : HM A) k r w' : hk m -> P (w_h w) -> onHeap w m k = (r, w') -> P (w_h w').
Proof.
  intros Hm Hu E. specialize (Hm _ Hu). unfold onHeap in E. destruct (m (w_h w)) as [[a| |] h']; [destruct (k a) as [[ts xs] r0]|..]; by injection E as <- <-.
Qed.
Lemma P_onTxn {A} w j x (m : TM A) k r w' : P (s_h (m (mkS (w_h w) x)).2) -> onTxn w j x m k = (r, w') -> P (w_h w').
Proof.
  intros Hm E. unfold onTxn in E. destruct (m _) as [[a| |] s]; [destruct (k a) as [ts r0]|..]; by injection E as <- <-.
Qed.
Lemma step_P c (w : world V) r w' : Q false -> step c w = (r, w') -> (forall j x, updates c = Some j -> w_txns w !! j = Some x -> Q (t_track x)) ->
  P (w_h w) -> P (w_h w').
Proof.
  intros HQ E Hq Hu. destruct c; cbn [step] in E;
    try (unfold withTree in E; destruct (w_trees w !! i) as [t|] eqn:Hi; [|injection E as <- <-; exact Hu]);
    try (unfold withTx in E; destruct (w_txns w !! j) as [x|] eqn:Hj; [|injection E as <- <-; exact Hu]).
  - eapply P_onHeap; [apply hk_newTree|exact Hu|exact E].
  - eapply P_onHeap; [|exact Hu|exact E]. apply hk_withTxn; [done|apply PI_insert|by apply pv_txnInsert].
  - eapply P_onHeap; [|exact Hu|exact E]. apply hk_withTxn; [done|apply PI_delete|by apply pv_txnDelete].
  - eapply P_onHeap; [|exact Hu|exact E]. apply hk_withTxn; [done|apply PI_deletePrefix|by apply pv_txnDeletePrefix].
  - eapply P_onHeap; [apply hk_cloneTree|exact Hu|exact E].
  - eapply P_onHeap; [apply hk_getWatchFrom|exact Hu|exact E].
  - eapply P_onHeap; [apply hk_seekWatch|exact Hu|exact E].
  - eapply P_onHeap; [apply hk_newTxn|exact Hu|exact E].
  - eapply P_onTxn; [|exact E]. apply PI_insert. split; [by eapply Hq|done].
  - eapply P_onTxn; [|exact E]. apply PI_delete. split; [by eapply Hq|done].
  - eapply P_onTxn; [|exact E]. apply PI_deletePrefix. split; [by eapply Hq|done].
  - eapply P_onHeap; [apply hk_getWatchFrom|exact Hu|exact E].
  - by injection E as <- <-.
  - eapply P_onTxn; [|exact E]. unfold commit, bind, getT. cbn. destruct (t_track x) eqn:Ht; [|done].
    pose proof (P_notify (mkS (w_h w) x) Hu) as Hy. destruct (notify _) as [[u| |] s]; exact Hy.
  - by injection E as <- <-.
  - eapply P_onTxn; [|exact E]. by apply P_notify.
  - eapply P_onHeap; [apply hk_cloneTxn|exact Hu|exact E].
Qed.
End Calls.

Section GM.
Context {V : Type} `{GoZero V}.
Lemma getMutateChN_cases (h : heap V) a n : h_nodes h !! a = Some n ->
  (exists c, n_ch n = Some c /\ getMutateChN a h = (Ok c, h)) \/
  (n_ch n = None /\ getMutateChN a h = (Ok (h_nextch h), mkH (<[a := set_ch n (Some (h_nextch h))]> (h_nodes h)) (h_leaves h) (h_next h) (S (h_nextch h)) (h_closed h))).
Proof. intros Hl. unfold getMutateChN, bind, hloadN. rewrite Hl. destruct (n_ch n) as [c|]; [left; by exists c|right; done]. Qed.
Lemma getMutateChN_gets (h : heap V) a c h' : getMutateChN a h = (Ok c, h') -> exists n, h_nodes h' !! a = Some n /\ n_ch n = Some c.
Proof.
  intros E. destruct (h_nodes h !! a) as [n|] eqn:Hn; [|unfold getMutateChN, bind, hloadN in E; by rewrite Hn in E].
  destruct (getMutateChN_cases h a n Hn) as [(c0 & Hc0 & Eg)|(Hc0 & Eg)]; rewrite Eg in E; injection E as <- <-.
  - eauto.
  - cbn. rewrite lookup_insert. eauto.
Qed.
End GM.

(** ** The channel of a node, when nobody tracks *)
Section UN.
Context {V : Type} `{GoZero V} (x0 : addr) (c : chan).
Notation HM := (M (heap V)).
Definition UNh (h : heap V) : Prop := x0 < h_next h /\ exists n, h_nodes h !! x0 = Some n /\ n_ch n = Some c.
Lemma UN_n : forall h h' : heap V, h_nodes h' = h_nodes h -> h_next h <= h_next h' -> h_nextch h <= h_nextch h' -> UNh h -> UNh h'.
Proof. intros h h' E1 E2 _ [H1 H2]. split; [lia|]. by rewrite E1. Qed.
Lemma UN_new (h : heap V) n : UNh h -> UNh (mkH (<[h_next h := n]> (h_nodes h)) (h_leaves h) (S (h_next h)) (h_nextch h) (h_closed h)).
Proof. intros [H1 H2]. split; cbn; [lia|]. by rewrite lookup_insert_ne by lia. Qed.
Lemma UN_st : forall (h : heap V) a n n', h_nodes h !! a = Some n -> n_ch n' = n_ch n -> UNh h -> UNh (mkH (<[a := n']> (h_nodes h)) (h_leaves h) (h_next h) (h_nextch h) (h_closed h)).
Proof.
  intros h a n n' Hn Hc [H1 (n0 & H2 & H3)]. split; [done|]. cbn. destruct (decide (a = x0)) as [->|Hne].
  - exists n'. rewrite lookup_insert. split; [done|]. congruence.
  - exists n0. by rewrite lookup_insert_ne.
Qed.
Lemma UN_gm a : hk UNh (getMutateChN (V:=V) a).
Proof.
  intros h Hh. destruct (h_nodes h !! a) as [n|] eqn:Hn; [|unfold getMutateChN, bind, hloadN; by rewrite Hn].
  destruct (getMutateChN_cases h a n Hn) as [(c0 & Hc0 & ->)|(Hc0 & ->)]; [done|]. destruct Hh as [H2 (l0 & H3 & H4)]. split; [done|]. cbn.
  exists l0. rewrite lookup_insert_ne; [done|]. intros ->. congruence.
Qed.
Lemma UN_cl a b : hk UNh (cloneN (V:=V) a b).
Proof.
  unfold cloneN. apply hk_bind; [destruct b; [apply hk_bind; [apply UN_gm|intros; by apply hk_id]|by apply hk_id]|]. intros o.
  apply hk_bind; [|intros n h Hh; by apply UN_new]. apply hk_id. intros h. unfold hloadN. by destruct (h_nodes h !! a).
Qed.
Lemma UN_trackN a : nv (PI (fun b => b = false) UNh) (trackN (V:=V) a).
Proof. intros s [H1 H2]. unfold trackN, bind, getT. cbn. by rewrite H1. Qed.
Lemma step_UN d (w : world V) r w' : step d w = (r, w') -> (forall j x, updates d = Some j -> w_txns w !! j = Some x -> t_track x = false) -> UNh (w_h w) -> UNh (w_h w').
Proof.
  intros E Hq. apply (step_P (fun b => b = false) UNh UN_n (fun h n _ => UN_new h n) UN_st UN_gm UN_cl UN_trackN d w r w' eq_refl E). done.
Qed.
End UN.

(** ** Channels of nodes were created before *)
Section CB.
Context {V : Type} `{GoZero V}.
Definition CBh (h : heap V) : Prop := forall x n c, h_nodes h !! x = Some n -> n_ch n = Some c -> c < h_nextch h.
Lemma CB_n : forall h h' : heap V, h_nodes h' = h_nodes h -> h_next h <= h_next h' -> h_nextch h <= h_nextch h' -> CBh h -> CBh h'.
Proof. intros h h' E1 _ E2 Hb x n c Hn Hc. rewrite E1 in Hn. specialize (Hb _ _ _ Hn Hc). lia. Qed.
Lemma CB_al : forall (h : heap V) n, n_ch n = None -> CBh h -> CBh (mkH (<[h_next h := n]> (h_nodes h)) (h_leaves h) (S (h_next h)) (h_nextch h) (h_closed h)).
Proof. intros h n Hn Hb x n' c Hx Hc. cbn in *. apply lookup_insert_Some in Hx as [[<- <-]|[_ Hx]]; [congruence|by eapply Hb]. Qed.
Lemma CB_st : forall (h : heap V) a n n', h_nodes h !! a = Some n -> n_ch n' = n_ch n -> CBh h -> CBh (mkH (<[a := n']> (h_nodes h)) (h_leaves h) (h_next h) (h_nextch h) (h_closed h)).
Proof. intros h a n n' Hn Ec Hb x n0 c Hx Hc. cbn in *. apply lookup_insert_Some in Hx as [[<- <-]|[_ Hx]]; [rewrite Ec in Hc; by eapply Hb|by eapply Hb]. Qed.
Lemma CB_set (h : heap V) a n c : h_nodes h !! a = Some n -> c < h_nextch h -> CBh h ->
  CBh (mkH (<[a := set_ch n (Some c)]> (h_nodes h)) (h_leaves h) (h_next h) (h_nextch h) (h_closed h)).
Proof. intros Hn Hlt Hb x n0 c0 Hx Hc. cbn in *. apply lookup_insert_Some in Hx as [[<- <-]|[_ Hx]]; [cbn in Hc; by injection Hc as <-|by eapply Hb]. Qed.
Lemma CB_gm a : hk CBh (getMutateChN (V:=V) a).
Proof.
  intros h Hh. destruct (h_nodes h !! a) as [n|] eqn:Hn; [|unfold getMutateChN, bind, hloadN; by rewrite Hn].
  destruct (getMutateChN_cases h a n Hn) as [(c0 & Hc0 & ->)|(Hc0 & ->)]; [done|]. cbn.
  apply (CB_set (mkH (h_nodes h) (h_leaves h) (h_next h) (S (h_nextch h)) (h_closed h)) a n); cbn; [done|lia|]. eapply CB_n; [..|exact Hh]; cbn; [done|lia|lia].
Qed.
Lemma gm_bound (h : heap V) a c h' : CBh h -> getMutateChN a h = (Ok c, h') -> c < h_nextch h'.
Proof.
  intros Hh E. pose proof (CB_gm a h Hh) as Hb. rewrite E in Hb. destruct (getMutateChN_gets _ _ _ _ E) as (n & Hn & Hc). by eapply Hb.
Qed.
Lemma CB_cl a b : hk CBh (cloneN (V:=V) a b).
Proof.
  intros h Hh. unfold cloneN. destruct b.
  - unfold bind. destruct (getMutateChN a h) as [[c| |] h1] eqn:E; pose proof (CB_gm a h Hh) as Hb; rewrite E in Hb; cbn in Hb; [|exact Hb..].
    cbn. unfold hloadN. destruct (h_nodes h1 !! a) as [n|]; [|exact Hb]. cbn. intros x n0 c0 Hx Hc. cbn in *.
    apply lookup_insert_Some in Hx as [[<- <-]|[_ Hx]]; [|by eapply Hb]. cbn in Hc. injection Hc as <-. exact (gm_bound h a c h1 Hh E).
  - unfold bind, ret, hloadN. destruct (h_nodes h !! a) as [n|]; [|exact Hh]. by apply CB_al.
Qed.
Lemma CB_trackN a : nv (PI (fun _ => True) CBh) (trackN (V:=V) a).
Proof.
  intros s [_ Hb]. split; [done|]. unfold trackN, bind, getT. cbn. destruct (t_track (s_t s) && _) eqn:Ek; [|done].
  unfold liftH. destruct (getMutateChN a (s_h s)) as [[c| |] h1] eqn:E; pose proof (CB_gm a _ Hb) as Hb1; rewrite E in Hb1; cbn in Hb1; [|exact Hb1..].
  destruct (getMutateChN_gets _ _ _ _ E) as (n & Hn & Hc). unfold addTracked, bind, getT, putT, hmakeChan, setMutateChN, bind, hloadN. cbn. rewrite Hn. cbn.
  apply (CB_set (mkH (h_nodes h1) (h_leaves h1) (h_next h1) (S (h_nextch h1)) (h_closed h1)) a n); cbn; [done|lia|]. eapply CB_n; [..|exact Hb1]; cbn; [done|lia|lia].
Qed.
Lemma step_CB d (w : world V) r w' : step d w = (r, w') -> CBh (w_h w) -> CBh (w_h w').
Proof. intros E. by apply (step_P (fun _ => True) CBh CB_n CB_al CB_st CB_gm CB_cl CB_trackN d w r w' Logic.I E). Qed.
Lemma exec_CB (cs : list (call V)) : forall w rs w', CBh (w_h w) -> exec cs w = (rs, w') -> CBh (w_h w').
Proof.
  induction cs as [|c cs IH]; intros w rs w' Hb E; [by injection E as <- <-|]. cbn in E. destruct (step c w) as [r w1] eqn:E1. destruct (exec cs w1) as [rs2 w2] eqn:E2.
  injection E as <- <-. eapply IH; [|exact E2]. by eapply step_CB.
Qed.
Lemma CB_init : CBh (w_h (w_init (V:=V))).
Proof. intros x n c. cbn. by rewrite lookup_empty. Qed.
(** no call takes a channel back *)
Lemma step_nextch d (w : world V) r w' : step d w = (r, w') -> forall c, c < h_nextch (w_h w) -> c < h_nextch (w_h w').
Proof.
  intros E c Hc.
  refine (step_P (fun _ => True) (fun h => c < h_nextch h) _ _ _ _ _ _ d w r w' Logic.I E (fun _ _ _ _ => Logic.I) Hc).
  - intros h h' _ _ Hl ?. lia.
  - intros h n _ Hh. exact Hh.
  - intros h a n n' _ _ Hh. exact Hh.
  - intros a h Hh. destruct (hp_getMutateChN (fun _ _ => True) a h). lia.
  - intros a b h Hh. destruct (hp_cloneN (fun _ _ => True) a b h). lia.
  - intros a s [_ Hh]. destruct (pv_trackN (fun _ _ => True) a s) as [[]]. split; [done|]. lia.
Qed.
End CB.
