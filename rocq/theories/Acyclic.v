(** Ranks in every world a client can reach, and what follows: no cycles, and every call, walk and iteration ends. *)
From Verif Require Export Rank SpecGraph.
From stdpp Require Import list relations.
Local Open Scope nat_scope.

Section Acyclic.
Context {V : Type} `{GoZero V}.
Notation TM := (M (st V)).
Notation HM := (M (heap V)).
Notation entry := (option ref).
Implicit Types (rk : nat -> nat) (h : heap V) (w : world V).

(** heap programs: the memory stays ranked and grows, and the result satisfies P *)
Definition kx {A} (m : HM A) (P : A -> heap V -> Prop) h : Prop :=
  (m h).1 <> NoFuel /\ ranked (m h).2 /\ h_next h <= h_next (m h).2 /\ forall a, (m h).1 = Ok a -> P a (m h).2.
Lemma kx_intro {A} rk (m : HM A) Q (P : A -> heap V -> Prop) h : gx rok h_next rk m Q h -> (forall a rk' h', Q a rk' h' -> P a h') -> kx m P h.
Proof.
  unfold gx, kx. destruct (m h) as [[a| |] h']; cbn; [| |done].
  - intros (rk' & _ & L & I & HQ) HP. split_and!; [done|by exists rk'|done|]. intros ? [= <-]. by eapply HP.
  - intros (rk' & _ & L & I) HP. split_and!; [done|by exists rk'|done|done].
Qed.
Lemma kx_q {A} (m : HM A) h : ranked h -> hq m -> kx m (fun _ _ => True) h.
Proof. intros [rk Hr] Hm. eapply kx_intro; [by apply Hm|done]. Qed.
Lemma kx_newTree h : ranked h -> kx newTree (fun t h' => r_root t < h_next h') h.
Proof.
  intros [rk Hr]. eapply (kx_intro rk _ (fun t _ h' => r_root t < h_next h')); [|done]. unfold newTree. apply gx_bind. apply hx_allocL; [done|].
  intros h' Hr' En _ _ _. apply gx_bind. apply (hx_allocN 0); [done|apply Forall_replicate; done|]. intros rk2 h2 _ Hr2 En2 _ _ _ _. apply gx_ret; [done|]. cbn. lia.
Qed.
Lemma kx_cloneN a b h : ranked h -> a < h_next h -> kx (cloneN a b) (fun a' h' => a' < h_next h') h.
Proof. intros [rk Hr] Ha. eapply kx_intro; [by apply hx_cloneN|]. cbn. intros. lia. Qed.
Lemma kx_ret {A B} (m : HM A) (f : A -> B) (P : A -> heap V -> Prop) (Q : B -> heap V -> Prop) h : kx m P h -> (forall a h', P a h' -> Q (f a) h') -> kx (let! a := m in ret (f a)) Q h.
Proof.
  unfold kx, bind. destruct (m h) as [[a| |] h']; cbn; [| |by intros [? _]].
  - intros (_ & R & L & HP) HQ. split_and!; [done|done|done|]. intros ? [= <-]. by apply HQ, HP.
  - intros (_ & R & L & HP) HQ. done.
Qed.
Lemma kx_cloneTree t h : ranked h -> r_root t < h_next h -> kx (cloneTree t) (fun t h' => r_root t < h_next h') h.
Proof. intros Hr Ht. eapply kx_ret; [by apply kx_cloneN|]. done. Qed.
Lemma kx_newTxn t h : ranked h -> r_root t < h_next h -> kx (newTxn t) (fun t h' => t_root t < h_next h') h.
Proof. intros Hr Ht. eapply kx_ret; [by apply kx_cloneN|]. done. Qed.
Lemma kx_cloneTxn t h : ranked h -> t_root t < h_next h -> kx (cloneTxn t) (fun t h' => t_root t < h_next h') h.
Proof. intros Hr Ht. eapply kx_ret; [by apply kx_cloneN|]. done. Qed.
Lemma hq_closeIfOpen c : hq (hcloseIfOpen (V:=V) c).
Proof. intros rk h Hr. unfold hcloseIfOpen. exists rk. destruct (bool_decide _); split_and!; auto using agree_refl. Qed.
Lemma hq_closeAll cs : hq (closeAll (V:=V) cs).
Proof. induction cs as [|c cs IH]; cbn [closeAll]; [apply hq_ret|]. apply hq_bind; [apply hq_closeIfOpen|]. intros _. apply IH. Qed.
Lemma rq_notify : rq (notify (V:=V)).
Proof.
  intros rk s Hr. unfold notify. apply gx_bind. exists rk. split_and!; auto using agree_refl. intros _ _ _. destruct (t_track _); [|by apply gx_ret].
  unfold slowNotify. apply gx_bind. exists rk. split_and!; auto using agree_refl. intros _ _ _.
  apply gx_bind. apply rx_liftH; [done|]. eapply gx_mono; [apply hq_closeAll; apply Hr|]. intros [] rk' h' _ L Hr' -> Hr2 _ _ _.
  apply rx_putRoot; [done|apply Hr2|]. done.
Qed.
Lemma rx_commit rk (s : st V) : rst rk s -> gx rst Ns rk commit (fun (t : rtree) _ (s' : st V) => r_root t < Ns s') s.
Proof.
  intros Hr. unfold commit. apply gx_bind. exists rk. split_and!; auto using agree_refl. intros _ _ _.
  eapply gx_use with (P := fun _ rk' _ => rk' = rk). { destruct (t_track _); [by apply rq_notify|by apply gx_ret]. }
  intros [] rk' s' _ L Hr' ->. apply gx_ret; [done|]. cbn. destruct Hr. unfold Ns in *. lia.
Qed.
Lemma wx_commit (s : st V) : ranked (s_h s) -> t_root (s_t s) < Ns s -> wx commit s /\ forall t, (commit s).1 = Ok t -> r_root t < Ns (commit s).2.
Proof.
  intros [rk Hr] Ht. pose proof (rx_commit rk s (conj Hr Ht)) as G. split; [by eapply wx_intro|]. intros t E. unfold gx in G.
  destruct (commit s) as [[t'| |] s']; [|done..]. injection E as ->. destruct G as (? & ? & ? & ? & ?). done.
Qed.
Lemma kx_withTxn {A} t (m : TM A) h : ranked h -> r_root t < h_next h -> (forall s, ranked (s_h s) -> t_root (s_t s) < Ns s -> wx m s) ->
  kx (withTxn t m) (fun p h' => r_root p.1 < h_next h') h.
Proof.
  intros Hr Ht Hm. pose proof (kx_newTxn t h Hr Ht) as K. unfold kx, withTxn in *. destruct (newTxn t h) as [[tx| |] h1]; cbn [fst snd s_h s_t] in *; [| |by destruct K].
  - destruct K as (_ & R1 & L1 & P1). specialize (P1 _ eq_refl). specialize (Hm (mkS h1 tx) R1 P1). unfold wx, Ns in Hm.
    destruct (m (mkS h1 tx)) as [[a| |] s]; cbn [fst snd s_h s_t] in *; [| |by destruct Hm].
    + destruct Hm as (_ & R2 & L2 & T2). destruct (wx_commit s R2 T2) as [Hc Hct]. unfold wx, Ns in Hc, Hct. destruct (commit s) as [[t'| |] s']; cbn [fst snd s_h s_t] in *; [| |by destruct Hc].
      * destruct Hc as (_ & R3 & L3 & T3). split_and!; [done|done|lia|]. intros ? [= <-]. by apply Hct.
      * destruct Hc as (_ & R3 & L3 & T3). split_and!; [done|done|lia|done].
    + destruct Hm as (_ & R2 & L2 & T2). split_and!; [done|done|lia|done].
  - destruct K as (_ & R1 & L1 & P1). split_and!; done.
Qed.
Lemma kx_hbind {A B} (f : heap V -> outcome A) (k : A -> HM B) h : ranked h -> f h <> NoFuel -> (forall a, hq (k a)) ->
  kx (let! h := (fun h => (Ok h, h)) in let! a := lift (f h) in k a) (fun _ _ => True) h.
Proof.
  intros [rk Hr] Hf Hk. eapply (kx_intro rk _ (fun _ _ _ => True)); [|done]. apply gx_bind. exists rk. split_and!; auto using agree_refl. intros _ _ _.
  apply gx_bind. apply gx_lift; [done|done|]. intros a _ _ _ _. eapply gx_mono; [by apply Hk|done].
Qed.
Lemma kx_getWatch r k h : ranked h -> kx (getWatchFrom r k) (fun _ _ => True) h.
Proof.
  intros Hr. unfold getWatchFrom. apply kx_hbind; [done|apply nf_search; unfold search_fuel; lia|]. intros [la|a].
  - apply hq_bind; [apply hq_loadL|]. intros l. apply hq_bind; [apply hq_getL|]. intros c. apply hq_ret.
  - apply hq_bind; [apply hq_getN|]. intros c. apply hq_ret.
Qed.

(** ** Seeks *)
Lemma nf_findChild' n c : findChild n c <> NoFuel. Proof. apply nf_findChild. Qed.
Lemma nf_seekLoop rk h p : rok rk h -> forall f a depth, length p - depth < f -> seekLoop f h a p depth <> NoFuel.
Proof.
  intros Hr. induction f as [|f IH]; intros a depth Hf; [lia|]. cbn [seekLoop]. destruct (h_nodes h !! a) as [n|] eqn:En; [|done].
  apply nf_bind.
  { destruct (_ && _); [|done]. apply nf_bind; [by eapply nf_prefixMismatch|]. intros m _. by destruct (Nat.ltb _ _). }
  intros [stop d'] E. destruct stop; [done|]. destruct (p !! d') as [c|] eqn:Ec; [|done]. apply lookup_lt_Some in Ec.
  assert (depth <= d').
  { destruct (_ && _); [|by injection E as <-]. destruct (prefixMismatch _ _ _ _ _) as [m| |]; [|done..]. cbn in E. destruct (Nat.ltb _ _); [done|]. injection E as <-. lia. }
  apply nf_bind; [apply nf_findChild|]. intros [[ca|] idx] _; [|done]. apply IH; lia.
Qed.
Lemma nf_seekPrefix h it p : ranked h -> seekPrefix h it p <> NoFuel.
Proof.
  intros [rk Hr]. unfold seekPrefix. destruct (it_node it) as [[a|a]|]; [|done..]. apply nf_bind; [eapply nf_seekLoop; [done|lia]|]. done.
Qed.
Lemma kx_seekPrefixWatch it p h : ranked h -> kx (seekPrefixWatch it p) (fun _ _ => True) h.
Proof.
  intros Hr. unfold seekPrefixWatch. apply (kx_hbind (fun h => seekPrefix h it p)); [done|by apply nf_seekPrefix|]. intros it'. destruct (it_node it') as [[b|b]|]; [|apply hq_panic..].
  apply hq_bind; [apply hq_getN|]. intros c. apply hq_ret.
Qed.

(** ** Worlds *)
Definition winv w : Prop := ranked (w_h w) /\ Forall (fun t => r_root t < h_next (w_h w)) (w_trees w) /\ Forall (fun x => t_root x < h_next (w_h w)) (w_txns w).
Lemma winv_init : winv w_init.
Proof. split; [|by split; constructor]. exists (fun _ => 0). by intros x n. Qed.
Definition sok w (p : outcome (result V) * world V) : Prop := p.1 <> NoFuel /\ winv p.2.
Lemma F_up (l : list rtree) k k' : Forall (fun t => r_root t < k) l -> k <= k' -> Forall (fun t => r_root t < k') l.
Proof. intros Hl L. eapply Forall_impl; [exact Hl|]. cbn. lia. Qed.
Lemma F_upx (l : list txn) k k' : Forall (fun t => t_root t < k) l -> k <= k' -> Forall (fun t => t_root t < k') l.
Proof. intros Hl L. eapply Forall_impl; [exact Hl|]. cbn. lia. Qed.
Lemma sok_onHeap {A} w (m : HM A) k (P : A -> heap V -> Prop) : winv w -> kx m P (w_h w) ->
  (forall a h', P a h' -> Forall (fun t => r_root t < h_next h') (k a).1.1 /\ Forall (fun x => t_root x < h_next h') (k a).1.2) -> sok w (onHeap w m k).
Proof.
  intros (R & T & X) K Hk. unfold kx, sok, onHeap in *. destruct (m (w_h w)) as [[a| |] h']; cbn in *; [| |by destruct K].
  - destruct K as (_ & R' & L & HP). specialize (Hk a h' (HP a eq_refl)). destruct (k a) as [[ts xs] r]. cbn in *. split; [done|]. split; [done|].
    split; apply Forall_app; (split; [by eauto using F_up, F_upx|apply Hk]).
  - destruct K as (_ & R' & L & HP). split; [done|]. split; [done|]. split; by eauto using F_up, F_upx.
Qed.
Lemma F_ins (l : list txn) j t k : Forall (fun t => t_root t < k) l -> t_root t < k -> Forall (fun t => t_root t < k) (<[j := t]> l).
Proof. intros Hl Ht. by apply Forall_insert. Qed.
Lemma sok_onTxn {A} w j x (m : TM A) k : winv w -> w_txns w !! j = Some x -> (forall s, ranked (s_h s) -> t_root (s_t s) < Ns s -> wx m s) ->
  (forall a, (m (mkS (w_h w) x)).1 = Ok a -> Forall (fun t => r_root t < Ns (m (mkS (w_h w) x)).2) (k a).1) -> sok w (onTxn w j x m k).
Proof.
  intros (R & T & X) Hx Hm Hk. pose proof (Forall_lookup_1 _ _ _ _ X Hx) as Hx1. specialize (Hm (mkS (w_h w) x) R Hx1). unfold wx, Ns, sok, onTxn in *.
  destruct (m (mkS (w_h w) x)) as [[a| |] s]; cbn in *; [| |by destruct Hm].
  - destruct Hm as (_ & R' & L & HP). specialize (Hk a eq_refl). destruct (k a) as [ts r]. cbn in *. split; [done|]. split; [done|].
    split; [apply Forall_app; split; [by eapply F_up|done]|apply F_ins; [by eapply F_upx|done]].
  - destruct Hm as (_ & R' & L & HP). split; [done|]. split; [done|]. split; [by eapply F_up|apply F_ins; [by eapply F_upx|done]].
Qed.
Lemma step_winv c w : winv w -> sok w (step c w).
Proof.
  intros Hw. pose proof Hw as (R & T & X).
  destruct c; cbn [step]; unfold withTree, withTx; try (destruct (w_trees w !! _) as [t|] eqn:Ht; [pose proof (Forall_lookup_1 _ _ _ _ T Ht) as Hl; cbn in Hl|done]);
    try (destruct (w_txns w !! _) as [x|] eqn:Hx; [pose proof (Forall_lookup_1 _ _ _ _ X Hx) as Hl; cbn in Hl|done]).
  - eapply sok_onHeap; [done|by apply kx_newTree|]. intros a h' Ha. split; repeat constructor; done.
  - eapply sok_onHeap; [done|apply kx_withTxn; [done|done|apply wx_txnInsert]|]. intros a h' Ha. split; repeat constructor; done.
  - eapply sok_onHeap; [done|apply kx_withTxn; [done|done|apply wx_txnDelete]|]. intros a h' Ha. split; repeat constructor; done.
  - eapply sok_onHeap; [done|apply kx_withTxn; [done|done|apply wx_txnDeletePrefix]|]. intros a h' Ha. split; repeat constructor; done.
  - eapply sok_onHeap; [done|by apply kx_cloneTree|]. intros a h' Ha. split; repeat constructor; done.
  - eapply sok_onHeap; [done|by apply kx_getWatch|]. intros a h' Ha. split; constructor.
  - eapply sok_onHeap; [done|by apply kx_seekPrefixWatch|]. intros a h' Ha. split; constructor.
  - eapply sok_onHeap; [done|by apply kx_newTxn|]. intros a h' Ha. split; repeat constructor; done.
  - eapply sok_onTxn; [done|done|apply wx_txnInsert|constructor].
  - eapply sok_onTxn; [done|done|apply wx_txnDelete|constructor].
  - eapply sok_onTxn; [done|done|apply wx_txnDeletePrefix|constructor].
  - eapply sok_onHeap; [done|by apply kx_getWatch|]. intros a h' Ha. split; constructor.
  - split; [done|]. split; [done|]. split; [done|]. by apply F_ins.
  - eapply sok_onTxn; [done|done|intros s; apply wx_commit|]. intros t E. constructor; [|constructor]. by apply wx_commit.
  - split; [done|]. split; [done|]. split; [|done]. apply Forall_app. split; [done|]. by constructor.
  - eapply sok_onTxn; [done|done| |constructor]. intros s [rk Hr] Ht. eapply wx_intro. apply rq_notify. by split.
  - eapply sok_onHeap; [done|by apply kx_cloneTxn|]. intros a h' Ha. split; repeat constructor; done.
Qed.
Lemma exec_winv cs : forall w, winv w -> winv (exec cs w).2 /\ Forall (fun r => r <> NoFuel) (exec cs w).1.
Proof.
  induction cs as [|c cs IH]; intros w Hw; [by split; [|constructor]|]. cbn [exec]. destruct (step_winv c w Hw) as [Hn Hw']. destruct (step c w) as [r w'].
  destruct (IH w' Hw') as [? ?]. destruct (exec cs w') as [rs w'']. split; [done|]. by constructor.
Qed.

(** ** Cycles *)
Lemma edge_rk rk h a b : rok rk h -> edge h a b -> rk b < rk a.
Proof. intros Hr (n & En & Hin). destruct (Hr _ _ En) as [_ Hb]. unfold below in Hb. rewrite Forall_forall in Hb. by apply (Hb (Some b)). Qed.
Lemma tc_rk rk h a b : rok rk h -> tc (edge h) a b -> rk b < rk a.
Proof. intros Hr. induction 1 as [a b E|a b c E _ IH]; [by eapply edge_rk|]. apply (edge_rk rk) in E; [lia|done]. Qed.
Lemma acyclic_ranked h : ranked h -> acyclic h.
Proof. intros [rk Hr] a Hc. apply (tc_rk rk) in Hc; [lia|done]. Qed.

(** ** Walks *)
Section Walk.
Context {A : Type} (fn : bytes -> V -> A -> A * bool).
Lemma nf_walk_rk rk h : rok rk h -> forall f a acc, rk a < f -> recursiveWalk fn f h a acc <> NoFuel.
Proof.
  intros Hr. induction f as [|f IH]; intros a acc Hf; [lia|]. cbn [recursiveWalk]. destruct (h_nodes h !! a) as [n|] eqn:En; [|done]. destruct (Hr _ _ En) as [_ Hb].
  apply nf_bind. { destruct (isLeafN n); [|done]. destruct (n_leaf n); [|done]. by destruct (h_leaves h !! _). }
  intros [acc' stop] _. destruct stop; [done|]. unfold below in Hb. revert acc'. induction (n_children n) as [|[c|] l IHl]; intros acc'; [done| |].
  - apply Forall_cons in Hb as [[_ Hc] Hb]. apply nf_bind; [apply IH; lia|]. intros [acc2 []] _; [done|]. by apply IHl.
  - apply Forall_cons in Hb as [_ Hb]. by apply IHl.
Qed.
Lemma nf_walk h t acc : ranked h -> treeWalk fn h t acc <> NoFuel.
Proof.
  intros [rk Hr]. unfold treeWalk. apply nf_bind; [|by intros []]. eapply nf_walk_rk; [by apply rok_cr|]. unfold walk_fuel. pose proof (cr_le rk (h_next h) (r_root t)). lia.
Qed.
End Walk.
Lemma nf_dfs_rk rk h : rok rk h -> forall f a, rk a < f -> dfsNode f h a <> NoFuel.
Proof.
  intros Hr. induction f as [|f IH]; intros a Hf; [lia|]. cbn [dfsNode]. destruct (h_nodes h !! a) as [n|] eqn:En; [|done]. destruct (Hr _ _ En) as [_ Hb].
  apply nf_bind; [|done]. induction (seq 0 (n_nch n)) as [|i l IHl]; [done|]. apply nf_bind; [apply nf_getChild|]. intros [c|] Ec; [|done].
  apply nf_bind; [|intros; by apply nf_bind]. apply IH. unfold getChild in Ec. destruct (n_children n !! i) as [o|] eqn:Ei; [|by destruct (n_kind n)]. assert (o = Some c) as -> by (destruct (n_kind n); by injection Ec as ->).
  pose proof (Forall_lookup_1 _ _ _ _ Hb Ei) as [_ ?]. lia.
Qed.
Lemma nf_dfs h a : ranked h -> dfsNode (walk_fuel h) h a <> NoFuel.
Proof. intros [rk Hr]. eapply nf_dfs_rk; [by apply rok_cr|]. unfold walk_fuel. pose proof (cr_le rk (h_next h) a). lia. Qed.
Lemma nf_treeDfs h t : ranked h -> treeDfs h t <> NoFuel.
Proof. intros Hr. unfold treeDfs. apply nf_bind; [by apply nf_dfs|done]. Qed.
Lemma nf_leafKV h o : leafKV h o <> NoFuel.
Proof. destruct o; [|done]. cbn. by destruct (h_leaves h !! _). Qed.
Lemma nf_treeMin h t : ranked h -> treeMinimum h t <> NoFuel.
Proof. intros [rk Hr]. apply nf_bind; [by eapply nf_minimum|]. intros. apply nf_leafKV. Qed.
Lemma nf_treeMax h t : ranked h -> treeMaximum h t <> NoFuel.
Proof. intros [rk Hr]. apply nf_bind; [by eapply nf_maximum|]. intros. apply nf_leafKV. Qed.

(** ** Iterators *)

Definition stops (r : outcome (option (bytes * V) * list entry)) : Prop := r <> NoFuel /\ forall kv st', r <> Ok (Some kv, st').

Definition erk rk (e : entry) : nat := match e with None => 0 | Some (RL _) => 1 | Some (RN a) => 2 + rk a end.
Definition pops rk (next : nat -> list entry -> outcome (option (bytes * V) * list entry)) : Prop :=
  (exists r, stops r /\ forall f, next (S f) [] = r) /\
  forall e st, exists l, Forall (fun x => erk rk x < erk rk e) l /\
    ((forall f, next (S f) (e :: st) = next f (l ++ st)) \/ (exists kv, forall f, next (S f) (e :: st) = Ok (Some kv, l ++ st)) \/
     exists r, stops r /\ forall f, next (S f) (e :: st) = r).
Lemma le_S f f' : S f <= f' -> exists g, f' = S g /\ f <= g.
Proof. destruct f' as [|g]; [lia|]. intros. exists g. split; [done|lia]. Qed.
Lemma ends_all rk next : pops rk next -> forall st, ends next st.
Proof.
  intros [[r0 [[H0 H0'] E0]] HP].
  assert (Hpush : forall r e st, erk rk e < r -> ends next st -> ends next (e :: st)).
  { induction r as [|r IH]; intros e st Hr Hst; [lia|]. destruct (HP e st) as (l & Hl & Hcase).
    assert (Hls : ends next (l ++ st)).
    { clear Hcase. induction l as [|x l IHl]; [done|]. apply Forall_cons in Hl as [Hx Hl]. cbn. apply IH; [lia|]. by apply IHl. }
    destruct Hcase as [E|[[kv E]|(r1 & [Hs Hs'] & E)]].
    - destruct Hls as [f r1 Hf Hn Hc]. apply (ends_intro _ _ (S f) r1); [|done|done]. intros f' (g & -> & Hg)%le_S. rewrite E. by apply Hf.
    - apply (ends_intro _ _ 1 (Ok (Some kv, l ++ st))); [|done|]. { intros f' (g & -> & _)%le_S. apply E. } intros kv' st' [= _ <-]. done.
    - apply (ends_intro _ _ 1 r1); [|done|]. { intros f' (g & -> & _)%le_S. apply E. } intros kv st' Er. by destruct (Hs' kv st'). }
  induction st as [|e st IH]; [|eapply Hpush; [apply Nat.lt_succ_diag_r|done]].
  apply (ends_intro _ _ 1 r0); [|done|]. { intros f' (g & -> & _)%le_S. apply E0. } intros kv st' Er. by destruct (H0' kv st').
Qed.

Lemma iterChildren_in n b : Some b ∈ iterChildren n -> Some b ∈ n_children n.
Proof.
  unfold iterChildren. destruct (n_kind n).
  1,2: intros (i & Hi & _)%elem_of_take; by eapply elem_of_list_lookup_2.
  - intros (k & [= <-] & Hk)%elem_of_list_fmap. apply elem_of_list_omap in Hk as (x & _ & Hx). destruct (Nat.eqb x 0); [done|].
    destruct (n_children n !! (x - 1)) eqn:E; [|done]. cbn in Hx. subst. by eapply elem_of_list_lookup_2.
  - intros (k & [= <-] & Hk)%elem_of_list_fmap. apply elem_of_list_omap in Hk as (x & Hin & Hx). cbn in Hx. by subst.
Qed.
Lemma kids_erk rk h a n : rok rk h -> h_nodes h !! a = Some n -> Forall (fun x => erk rk x < 2 + rk a) (RNo <$> iterChildren n).
Proof.
  intros Hr En. apply Forall_fmap, Forall_forall. intros [b|] Hb; cbn; [|lia]. assert (rk b < rk a) by (eapply edge_rk; [done|]; exists n; by split; [|apply iterChildren_in]). lia.
Qed.
Ltac stop := right; right; eexists; (split; [|by intros]); (by split).
Lemma pops_next rk h p : rok rk h -> pops rk (fun f st => nextLoop f h p st).
Proof.
  intros Hr. split; [by exists (Ok (None, []))|]. intros e st. destruct e as [[a|la]|].
  - destruct (h_nodes h !! a) as [n|] eqn:En.
    + exists (RNo <$> iterChildren n). split; [by apply kids_erk with h|]. cbn [nextLoop]. rewrite En. destruct (n_leaf n) as [la|]; [|by left].
      destruct (h_leaves h !! la) as [l|]; [|stop]. destruct (hasPrefix _ _); [right; left; by eexists|by left].
    + exists []. split; [constructor|]. cbn [nextLoop]. rewrite En. stop.
  - exists []. split; [constructor|]. cbn [nextLoop]. destruct (h_leaves h !! la) as [l|]; [|stop]. destruct (_ && _); [right; left; by eexists|by left].
  - exists []. split; [constructor|]. cbn [nextLoop]. stop.
Qed.
Lemma pops_path rk h p : rok rk h -> pops rk (fun f st => pathNextLoop f h p st).
Proof.
  intros Hr. split; [by exists (Ok (None, []))|]. intros e st. destruct e as [[a|la]|].
  - destruct (h_nodes h !! a) as [n|] eqn:En.
    + exists ((match n_leaf n with Some la => [Some (RL la)] | None => [] end) ++ ((fun c => Some (RN c)) <$> omap id (iterChildren n))). split.
      * apply Forall_app. split; [destruct (n_leaf n); [apply Forall_singleton; cbn; lia|done]|]. apply Forall_fmap, Forall_forall. intros b (o & Hb & Eo)%elem_of_list_omap. cbn in *. subst o.
        assert (rk b < rk a) by (eapply edge_rk; [done|]; exists n; by split; [|apply iterChildren_in]). lia.
      * cbn [pathNextLoop]. rewrite En. left. intros f. by rewrite <- app_assoc.
    + exists []. split; [constructor|]. cbn [pathNextLoop]. rewrite En. stop.
  - exists []. split; [constructor|]. cbn [pathNextLoop]. destruct (h_leaves h !! la) as [l|]; [|stop]. destruct (prefixContainsMatch _ _); [right; left; by eexists|by left].
  - exists []. split; [constructor|]. cbn [pathNextLoop]. stop.
Qed.
Lemma pops_lower rk h : rok rk h -> pops rk (fun f st => lowerNextLoop f h st).
Proof.
  intros Hr. split; [by exists (Ok (None, []))|]. intros e st. destruct e as [[a|la]|].
  - destruct (h_nodes h !! a) as [n|] eqn:En.
    + exists (RNo <$> iterChildren n). split; [by apply kids_erk with h|]. cbn [lowerNextLoop]. rewrite En. destruct (n_leaf n) as [la|]; [|by left].
      destruct (h_leaves h !! la) as [l|]; [|stop]. right; left; by eexists.
    + exists []. split; [constructor|]. cbn [lowerNextLoop]. rewrite En. stop.
  - exists []. split; [constructor|]. cbn [lowerNextLoop]. destruct (h_leaves h !! la) as [l|]; [|stop]. right; left; by eexists.
  - exists []. split; [constructor|]. cbn [lowerNextLoop]. stop.
Qed.
Lemma pops_prev rk h p exp : rok rk h -> pops rk (fun f st => prevLoop f h p exp st).
Proof.
  intros Hr. split; [by exists (Ok (None, []))|]. intros e st. destruct e as [[a|la]|].
  - destruct (h_nodes h !! a) as [n|] eqn:En; [|exists []; split; [constructor|]; cbn [prevLoop]; rewrite En; stop].
    pose proof (kids_erk _ _ _ _ Hr En) as Hk. cbn [prevLoop]. rewrite En. destruct (n_leaf n) as [la|].
    + destruct (h_leaves h !! la) as [l|]; [|exists []; split; [constructor|]; cbn [obind]; stop]. cbn [obind].
      set (s1 := if bytes_leb (l_key l) p || (length p =? 0) then [Some (RL la)] else []).
      assert (Hs1 : Forall (fun x => erk rk x < 2 + rk a) s1) by (unfold s1; destruct (_ || _); [apply Forall_singleton; cbn; lia|done]).
      assert (E1 : (if bytes_leb (l_key l) p || (length p =? 0) then Some (RL la) :: st else st) = s1 ++ st) by (unfold s1; by destruct (_ || _)).
      rewrite E1. clearbody s1. destruct (bool_decide (a ∈ exp)).
      * exists s1. split; [done|]. by left.
      * exists (reverse (RNo <$> iterChildren n) ++ s1). split; [apply Forall_app; split; [by apply Forall_reverse|done]|]. rewrite <- app_assoc.
        destruct (hasPrefix _ _); [right; left; by eexists|by left].
    + cbn [obind]. destruct (bool_decide (a ∈ exp)).
      * exists []. split; [done|]. by left.
      * exists (reverse (RNo <$> iterChildren n)). split; [by apply Forall_reverse|]. by left.
  - exists []. split; [constructor|]. cbn [prevLoop]. destruct (h_leaves h !! la) as [l|]; [|stop]. destruct (bytes_leb _ _); [right; left; by eexists|by left].
  - exists []. split; [constructor|]. cbn [prevLoop]. stop.
Qed.

(** ** Lower-bound seeks *)
Lemma nf_nodeOf h a : nodeOf h a <> NoFuel. Proof. unfold nodeOf. by destruct (h_nodes h !! a). Qed.
Lemma nf_leafOf h n : leafOf h n <> NoFuel. Proof. unfold leafOf. destruct (n_leaf n); [|done]. by destruct (h_leaves h !! _). Qed.
Lemma nf_takePartial n : takePartial n <> NoFuel. Proof. unfold takePartial. by destruct (Nat.leb _ _). Qed.
Lemma nf_pushParent h p b o st : pushParent h p b o st <> NoFuel.
Proof. unfold pushParent. destruct o; [|by destruct b]. apply nf_bind; [apply nf_nodeOf|]. intros m _. by apply nf_bind; [apply nf_leafOf|]. Qed.
Lemma nf_pushKids h p b n l : forall st, pushKids h p b n l st <> NoFuel.
Proof.
  induction l as [|i l IH]; intros st; cbn [pushKids]; [done|]. apply nf_bind; [apply nf_getChild|]. intros [c|] _; [|by destruct b].
  apply nf_bind; [apply nf_nodeOf|]. intros cn _. apply nf_bind; [apply nf_leafOf|]. intros cl _. apply IH.
Qed.
Lemma nf_keepNode o : o <> NoFuel -> keepNode o <> NoFuel. Proof. intros. by apply nf_bind. Qed.
Lemma nf_lb48 n l : lb48 n l <> NoFuel.
Proof. induction l as [|i l IH]; cbn [lb48]; [done|]. apply nf_bind; [apply nf_getKeyAtIdx|]. intros k _. destruct (Nat.eqb k 0); [done|]. apply nf_bind; [apply nf_getChild|]. by intros []. Qed.
Lemma nf_lb256 n l : lb256 n l <> NoFuel.
Proof. induction l as [|i l IH]; cbn [lb256]; [done|]. apply nf_bind; [apply nf_getChild|]. by intros []. Qed.
Lemma nf_lowerBoundCh n c : getLowerBoundCh n c <> NoFuel.
Proof. unfold getLowerBoundCh. destruct (n_kind n); [done|done|apply nf_lb48|apply nf_lb256]. Qed.
Lemma nf_lowerLoop rk h p : rok rk h -> forall f node parent depth seen st, length p - depth < f -> lowerLoop f h p node parent depth seen st <> NoFuel.
Proof.
  intros Hr. induction f as [|f IH]; intros node parent depth seen st Hf; [lia|]. cbn [lowerLoop]. destruct node as [a|].
  2:{ destruct parent; [|done]. apply nf_bind; [apply nf_nodeOf|]. intros. by apply nf_bind; [apply nf_leafOf|]. }
  apply nf_bind; [apply nf_nodeOf|]. intros n En. apply nf_bind; [apply nf_leafOf|]. intros lf _.
  apply nf_bind. { destruct (isLeafN n); [done|]. apply nf_bind; [apply nf_takePartial|]. intros. by destruct (Nat.ltb _ _). }
  intros pc _.
  assert (Hrest : (if isLeafN n && match lf with Some (_, k) => bytes_geb k p | None => false end then
        keepNode (pushParent h p false parent (pushFound p a lf st)) else
      let? m := prefixMismatch h a n p depth in
      if Nat.ltb m (n_plen n) && negb seen then Ok (st, false) else
      let seen := seen || Nat.ltb 0 m in
      let depth := depth + n_plen n in
      match p !! depth with
      | None => keepNode (pushParent h p false parent (pushFound p a lf st))
      | Some c =>
          let? idx := getLowerBoundCh n c in
          match idx with
          | None =>
              if negb seen then Ok (st, false) else
              let? stack :=
                (match lf with
                 | Some (_, k) => Ok (if bytes_geb k p then Some (RN a) :: st else st)
                 | None => pushKids h p true n (reverse (seq 0 (n_nch n))) st
                 end) in
              keepNode (pushParent h p true parent stack)
          | Some idx =>
              let idx := if seen then 0 else idx in
              let? pl :=
                (match parent with
                 | None => Ok None
                 | Some p => let? pn := nodeOf h p in leafOf h pn
                 end) in
              match seen, pl with
              | true, Some (pla, pk) =>
                  let added := match lf with Some (_, k) => bytes_geb k p | None => false end in
                  let? stack :=
                    (if added then Ok (Some (RN a) :: st)
                     else pushKids h p false n (reverse (seq 0 (n_nch n))) st) in
                  Ok (if bytes_geb pk p then Some (RL pla) :: stack else stack, false)
              | _, _ =>
                  let? stack := pushKids h p false n (reverse (seq (idx + 1) (n_nch n - (idx + 1)))) st in
                  let? k := getKeyAtIdx n idx in
                  let seen := seen || negb (Nat.eqb k c) in
                  let? ch := getChild n idx in
                  lowerLoop f h p ch (Some a) (depth + 1) seen stack
              end
          end
      end) <> NoFuel).
  { destruct (_ && _); [apply nf_keepNode, nf_pushParent|]. apply nf_bind; [by eapply nf_prefixMismatch|]. intros m _. destruct (_ && _); [done|]. cbv zeta.
    destruct (p !! (depth + n_plen n)) as [c|] eqn:Ec; [|apply nf_keepNode, nf_pushParent]. apply lookup_lt_Some in Ec. apply nf_bind; [apply nf_lowerBoundCh|]. intros [idx|] _.
    - apply nf_bind. { destruct parent; [|done]. apply nf_bind; [apply nf_nodeOf|]. intros. apply nf_leafOf. } intros pl _.
      assert (G : forall sn i, (let? stack := pushKids h p false n (reverse (seq (i + 1) (n_nch n - (i + 1)))) st in let? k := getKeyAtIdx n i in
                  let? ch := getChild n i in lowerLoop f h p ch (Some a) (depth + n_plen n + 1) (sn || negb (Nat.eqb k c)) stack) <> NoFuel).
      { intros sn i. apply nf_bind; [apply nf_pushKids|]. intros. apply nf_bind; [apply nf_getKeyAtIdx|]. intros. apply nf_bind; [apply nf_getChild|]. intros. apply IH. lia. }
      destruct (seen || _); [|apply G]. destruct pl as [[pla pk]|]; [|apply G]. apply nf_bind; [|done]. destruct (match lf with Some (_, k) => _ | None => false end); [done|apply nf_pushKids].
    - destruct (negb _); [done|]. apply nf_bind; [destruct lf as [[]|]; [done|apply nf_pushKids]|]. intros. apply nf_keepNode, nf_pushParent. }
  destruct pc, seen; try exact Hrest.
  - apply nf_bind; [apply nf_pushParent|done].
  - apply nf_keepNode, nf_pushParent.
Qed.
Lemma nf_seekLowerBound h it k : ranked h -> seekLowerBound h it k <> NoFuel.
Proof. intros [rk Hr]. unfold seekLowerBound. destruct k as [|b k]; [done|]. cbv zeta. apply nf_bind; [eapply nf_lowerLoop; [done|lia]|]. by intros []. Qed.
Lemma nf_revLoop rk h key p spare : rok rk h -> forall f node depth seen exp st, length p - depth < f -> revLoop f h key p spare node depth seen exp st <> NoFuel.
Proof.
  intros Hr. induction f as [|f IH]; intros node depth seen exp st Hf; [lia|]. cbn [revLoop]. destruct node as [a|]; [|done].
  apply nf_bind; [apply nf_nodeOf|]. intros n _. apply nf_bind; [apply nf_leafOf|]. intros lf _. apply nf_bind; [apply nf_takePartial|]. intros part _.
  apply nf_bind. { destruct (Nat.ltb _ _); by destruct (Nat.ltb _ _). }
  intros pc _.
  assert (Hpush : forall l st, (fix push (itrs : list nat) (stack : list entry) : outcome (list entry) :=
                   match itrs with
                   | [] => Ok stack
                   | j :: itrs' => let? ch := getChild n j in
                                   push itrs' (match ch with Some ca => Some (RN ca) :: stack | None => stack end)
                   end) l st <> NoFuel).
  { induction l as [|j l IHl]; intros st'; [done|]. apply nf_bind; [apply nf_getChild|]. intros ch _. apply IHl. }
  destruct pc, seen; try done; cbv zeta.
  all: match goal with |- (if ?b then _ else _) <> _ => destruct b; [done|] end.
  all: apply nf_bind; [destruct (Nat.ltb 0 (n_plen n)); [|done]; apply nf_bind; [by eapply nf_prefixMismatch|done]|]; intros [m pl] _.
  all: match goal with |- (if ?b then _ else _) <> _ => destruct b; [done|] end.
  all: destruct (p !! (depth + pl)) as [c|] eqn:Ec; [|done]; apply lookup_lt_Some in Ec.
  all: apply nf_bind; [apply nf_lowerBoundCh|]; intros idx _.
  all: apply nf_bind; [match goal with |- match ?o with Some _ => _ | None => _ end <> _ => destruct o; [|done] end; apply nf_bind; [apply nf_getKeyAtIdx|done]|]; intros sn _.
  all: match goal with |- match ?o with Some _ => _ | None => _ end <> _ => destruct o; [|done] end.
  all: apply nf_bind; [apply Hpush|]; intros; apply nf_bind; [apply nf_getChild|]; intros; apply IH; lia.
Qed.
Lemma nf_seekReverse h ri k spare : ranked h -> seekReverseLowerBound h ri k spare <> NoFuel.
Proof. intros [rk Hr]. unfold seekReverseLowerBound. cbv zeta. apply nf_bind; [eapply nf_revLoop; [done|lia]|]. by intros []. Qed.
End Acyclic.
