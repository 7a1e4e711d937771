(** Histories that remove nothing leave no stale child pointers in the memory. *)
From Verif Require Export SpecScan Clean.
From stdpp Require Import list.
Local Open Scope nat_scope.

Section WorldClean.
Context {V : Type} `{GoZero V}.

Lemma hc_newTree : hc (newTree (V:=V)).
Proof.
  unfold newTree. apply hc_bind; [apply hc_ho, ho_allocL|]. intros l. apply hc_bind; [|intros; apply hc_ret]. apply hc_allocN. intros _. cbn. split; [lia|].
  intros i c Hi. by do 4 (destruct i as [|i]; [done|]).
Qed.
Lemma hc_cloneTree t : hc (cloneTree (V:=V) t).
Proof. unfold cloneTree. apply hc_bind; [apply hc_cloneN|intros; apply hc_ret]. Qed.
Lemma hc_newTxn t : hc (newTxn (V:=V) t).
Proof. unfold newTxn. apply hc_bind; [apply hc_cloneN|intros; apply hc_ret]. Qed.
Lemma hc_cloneTxn t : hc (cloneTxn (V:=V) t).
Proof. unfold cloneTxn. apply hc_bind; [apply hc_cloneN|intros; apply hc_ret]. Qed.
Lemma hc_id {A} (m : M (heap V) A) : (forall h, (m h).2 = h) -> hc m.
Proof. intros Hm. apply hc_same. intros h. by rewrite Hm. Qed.
Lemma hc_getWatch r k : hc (getWatchFrom (V:=V) r k).
Proof.
  unfold getWatchFrom. apply hc_bind; [by apply hc_id|]. intros h. apply hc_bind; [apply hc_id; intros h1; unfold lift; by destruct (search _ _ _ _ _)|]. intros [la|a].
  - apply hc_bind; [apply hc_ho, ho_loadL|]. intros l. apply hc_bind; [apply hc_ho, ho_getMutateChL|]. intros; apply hc_ret.
  - apply hc_bind; [apply hc_getMutateChN|]. intros; apply hc_ret.
Qed.
Lemma hc_seekWatch it p : hc (seekPrefixWatch (V:=V) it p).
Proof.
  unfold seekPrefixWatch. apply hc_bind; [by apply hc_id|]. intros h. apply hc_bind; [apply hc_id; intros h1; unfold lift; by destruct (seekPrefix _ _ _)|]. intros it'.
  destruct (it_node it') as [[b|b]|]; [|by apply hc_id..]. apply hc_bind; [apply hc_getMutateChN|]. intros; apply hc_ret.
Qed.
Lemma cv_notify : cv (notify (V:=V)).
Proof.
  unfold notify, slowNotify. intros s. apply cv_bind; [apply cv_getT|]. intros t s1. destruct (t_track t); [|apply cv_ret]. apply cv_bind; [apply cv_getT|]. intros t1 s2.
  apply cv_bind; [apply cv_liftH, hc_ho, ho_closeAll|]. intros; apply cv_putT.
Qed.
Lemma cv_commit : cv (commit (V:=V)).
Proof.
  intros s. unfold commit. apply cv_bind; [apply cv_getT|]. intros t0 s0. apply cv_bind; [|intros; apply cv_ret]. destruct (t_track t0); [apply cv_notify|apply cv_ret].
Qed.

Lemma onHeap_clean {A} (w : world V) (m : M (heap V) A) k r w' : hc m -> clean (w_h w) -> onHeap w m k = (Ok r, w') -> clean (w_h w').
Proof.
  intros Hm Hc. unfold onHeap. destruct (m (w_h w)) as [[a| |] h'] eqn:E; [|done..]. destruct (k a) as [[ts xs] r']. intros [= _ <-]. cbn. by destruct (Hm _ _ _ Hc E).
Qed.
Lemma onTxn_clean {A} (w : world V) j x (m : M (st V) A) k r w' : cv m -> clean (w_h w) -> onTxn w j x m k = (Ok r, w') -> clean (w_h w').
Proof.
  intros Hm Hc. unfold onTxn. destruct (m (mkS (w_h w) x)) as [[a| |] s'] eqn:E; [|done..]. destruct (k a) as [ts r']. intros [= _ <-]. cbn. by destruct (Hm (mkS (w_h w) x) Hc _ _ E).
Qed.
Lemma step_clean c (w : world V) r w' : ~ removes c -> clean (w_h w) -> step c w = (Ok r, w') -> clean (w_h w').
Proof.
  intros Hr Hc. destruct c; cbn [step removes] in *; try (by exfalso; apply Hr); unfold withTree, withTx;
    repeat match goal with |- (match ?o with Some _ => _ | None => _ end) = _ -> _ => destruct o as [t|]; [|by intros [= _ <-]] end;
    try (by intros [= _ <-]);
    first [eapply onHeap_clean; [|done]; first [apply hc_newTree | apply hc_treeInsert | apply hc_cloneTree | apply hc_getWatch | apply hc_seekWatch | apply hc_newTxn | apply hc_cloneTxn]
          | eapply onTxn_clean; [|done]; first [apply cv_txnInsert | apply cv_commit | apply cv_notify]].
Qed.
Lemma exec_clean cs : forall (w : world V) rs w', (forall c, c ∈ cs -> ~ removes c) -> (forall o, o ∈ rs -> exists r, o = Ok r) -> clean (w_h w) -> exec cs w = (rs, w') -> clean (w_h w').
Proof.
  induction cs as [|c cs IH]; intros w rs w' Hr Ho Hc; cbn [exec]; [by intros [= _ <-]|]. destruct (step c w) as [o w1] eqn:Es. destruct (exec cs w1) as [rs1 w2] eqn:Ee. intros [= <- <-].
  destruct (Ho o ltac:(left)) as [r ->]. apply (IH w1 rs1 w2); [intros c' Hc'; apply Hr; by right|intros o Hin; apply Ho; by right| |done]. eapply step_clean; [|done|exact Es]. apply Hr. left.
Qed.
End WorldClean.
