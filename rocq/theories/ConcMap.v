(** Jobs that are covered, run one after the other, are a covered history of calls. *)
From Verif Require Export SpecConcMap SerialWorld.
From Verif Require Import ProgEq PropWorldRef PropWorld PropRace.
From stdpp Require Import list.
Local Open Scope nat_scope.

Section ConcMap.
Context {V : Type} `{GoZero V}.
Notation kmap := (gmap (list nat) V).

Lemma covered_call cs c (g g' : gstate V) rs w : covered cs g -> gstep c g g' -> disciplined (cs ++ [c]) -> (N.of_nat (S (length cs)) < 2 ^ 64)%N -> exec cs w_init = (rs, w) ->
  exists r w', step c w = (Ok r, w') /\ returns c g r /\ exec (cs ++ [c]) w_init = (rs ++ [Ok r], w') /\ covered (cs ++ [c]) g'.
Proof.
  intros Hc Hg Hd Hn Ee. pose proof (covered_snoc _ _ _ _ Hc Hg) as Hc'. destruct (C47_proof (cs ++ [c]) g' Hc' Hd) as (rs' & w' & Ee' & Hlen & Hr); [rewrite app_length; cbn; by rewrite Nat.add_1_r|].
  destruct (Hr (length cs) c g) as (r & Er & Hret). { rewrite lookup_app_r by lia. by rewrite Nat.sub_diag. } { by rewrite take_app. }
  rewrite (exec_app _ _ _ _ _ Ee) in Ee'. cbn in Ee'. destruct (step c w) as [o w2] eqn:Es. injection Ee' as <- <-.
  assert (Hl : length rs = length cs). { rewrite app_length, app_length in Hlen. cbn in Hlen. lia. }
  rewrite <- Hl, lookup_app_r in Er by lia. rewrite Nat.sub_diag in Er. injection Er as ->. exists r, w2. split_and!; [done|done| |done]. rewrite (exec_app _ _ _ _ _ Ee). cbn. by rewrite Es.
Qed.
Lemma disc_one (cs cs2 : list (call V)) c : disciplined (cs ++ c :: cs2) -> disciplined (cs ++ [c]).
Proof. intros Hd. apply (disciplined_app_l _ cs2). by rewrite <- app_assoc. Qed.
Lemma onTxn_ok {A} (w : world V) j x (m : M (st V) A) k r w' : w_txns w !! j = Some x -> withTx w j (fun x => onTxn w j x m k) = (Ok r, w') ->
  exists a h1 x1, m (mkS (w_h w) x) = (Ok a, mkS h1 x1) /\ r = (k a).2 /\ w' = mkW h1 (w_trees w ++ (k a).1) (<[j := x1]> (w_txns w)).
Proof.
  intros Hj. unfold withTx, onTxn. rewrite Hj. destruct (m (mkS (w_h w) x)) as [[a| |] [h1 x1]]; try done. destruct (k a) as [ts r2] eqn:Ek. cbn. intros [= <- <-]. exists a, h1, x1. rewrite Ek. done.
Qed.

Definition olist {A} (o : option A) : list A := match o with Some x => [x] | None => [] end.
Lemma len_S (a b n : nat) : (N.of_nat (a + n) < 2 ^ 64)%N -> b <= n -> (N.of_nat (a + b) < 2 ^ 64)%N.
Proof. lia. Qed.
Lemma client_covered c : forall n cs (g : gstate V) rs w j x m d f, covered cs g -> exec cs w_init = (rs, w) -> disciplined (cs ++ ccalls c j (mkS (w_h w) x)) ->
  w_txns w !! j = Some x -> g_txns g !! j = Some (m, d, f) -> client_ok n c m d f -> (N.of_nat (length cs + n) < 2 ^ 64)%N ->
  exists g' om, covered (cs ++ ccalls c j (mkS (w_h w) x)) g' /\ client_run c m d om /\ g_trees g' = g_trees g ++ olist om /\
    length (ccalls c j (mkS (w_h w) x)) <= n /\ exists o s, run (pclient c) (mkS (w_h w) x) = (Ok o, s).
Proof.
  induction c as [k v next IH|k next IH|k next IH|k next IH|b next IH| |]; intros n cs g rs w j x m d f Hc Ee Hd Hx Hg Ho Hn; cbn [ccalls pclient client_ok] in *.
  - destruct Ho as (Hn0 & Hf & d' & Ht & Ho). pose proof (disc_one _ _ _ Hd) as Hd1.
    destruct (covered_call cs (CTInsert j k v) g (SpecWorld.mkG (g_trees g) (<[j := (ref_op (OInsert k v) m, d', false)]> (g_txns g))) rs w Hc) as (r & w' & Es & Hr & Ee' & Hc'); [|done|lia|done|].
    { cbn. unfold on_txn. rewrite Hg. exists d'. split_and!; [done|intros; by apply Hf|done]. }
    cbn [returns] in Hr. unfold txn_result in Hr. rewrite Hg in Hr. apply (onTxn_ok _ _ _ _ _ _ _ Hx) in Es as ([x0 b0] & h1 & x1 & Em & -> & ->). cbn [fst snd] in *.
    rewrite Em in Hd |- *. rewrite cons_middle, app_assoc in Hd |- *.
    destruct (IH (x0, b0) (n - 1) (cs ++ [CTInsert j k v]) _ _ _ j x1 (ref_op (OInsert k v) m) d' false Hc' Ee' Hd) as (g' & om & K1 & K2 & K3 & K4 & o & s & K5).
    { cbn. apply list_lookup_insert. by eapply lookup_lt_Some. } { cbn. apply list_lookup_insert. by eapply lookup_lt_Some. } { by apply Ho. } { rewrite app_length. cbn. lia. }
    exists g', om. split_and!; [done|by eapply run_insert|done|cbn in *; lia|]. rewrite run_pbind. unfold bind. rewrite req_txnInsert, Em. eauto.
  - destruct Ho as (Hn0 & d' & Ht & Ho). pose proof (disc_one _ _ _ Hd) as Hd1.
    destruct (covered_call cs (CTDelete j k) g (SpecWorld.mkG (g_trees g) (<[j := (ref_op (ODelete k) m, d', false)]> (g_txns g))) rs w Hc) as (r & w' & Es & Hr & Ee' & Hc'); [|done|lia|done|].
    { cbn. unfold on_txn. rewrite Hg. exists d'. split_and!; [done|intros _ (k' & v' & [=])|done]. }
    cbn [returns] in Hr. unfold txn_result in Hr. rewrite Hg in Hr. apply (onTxn_ok _ _ _ _ _ _ _ Hx) in Es as ([x0 b0] & h1 & x1 & Em & -> & ->). cbn [fst snd] in *.
    rewrite Em in Hd |- *. rewrite cons_middle, app_assoc in Hd |- *.
    destruct (IH (x0, b0) (n - 1) (cs ++ [CTDelete j k]) _ _ _ j x1 (ref_op (ODelete k) m) d' false Hc' Ee' Hd) as (g' & om & K1 & K2 & K3 & K4 & o & s & K5).
    { cbn. apply list_lookup_insert. by eapply lookup_lt_Some. } { cbn. apply list_lookup_insert. by eapply lookup_lt_Some. } { by apply Ho. } { rewrite app_length. cbn. lia. }
    exists g', om. split_and!; [done| |done|cbn in *; lia|].
    + eapply run_delete; [done| |done]. cbn in Hr. injection Hr as -> ->. by destruct (ref_get m k).
    + rewrite run_pbind. unfold bind. rewrite req_txnDelete, Em. eauto.
  - done.
  - destruct Ho as [Hk Ho]. destruct (C48_proof cs g rs w Hc) as (_ & _ & _ & Hrd); [by eapply disciplined_app_l|lia|done|]. specialize (Hrd j x m d f Hx Hg).
    pose proof (SpecWorld.ra_get _ _ _ Hrd k Hk) as Eg. cbn [s_h s_t] in Hd |- *. rewrite Eg in Hd |- *.
    destruct (IH (ref_get m k) n cs g rs w j x m d f Hc Ee Hd Hx Hg Ho Hn) as (g' & om & K1 & K2 & K3 & K4 & o & s & K5).
    exists g', om. split_and!; [done|by apply run_get|done|done|]. exists o, s. cbn [pbind pgetT pdo run]. unfold bind at 1. cbn. rewrite run_pbind. unfold bind. rewrite run_getFrom. cbn. by rewrite Eg.
  - destruct Ho as [Hn0 Ho]. pose proof (disc_one _ _ _ Hd) as Hd1.
    destruct (covered_call cs (CTrack j b) g g rs w Hc) as (r & w' & Es & Hr & Ee' & Hc'); [done|done|lia|done|]. cbn [step] in Es. unfold withTx in Es. rewrite Hx in Es. injection Es as <- <-.
    rewrite cons_middle, app_assoc in Hd |- *.
    destruct (IH (n - 1) (cs ++ [CTrack j b]) g _ _ j (set_t_track x b) m d f Hc' Ee') as (g' & om & K1 & K2 & K3 & K4 & o & s & K5); [done| |done|done| |].
    { cbn. apply list_lookup_insert. by eapply lookup_lt_Some. } { rewrite app_length. cbn. lia. }
    cbn [w_h] in *. exists g', om. split_and!; [done|by apply run_track|done|cbn in *; lia|]. exists o, s. done.
  - destruct (covered_call cs (CCommit j) g (add_tree g (m, d)) rs w Hc) as (r & w' & Es & Hr & Ee' & Hc'); [cbn; by rewrite Hg|done|lia|done|].
    apply (onTxn_ok _ _ _ _ _ _ _ Hx) in Es as (tr & h1 & x1 & Em & -> & ->). exists (add_tree g (m, d)), (Some (m, d)). split_and!; [done|apply run_commit|done|cbn; lia|].
    rewrite run_pbind. unfold bind. rewrite req_commit, Em. cbn. eauto.
  - rewrite app_nil_r in *. exists g, None. split_and!; [done|apply run_stop|by rewrite app_nil_r|cbn; lia|]. cbn. eauto.
Qed.
Lemma job_covered q n cs (g : gstate V) rs w : covered cs g -> exec cs w_init = (rs, w) -> disciplined (cs ++ jcalls q w) -> job_ok (g_trees g) n q -> (N.of_nat (length cs + n) < 2 ^ 64)%N ->
  exists g', covered (cs ++ jcalls q w) g' /\ job_run q (g_trees g) (g_trees g') /\ length (jcalls q w) <= n /\
    (q <> JNew -> forall tr, w_trees w !! jbase q = Some tr -> (run (jprog q tr) (mkS (w_h w) (noTxn tr))).1 <> Panic).
Proof.
  intros Hc Ee Hd [Hn0 Ho] Hn. destruct (C48_proof cs g rs w Hc) as (Hl & Hlx & _ & _); [by eapply disciplined_app_l|lia|done|].
  destruct q as [|i c|i]; cbn [jcalls jprog jbase] in *.
  - exists (add_tree g (∅, 0)). split_and!; [by eapply covered_snoc|apply job_new|cbn; lia|done].
  - destruct (w_trees w !! i) as [tr|] eqn:Ei.
    2:{ exists g. rewrite app_nil_r. split_and!; [done| |cbn; lia|done]. apply job_none; [done|]. apply lookup_ge_None. rewrite <- Hl. by apply lookup_ge_None. }
    destruct (lookup_lt_is_Some_2 (g_trees g) i) as [[m d] Eg]; [rewrite <- Hl; by eapply lookup_lt_Some|]. specialize (Ho m d Eg).
    destruct (covered_call cs (CTxn i) g (add_txn g ((m, d), true)) rs w Hc) as (r & w' & Es & Hr & Ee' & Hc'); [cbn; by rewrite Eg|by eapply disc_one|lia|done|].
    cbn [step] in Es. unfold withTree, onHeap in Es. rewrite Ei in Es. destruct (newTxn tr (w_h w)) as [[x| |] h] eqn:En; try done. injection Es as <- <-.
    rewrite cons_middle, app_assoc in Hd |- *.
    destruct (client_covered c (n - 1) (cs ++ [CTxn i]) (add_txn g ((m, d), true)) _ _ (length (w_txns w)) x m d true Hc' Ee') as (g' & om & K1 & K2 & K3 & K4 & o & s & K5); [done| | |done| |].
    { cbn. rewrite lookup_app_r by lia. by rewrite Nat.sub_diag. } { cbn. rewrite Hlx, lookup_app_r by lia. by rewrite Nat.sub_diag. } { rewrite app_length. cbn. lia. }
    cbn [w_h] in *. exists g'. split_and!; [done| |cbn; lia|].
    + rewrite K3. cbn. by apply (job_txn i c m d om).
    + intros _ tr' [= <-]. unfold goroutine. rewrite run_pbind. unfold bind. rewrite run_newTxn_all. cbn [s_h s_t]. rewrite En, K5. done.
  - destruct (w_trees w !! i) as [tr|] eqn:Ei.
    + destruct (lookup_lt_is_Some_2 (g_trees g) i) as [[m d] Eg]; [rewrite <- Hl; by eapply lookup_lt_Some|].
      destruct (covered_call cs (CClone i) g (add_tree g (m, d)) rs w Hc) as (r & w' & Es & Hr & Ee' & Hc'); [cbn; by rewrite Eg|done|lia|done|].
      exists (add_tree g (m, d)). split_and!; [done|by apply (job_clone i)|cbn; lia|]. intros _ tr' [= <-]. rewrite run_cloner_all. cbn [s_h s_t].
      cbn [step] in Es. unfold withTree, onHeap in Es. rewrite Ei in Es. by destruct (cloneTree tr (w_h w)) as [[x| |] h].
    + assert (Eg : g_trees g !! i = None). { apply lookup_ge_None. rewrite <- Hl. by apply lookup_ge_None. }
      exists g. split_and!; [|by apply job_none|cbn; lia|done]. eapply covered_snoc; [done|]. cbn. by rewrite Eg.
Qed.
Lemma sum_list_app (l k : list nat) : sum_list (l ++ k) = sum_list l + sum_list k.
Proof. induction l as [|x l IH]; cbn; lia. Qed.
Lemma jobs_ok_init js (q : job V) ns : jobs_ok (js ++ [q]) ns -> exists ns' n, ns = ns' ++ [n] /\ jobs_ok js ns' /\ (N.of_nat (sum_list ns' + n) < 2 ^ 64)%N /\ forall ts, jobs_run js ts -> job_ok ts n q.
Proof.
  intros (Hl & Hs & Ho). rewrite app_length in Hl. cbn in Hl. destruct ns as [|n ns' _] using rev_ind; [cbn in Hl; lia|]. rewrite app_length in Hl. cbn in Hl. rewrite sum_list_app in Hs. cbn in Hs.
  exists ns', n. split; [done|]. split; [|split; [lia|]].
  - split; [lia|]. split; [lia|]. intros i g k ts Ei En Hr. pose proof (lookup_lt_Some _ _ _ Ei). apply (Ho i g k ts); [by rewrite lookup_app_l|rewrite lookup_app_l; [done|lia]|].
    rewrite take_app_le by lia. done.
  - intros ts Hr. apply (Ho (length js) q n ts).
    + rewrite lookup_app_r by lia. by rewrite Nat.sub_diag.
    + assert (length js = length ns') as -> by lia. rewrite lookup_app_r by lia. by rewrite Nat.sub_diag.
    + by rewrite take_app.
Qed.
Lemma jobs_covered js : forall ns, jobs_ok js ns -> exists g, covered (scalls js).1 g /\ jobs_run js (g_trees g) /\ length (scalls js).1 <= sum_list ns.
Proof.
  induction js as [|q js IH] using rev_ind; intros ns Ho.
  - exists g_init. split_and!; [constructor|constructor|cbn; lia].
  - destruct (jobs_ok_init _ _ _ Ho) as (ns' & n & -> & Ho' & Hs & Hq). destruct (IH ns' Ho') as (g & K1 & K2 & K3). destruct (serial_world js) as (rs & Ee & _).
    destruct (serial_world (js ++ [q])) as (_ & _ & _ & Hd & _). rewrite scalls_snoc in Hd |- *. cbn [fst] in *.
    destruct (job_covered q n _ g rs _ K1 Ee Hd (Hq _ K2)) as (g' & J1 & J2 & J3 & _); [lia|]. exists g'. split_and!; [done|by eapply jobs_snoc|]. rewrite app_length, sum_list_app. cbn. lia.
Qed.
(** A covered job does not panic after covered jobs. *)
Lemma jobs_no_panic js (q : job V) ns tr : jobs_ok (js ++ [q]) ns -> q <> JNew -> (serial js).2 !! jbase q = Some tr -> (run (jprog q tr) (mkS (serial js).1 (noTxn tr))).1 <> Panic.
Proof.
  intros Ho Hq Et. destruct (jobs_ok_init _ _ _ Ho) as (ns' & n & -> & Ho' & Hs & Hok). destruct (jobs_covered js ns' Ho') as (g & K1 & K2 & K3). destruct (serial_world js) as (rs & Ee & Es & _).
  destruct (serial_world (js ++ [q])) as (_ & _ & _ & Hd & _). rewrite scalls_snoc in Hd. cbn [fst] in *.
  destruct (job_covered q n _ g rs _ K1 Ee Hd (Hok _ K2)) as (g' & J1 & J2 & J3 & J4); [lia|]. rewrite Es in Et |- *. by apply J4.
Qed.
End ConcMap.
