(** Serial executions are histories of calls (World.v). *)
From Verif Require Export SpecSerial Observe.
From Verif Require Import Acyclic PropRank PropRace PropWorld.
From stdpp Require Import list.
Local Open Scope nat_scope.

Section SerialWorld.
Context {V : Type} `{GoZero V}.

(** The calls of a client on transaction j, in state s *)
Fixpoint ccalls (c : client V) (j : nat) (s : st V) : list (call V) :=
  match c with
  | GInsert k v next => CTInsert j k v :: match txnInsert k v s with (Ok r, s') => ccalls (next r) j s' | _ => [] end
  | GDelete k next => CTDelete j k :: match txnDelete k s with (Ok r, s') => ccalls (next r) j s' | _ => [] end
  | GDeletePrefix k next => CTDeletePrefix j k :: match txnDeletePrefix k s with (Ok r, s') => ccalls (next r) j s' | _ => [] end
  | GGet k next => match getFrom (s_h s) (t_root (s_t s)) k with Ok r => ccalls (next r) j s | _ => [] end
  | GTrack b next => CTrack j b :: ccalls next j (mkS (s_h s) (set_t_track (s_t s) b))
  | GCommit => [CCommit j]
  | GStop => []
  end.
Definition jcalls (g : job V) (w : world V) : list (call V) :=
  match g with
  | JNew => [CNew]
  | JClone i => [CClone i]
  | JTxn i c => match w_trees w !! i with
                | None => []
                | Some tr => CTxn i :: match newTxn tr (w_h w) with (Ok x, h) => ccalls c (length (w_txns w)) (mkS h x) | _ => [] end
                end
  end.
Definition scalls (js : list (job V)) : list (call V) * world V :=
  foldl (fun p g => (p.1 ++ jcalls g p.2, (exec (jcalls g p.2) p.2).2)) ([], w_init) js.

Definition outs (o : outcome (option rtree)) : list rtree := match o with Ok (Some tr) => [tr] | _ => [] end.
Lemma ccalls_ok c : forall (w : world V) j x o s rs w', w_txns w !! j = Some x -> run (pclient c) (mkS (w_h w) x) = (o, s) -> exec (ccalls c j (mkS (w_h w) x)) w = (rs, w') ->
  w_h w' = s_h s /\ w_trees w' = w_trees w ++ outs o /\ length (w_txns w') = length (w_txns w) /\ (o = NoFuel -> NoFuel ∈ rs).
Proof.
  induction c as [k v next IH|k next IH|k next IH|k next IH|b next IH| |]; intros w j x o s rs w' Hj Er Ee; cbn [pclient ccalls] in *.
  - rewrite run_pbind in Er. unfold bind in Er. rewrite req_txnInsert in Er. cbn [exec step] in Ee. unfold withTx, onTxn in Ee. rewrite Hj in Ee.
    destruct (txnInsert k v (mkS (w_h w) x)) as [[r| |] [h1 x1]]; cbn in Ee.
    + destruct (exec _ _) as [rs2 w2] eqn:E2. injection Ee as <- <-. rewrite app_nil_r in E2. 
      destruct (IH r (mkW h1 (w_trees w) (<[j := x1]> (w_txns w))) j x1 o s rs2 w2) as (A & B & C & D); [cbn; apply list_lookup_insert; by apply lookup_lt_Some in Hj|done|done|].
      cbn in *. rewrite insert_length in C. split_and!; [done..|]. intros Ho. right. auto.
    + injection Ee as <- <-. injection Er as <- <-. cbn. rewrite app_nil_r, insert_length. by split_and!.
    + injection Ee as <- <-. injection Er as <- <-. cbn. rewrite app_nil_r, insert_length. split_and!; [done..|]. intros _. left.
  - rewrite run_pbind in Er. unfold bind in Er. rewrite req_txnDelete in Er. cbn [exec step] in Ee. unfold withTx, onTxn in Ee. rewrite Hj in Ee.
    destruct (txnDelete k (mkS (w_h w) x)) as [[r| |] [h1 x1]]; cbn in Ee.
    + destruct (exec _ _) as [rs2 w2] eqn:E2. injection Ee as <- <-. rewrite app_nil_r in E2. 
      destruct (IH r (mkW h1 (w_trees w) (<[j := x1]> (w_txns w))) j x1 o s rs2 w2) as (A & B & C & D); [cbn; apply list_lookup_insert; by apply lookup_lt_Some in Hj|done|done|].
      cbn in *. rewrite insert_length in C. split_and!; [done..|]. intros Ho. right. auto.
    + injection Ee as <- <-. injection Er as <- <-. cbn. rewrite app_nil_r, insert_length. by split_and!.
    + injection Ee as <- <-. injection Er as <- <-. cbn. rewrite app_nil_r, insert_length. split_and!; [done..|]. intros _. left.
  - rewrite run_pbind in Er. unfold bind in Er. rewrite req_txnDeletePrefix in Er. cbn [exec step] in Ee. unfold withTx, onTxn in Ee. rewrite Hj in Ee.
    destruct (txnDeletePrefix k (mkS (w_h w) x)) as [[r| |] [h1 x1]]; cbn in Ee.
    + destruct (exec _ _) as [rs2 w2] eqn:E2. injection Ee as <- <-. rewrite app_nil_r in E2. 
      destruct (IH r (mkW h1 (w_trees w) (<[j := x1]> (w_txns w))) j x1 o s rs2 w2) as (A & B & C & D); [cbn; apply list_lookup_insert; by apply lookup_lt_Some in Hj|done|done|].
      cbn in *. rewrite insert_length in C. split_and!; [done..|]. intros Ho. right. auto.
    + injection Ee as <- <-. injection Er as <- <-. cbn. rewrite app_nil_r, insert_length. by split_and!.
    + injection Ee as <- <-. injection Er as <- <-. cbn. rewrite app_nil_r, insert_length. split_and!; [done..|]. intros _. left.
  - cbn [pbind pgetT pdo run] in Er. unfold bind at 1 in Er. cbn in Er. rewrite run_pbind in Er. unfold bind in Er. rewrite run_getFrom in Er. cbn in Er, Ee.
    destruct (getFrom (w_h w) (t_root x) k) as [r| |] eqn:Eg.
    + by apply (IH r w j x o s rs w').
    + injection Ee as <- <-. injection Er as <- <-. cbn. rewrite app_nil_r. by split_and!.
    + exfalso. destruct (C25_partial_proof (w_h w) (t_root x) k) as (_ & A & _). by apply A.
  - cbn in Er, Ee. unfold withTx in Ee. rewrite Hj in Ee. unfold trackMutate in Ee. unfold bind, getT, putT in Er. cbn in Er. destruct (exec _ _) as [rs2 w2] eqn:E2. injection Ee as <- <-.
    destruct (IH (mkW (w_h w) (w_trees w) (<[j := set_t_track x b]> (w_txns w))) j (set_t_track x b) o s rs2 w2) as (A & B & C & D);
      [cbn; apply list_lookup_insert; by apply lookup_lt_Some in Hj|done|done|]. cbn in *. rewrite insert_length in C. split_and!; [done..|]. intros Ho. right. auto.
  - rewrite run_pbind in Er. unfold bind in Er. rewrite req_commit in Er. cbn [exec step] in Ee. unfold withTx, onTxn in Ee. rewrite Hj in Ee.
    destruct (commit (mkS (w_h w) x)) as [[r| |] [h1 x1]]; cbn in Ee, Er; injection Ee as <- <-; injection Er as <- <-; cbn; rewrite ?app_nil_r, insert_length; split_and!; try done. intros _. left.
  - cbn in Er, Ee. injection Ee as <- <-. injection Er as <- <-. cbn. rewrite app_nil_r. by split_and!.
Qed.

Definition touchesX (c : call V) (j : nat) : Prop := publishes c = Some j \/ updates c = Some j.
Lemma ccalls_ids c : forall j s d i, d ∈ ccalls c j s -> touchesX d i -> i = j.
Proof.
  induction c as [k v next IH|k next IH|k next IH|k next IH|b next IH| |]; intros j s d i Hd Ht; cbn [ccalls] in Hd.
  - apply elem_of_cons in Hd as [->|Hd]; [destruct Ht as [[=]|[=]]; congruence|]. destruct (txnInsert k v s) as [[r| |] s']; [by eapply IH|by apply elem_of_nil in Hd..].
  - apply elem_of_cons in Hd as [->|Hd]; [destruct Ht as [[=]|[=]]; congruence|]. destruct (txnDelete k s) as [[r| |] s']; [by eapply IH|by apply elem_of_nil in Hd..].
  - apply elem_of_cons in Hd as [->|Hd]; [destruct Ht as [[=]|[=]]; congruence|]. destruct (txnDeletePrefix k s) as [[r| |] s']; [by eapply IH|by apply elem_of_nil in Hd..].
  - destruct (getFrom _ _ _) as [r| |]; [by eapply IH|by apply elem_of_nil in Hd..].
  - apply elem_of_cons in Hd as [->|Hd]; [destruct Ht as [[=]|[=]]|by eapply IH].
  - apply elem_of_list_singleton in Hd as ->. destruct Ht as [[=]|[=]]; congruence.
  - by apply elem_of_nil in Hd.
Qed.
Lemma disc_cons (c : call V) cs : publishes c = None -> disciplined cs -> disciplined (c :: cs).
Proof. intros Hc Hd p q x y j Hpq Hp Hq. destruct p as [|p]; [injection Hp as <-; congruence|]. destruct q as [|q]; [lia|]. apply (Hd p q); [lia|done|done]. Qed.
Lemma ccalls_disc c : forall j s, disciplined (ccalls c j s).
Proof.
  assert (N : disciplined ([] : list (call V))) by (intros p q x y j _ Hp; done).
  induction c as [k v next IH|k next IH|k next IH|k next IH|b next IH| |]; intros j s; cbn [ccalls].
  - apply disc_cons; [done|]. by destruct (txnInsert k v s) as [[r| |] s'].
  - apply disc_cons; [done|]. by destruct (txnDelete k s) as [[r| |] s'].
  - apply disc_cons; [done|]. by destruct (txnDeletePrefix k s) as [[r| |] s'].
  - by destruct (getFrom _ _ _).
  - by apply disc_cons.
  - intros p q x y i Hpq Hp Hq. destruct q as [|q]; [lia|done].
  - done.
Qed.
Lemma disc_app (cs1 cs2 : list (call V)) n : disciplined cs1 -> disciplined cs2 -> (forall d j, d ∈ cs1 -> touchesX d j -> j < n) -> (forall d j, d ∈ cs2 -> touchesX d j -> n <= j) ->
  disciplined (cs1 ++ cs2).
Proof.
  intros D1 D2 B1 B2 p q x y j Hpq Hp Hq Hx Hy. apply lookup_app_Some in Hp as [Hp|[Lp Hp]]; apply lookup_app_Some in Hq as [Hq|[Lq Hq]].
  - by eapply (D1 p q).
  - apply elem_of_list_lookup_2 in Hp, Hq. assert (j < n) by (eapply B1; [exact Hp|by left]). assert (n <= j) by (eapply B2; [exact Hq|by right]). lia.
  - apply lookup_lt_Some in Hq. lia.
  - eapply (D2 (p - length cs1) (q - length cs1)); [lia|done..].
Qed.

Lemma run_newTxn_all tr (s : st V) : run (pnewTxn tr) s = match newTxn tr (s_h s) with (Ok x, h) => (Ok tt, mkS h x) | (Panic, h) => (Panic, mkS h (s_t s)) | (NoFuel, h) => (NoFuel, mkS h (s_t s)) end.
Proof.
  unfold pnewTxn. rewrite run_pbind. unfold bind. rewrite req_cloneN. unfold liftH, newTxn, bind. destruct s as [h t]. cbn [s_h s_t]. destruct (cloneN (r_root tr) true h) as [[a| |] h']; done.
Qed.
Lemma run_cloner_all tr (s : st V) : run (cloner tr) s = match cloneTree tr (s_h s) with (Ok x, h) => (Ok (Some x), mkS h (s_t s)) | (Panic, h) => (Panic, mkS h (s_t s)) | (NoFuel, h) => (NoFuel, mkS h (s_t s)) end.
Proof.
  unfold cloner. rewrite run_pbind. unfold bind. rewrite req_cloneN. unfold liftH, cloneTree, bind. destruct s as [h t]. cbn [s_h s_t]. destruct (cloneN (r_root tr) true h) as [[a| |] h']; done.
Qed.
Lemma jcalls_ok g (w : world V) rs w' : exec (jcalls g w) w = (rs, w') ->
  jrun (w_h w, w_trees w) g = (w_h w', w_trees w') /\ length (w_txns w) <= length (w_txns w') /\
  (forall d j, d ∈ jcalls g w -> touchesX d j -> j = length (w_txns w) /\ j < length (w_txns w')) /\ disciplined (jcalls g w) /\
  (g <> JNew -> forall tr, w_trees w !! jbase g = Some tr -> (run (jprog g tr) (mkS (w_h w) (noTxn tr))).1 = NoFuel -> NoFuel ∈ rs).
Proof.
  destruct g as [|i c|i]; cbn [jcalls jrun jprog jbase fst snd].
  - cbn [exec step]. unfold onHeap. destruct (newTree (w_h w)) as [[tr| |] h]; intros [= <- <-]; cbn; rewrite ?app_nil_r;
      (split_and!; [done|done|intros d j Hd Ht; apply elem_of_list_singleton in Hd as ->; by destruct Ht|intros p q x y i Hpq Hp Hq; destruct q as [|q]; [lia|done]|done]).
  - destruct (w_trees w !! i) as [tr|] eqn:Ei.
    2: { intros [= <- <-]. cbn. split_and!; [by destruct w|done|intros d j Hd; by apply elem_of_nil in Hd|by intros p q x y j _ Hp|done]. }
    assert (Er : run (goroutine tr c) (mkS (w_h w) (noTxn tr)) = match newTxn tr (w_h w) with (Ok x, h) => run (pclient c) (mkS h x) | (Panic, h) => (Panic, mkS h (noTxn tr)) | (NoFuel, h) => (NoFuel, mkS h (noTxn tr)) end).
    { unfold goroutine. rewrite run_pbind. unfold bind. rewrite run_newTxn_all. cbn [s_h s_t]. by destruct (newTxn tr (w_h w)) as [[x| |] h]. }
    rewrite Er. cbn [exec step]. unfold withTree, onHeap. rewrite Ei. destruct (newTxn tr (w_h w)) as [[x| |] h] eqn:En; cbn.
    + destruct (exec _ _) as [rs2 w2] eqn:E2. intros [= <- <-]. rewrite app_nil_r in E2.
      destruct (run (pclient c) (mkS h x)) as [o s] eqn:Ec. destruct (ccalls_ok c (mkW h (w_trees w) (w_txns w ++ [x])) (length (w_txns w)) x o s rs2 w2) as (A & B & C & D).
      { cbn. rewrite lookup_app_r by lia. by rewrite Nat.sub_diag. } { done. } { done. }
      cbn [w_h w_trees w_txns] in A, B, C, D. rewrite app_length in C. cbn in C. split_and!.
      * destruct o as [[tr'|]| |]; cbn in B; rewrite ?app_nil_r in B; by rewrite A, B.
      * lia.
      * intros d j Hd Ht. apply elem_of_cons in Hd as [->|Hd]; [by destruct Ht|]. pose proof (ccalls_ids _ _ _ _ _ Hd Ht). lia.
      * apply disc_cons; [done|]. apply ccalls_disc.
      * intros _ tr' [= <-] Ho. change ((run (goroutine tr c) (mkS (w_h w) (noTxn tr))).1 = NoFuel) in Ho. rewrite Er in Ho. right. by apply D.
    + intros [= <- <-]. cbn. split_and!; [done|done|intros d j Hd Ht; apply elem_of_list_singleton in Hd as ->; by destruct Ht|intros p q y z k Hpq Hp Hq; destruct q as [|q]; [lia|done]|].
      intros _ tr' [= <-] Ho. change ((run (goroutine tr c) (mkS (w_h w) (noTxn tr))).1 = NoFuel) in Ho. by rewrite Er in Ho.
    + intros [= <- <-]. cbn. split_and!; [done|done|intros d j Hd Ht; apply elem_of_list_singleton in Hd as ->; by destruct Ht|intros p q y z k Hpq Hp Hq; destruct q as [|q]; [lia|done]|].
      intros _ tr' [= <-] _. left.
  - cbn [exec step]. unfold withTree, onHeap. destruct (w_trees w !! i) as [tr|] eqn:Ei.
    2: { intros [= <- <-]. cbn. split_and!; [done|done|intros d j Hd Ht; apply elem_of_list_singleton in Hd as ->; by destruct Ht|intros p q y z k Hpq Hp Hq; destruct q as [|q]; [lia|done]|done]. }
    rewrite run_cloner_all. cbn [s_h s_t]. destruct (cloneTree tr (w_h w)) as [[x| |] h] eqn:En; cbn; intros [= <- <-]; cbn; rewrite ?app_nil_r;
      (split_and!; [done|done|intros d j Hd Ht; apply elem_of_list_singleton in Hd as ->; by destruct Ht|intros p q y z k Hpq Hp Hq; destruct q as [|q]; [lia|done]|]);
      intros _ tr' [= <-] Ho; change ((run (cloner tr) (mkS (w_h w) (noTxn tr))).1 = NoFuel) in Ho; rewrite run_cloner_all in Ho; cbn [s_h s_t] in Ho; rewrite En in Ho; try done. left.
Qed.
Lemma scalls_snoc js g : scalls (js ++ [g]) = ((scalls js).1 ++ jcalls g (scalls js).2, (exec (jcalls g (scalls js).2) (scalls js).2).2).
Proof. unfold scalls. by rewrite foldl_app. Qed.
Lemma serial_snoc js (g : job V) : serial (js ++ [g]) = jrun (serial js) g.
Proof. unfold serial. by rewrite foldl_app. Qed.
Lemma serial_world js : exists rs, exec (scalls js).1 w_init = (rs, (scalls js).2) /\ serial js = (w_h (scalls js).2, w_trees (scalls js).2) /\ disciplined (scalls js).1 /\
  (forall d j, d ∈ (scalls js).1 -> touchesX d j -> j < length (w_txns (scalls js).2)).
Proof.
  induction js as [|g js IH] using rev_ind.
  - exists []. split_and!; [done|done|by intros p q x y j _ Hp|]. intros d j Hd. by apply elem_of_nil in Hd.
  - destruct IH as (rs & E1 & E2 & Hd & Hi). rewrite scalls_snoc, serial_snoc, E2. destruct (scalls js) as [cs w]. cbn [fst snd] in *.
    destruct (exec (jcalls g w) w) as [rs2 w2] eqn:Eg. destruct (jcalls_ok g w rs2 w2 Eg) as (A & B & C & D & _). cbn. exists (rs ++ rs2). split_and!.
    + by rewrite (exec_app _ _ _ _ _ E1), Eg.
    + done.
    + apply (disc_app _ _ (length (w_txns w))); [done|done|done|]. intros d j Hx Ht. destruct (C d j Hx Ht). lia.
    + intros d j Hx Ht. apply elem_of_app in Hx as [Hx|Hx]; [specialize (Hi d j Hx Ht); lia|by apply (C d j)].
Qed.
(** A job of a serial execution ends. *)
Lemma serial_ends js g tr : g <> JNew -> (serial js).2 !! jbase g = Some tr -> (run (jprog g tr) (mkS (serial js).1 (noTxn tr))).1 <> NoFuel.
Proof.
  intros Hg Ht Hn. destruct (serial_world (js ++ [g])) as (rs & E & _). destruct (serial_world js) as (rs1 & E1 & E2 & _). rewrite scalls_snoc in E. cbn in E.
  rewrite (exec_app _ _ _ _ _ E1) in E. destruct (exec (jcalls g (scalls js).2) (scalls js).2) as [rs2 w2] eqn:Eg. injection E as <-.
  destruct (jcalls_ok _ _ _ _ Eg) as (_ & _ & _ & _ & D). rewrite E2 in Ht, Hn. specialize (D Hg tr Ht Hn).
  apply (C52_calls_proof ((scalls js).1 ++ jcalls g (scalls js).2) NoFuel); [|done]. rewrite (exec_app _ _ _ _ _ E1), Eg. cbn. apply elem_of_app. by right.
Qed.
Lemma serial_ranked js : ranked (serial js).1.
Proof.
  destruct (serial_world js) as (rs & Ee & Es & _). rewrite Es. cbn. pose proof (exec_winv (scalls js).1 w_init winv_init) as [Hw _]. rewrite Ee in Hw. apply Hw.
Qed.
(** in every memory with a rank *)
Lemma jprog_ends (g : job V) tr (h : heap V) : g <> JNew -> ranked h -> r_root tr < h_next h -> (run (jprog g tr) (mkS h (noTxn tr))).1 <> NoFuel.
Proof.
  intros Hg Hr Hlt Hn. set (g0 := match g with JNew => JNew | JTxn _ c => JTxn 0 c | JClone _ => JClone 0 end).
  assert (Hw : winv (mkW h [tr] [])) by (split; [done|split; [by repeat constructor|constructor]]).
  destruct (exec (jcalls g0 (mkW h [tr] [])) (mkW h [tr] [])) as [rs w'] eqn:E. destruct (jcalls_ok _ _ _ _ E) as (_ & _ & _ & _ & D).
  destruct (exec_winv (jcalls g0 (mkW h [tr] [])) _ Hw) as [_ Hf]. rewrite E in Hf. rewrite Forall_forall in Hf. apply (Hf NoFuel); [|done].
  destruct g; [done|..]; by apply (D ltac:(done) tr eq_refl).
Qed.
End SerialWorld.
