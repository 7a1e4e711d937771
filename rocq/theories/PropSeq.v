(** Trees in concurrent executions and trees of sequential histories (C69_build). *)
From Verif Require Import SpecLine Serial SerialWorld ReadAlike PropSerial PropLine ProgEq Linear Wp.
From stdpp Require Import list.
Local Open Scope nat_scope.

Section Seq.
Context {V : Type} `{GoZero V}.

Lemma run_update {A} (T T' : rtree) (p : prog V A) (m : M (st V) A) (h : heap V) s' : req p m ->
  run (pbind (pnewTxn T) (fun _ => pbind p (fun _ => pbind pcommit (fun tr => pret (Some tr))))) (mkS h (noTxn T)) = (Ok (Some T'), s') ->
  exists a, withTxn T m h = (Ok (T', a), s_h s').
Proof.
  intros E. rewrite run_pbind. unfold bind at 1. rewrite run_newTxn. cbn [s_h s_t]. unfold withTxn. destruct (newTxn T h) as [[tx| |] h1]; [|done..].
  rewrite run_pbind. unfold bind at 1. rewrite E. destruct (m (mkS h1 tx)) as [[a| |] s]; [|done..].
  rewrite run_pbind. unfold bind at 1. rewrite req_commit. destruct (commit s) as [[t| |] s2]; [|done..]. cbn. intros [= -> <-]. eauto.
Qed.
Lemma run_op (T T' : rtree) o (h : heap V) s' : run (goroutine T (op_client o)) (mkS h (noTxn T)) = (Ok (Some T'), s') -> exists r, treeOp o T h = (Ok (T', r), s_h s').
Proof.
  unfold goroutine. intros E. destruct o as [k v|k|k]; cbn [op_client pclient] in E.
  - apply (run_update _ _ _ _ _ _ (req_txnInsert k v)) in E as [a E]. cbn [treeOp]. unfold treeInsert, bind. rewrite E. cbn. eauto.
  - apply (run_update _ _ _ _ _ _ (req_txnDelete k)) in E as [a E]. cbn [treeOp]. unfold treeDelete, bind. rewrite E. cbn. eauto.
  - apply (run_update _ _ _ _ _ _ (req_txnDeletePrefix k)) in E as [a E]. cbn [treeOp]. unfold treeDeletePrefix, bind. rewrite E. cbn. eauto.
Qed.
Lemma build_add (os : list (op V)) o h t rs t' r h' : build os h t rs -> treeOp o t h = (Ok (t', r), h') -> build (os ++ [o]) h' t' (rs ++ [r]).
Proof.
  unfold build. intros E Eo. unfold bind in E |- *. destruct (newTree h_init) as [[t0| |] h0]; [|done..]. revert t0 h0 rs E.
  induction os as [|o' os IH]; intros t0 h0 rs E; cbn [treeOps app] in *.
  - injection E as -> <- ->. unfold bind. rewrite Eo. done.
  - unfold bind in E |- *. destruct (treeOp o' t0 h0) as [[p| |] h1]; [|done..]. destruct (treeOps os p.1 h1) as [[q| |] h2] eqn:E2; [|done..].
    cbn in E. injection E as <- <- ->. rewrite (IH p.1 h1 q.2); [done|]. rewrite E2. by destruct q.
Qed.
Lemma line_build (os : list (op V)) : forall js i, made js i (ops_making os) ->
  exists T rs, (serial (line (ops_making os))).2 !! age (ops_making os) = Some T /\ build os (serial (line (ops_making os))).1 T rs.
Proof.
  induction os as [|o os IH] using rev_ind; intros js i M.
  - do 2 eexists. split; reflexivity.
  - destruct (made_line _ _ _ M) as [_ El]. unfold ops_making in *. rewrite foldl_app in *. cbn [foldl line age] in *. fold (ops_making os) in *.
    destruct (made_inv _ _ _ M) as (js1 & g & js2 & _ & _ & _ & k & _ & Mk). destruct (IH _ _ Mk) as (T & rs & ET & Hb).
    destruct (made_line _ _ _ Mk) as [_ El0]. rewrite serial_snoc in *. destruct (serial (line (ops_making os))) as [h ts]. cbn [fst snd] in *.
    cbn [jrun jbase jprog fst snd] in *. rewrite ET in *. destruct (run (goroutine T (op_client o)) (mkS h (noTxn T))) as [[[T'|]| |] s] eqn:Er; cbn [fst snd] in *; [|lia..].
    apply run_op in Er as [r Er]. exists T', (rs ++ [r]). split; [|by eapply build_add]. rewrite lookup_app_r, El0 by lia. by rewrite Nat.sub_diag.
Qed.
(** The same for transactions of several updates *)
Lemma run_ops (os : list (op V)) s : run (pclient (ops_client os)) s = bind (txnOps os) (fun _ => bind commit (fun tr => ret (Some tr))) s.
Proof.
  revert s. induction os as [|o os IH]; intros s; cbn [ops_client foldr].
  - cbn [pclient txnOps]. rewrite run_pbind. unfold bind. rewrite req_commit. cbn. by destruct (commit s) as [[]].
  - fold (ops_client os). destruct o as [k v|k|k]; cbn [pclient txnOps txnOp]; rewrite run_pbind; unfold bind; rewrite ?req_txnInsert, ?req_txnDelete, ?req_txnDeletePrefix.
    1: destruct (txnInsert k v s) as [[a| |] s1]; [|done..]. 2: destruct (txnDelete k s) as [[a| |] s1]; [|done..]. 3: destruct (txnDeletePrefix k s) as [[a| |] s1]; [|done..].
    all: cbn [ret]; rewrite IH; unfold bind; by destruct (txnOps os s1) as [[]].
Qed.
Lemma run_txn (T T' : rtree) os (h : heap V) s' : run (goroutine T (ops_client os)) (mkS h (noTxn T)) = (Ok (Some T'), s') -> exists rs, withTxn T (txnOps os) h = (Ok (T', rs), s_h s').
Proof.
  unfold goroutine. rewrite run_pbind. unfold bind at 1. rewrite run_newTxn. cbn [s_h s_t]. unfold withTxn. destruct (newTxn T h) as [[tx| |] h1]; [|done..].
  rewrite run_ops. unfold bind. destruct (txnOps os (mkS h1 tx)) as [[a| |] s]; [|done..]. destruct (commit s) as [[t| |] s2]; [|done..]. cbn. intros [= -> <-]. eauto.
Qed.
Lemma line_txns (oss : list (list (op V))) : forall js i, made js i (txns_making oss) ->
  exists T rs, (serial (line (txns_making oss))).2 !! age (txns_making oss) = Some T /\
    build_txns oss (serial (line (txns_making oss))).1 T rs.
Proof.
  induction oss as [|os oss IH] using rev_ind; intros js i M.
  - do 2 eexists. split; reflexivity.
  - destruct (made_line _ _ _ M) as [_ El]. unfold txns_making in *. rewrite foldl_app in *. cbn [foldl line age] in *. fold (txns_making oss) in *.
    destruct (made_inv _ _ _ M) as (js1 & g & js2 & _ & _ & _ & k & _ & Mk). destruct (IH _ _ Mk) as (T & rs & ET & Hb).
    destruct (made_line _ _ _ Mk) as [_ El0]. rewrite serial_snoc in *. destruct (serial (line (txns_making oss))) as [h ts]. cbn [fst snd] in *.
    cbn [jrun jbase jprog fst snd] in *. rewrite ET in *. destruct (run (goroutine T (ops_client os)) (mkS h (noTxn T))) as [[[T'|]| |] s] eqn:Er; cbn [fst snd] in *; [|lia..].
    apply run_txn in Er as [r Er]. exists T', (rs ++ r). split; [rewrite lookup_app_r, El0 by lia; by rewrite Nat.sub_diag|].
    unfold build_txns, bind in Hb |- *. destruct (newTree h_init) as [[t0| |] h0]; [|done..]. rewrite treeTxns_snoc. unfold bind. rewrite Hb. cbn [fst snd]. by rewrite Er.
Qed.
End Seq.

(** *** C69_build: a tree that was made by single updates, each in a transaction on the tree of the one before, reads as the tree of the sequential history of
    these updates, whatever the other goroutines do: what is proved of the reads of [build] holds of it. *)
Lemma C69_build_proof {V} `{GoZero V} (c : cfg V) js gs i tr (os : list (op V)) : recorded c js gs -> made js i (ops_making os) -> c_pub c !! i = Some tr ->
  exists h t rs, build os h t rs /\ reads_alike (c_h c) tr h t.
Proof.
  intros R M Ei. destruct (line_build os js i M) as (T & rs & ET & Hb). destruct (C69_alone_proof c js gs i tr _ R M Ei) as (_ & T' & ET' & Ha).
  rewrite ET in ET'. injection ET' as <-. eauto.
Qed.

(** *** C69_txns: the same of trees made by transactions of several updates. *)
Lemma C69_txns_proof {V} `{GoZero V} (c : cfg V) js gs i tr (oss : list (list (op V))) : recorded c js gs -> made js i (txns_making oss) -> c_pub c !! i = Some tr ->
  exists h t rs, build_txns oss h t rs /\ reads_alike (c_h c) tr h t.
Proof.
  intros R M Ei. destruct (line_txns oss js i M) as (T & rs & ET & Hb). destruct (C69_alone_proof c js gs i tr _ R M Ei) as (_ & T' & ET' & Ha).
  rewrite ET in ET'. injection ET' as <-. eauto.
Qed.

(** Three updates, each on the tree of the one before, while another goroutine does a DeletePrefix on one of these trees. *)
Definition sqops : list (op nat) := [OInsert [97; 98] 1; OInsert [97; 99] 2; ODelete [97; 98]].
Definition sqsched : list (rmove nat) :=
  [RNEW; RGO 0 (op_client (OInsert [97; 98] 1)); RRUN 0 1000; REND 0; RGO 1 (op_client (OInsert [97; 99] 2)); RGO 1 (op_client (ODeletePrefix [97]))] ++ concat (replicate 12 [RRUN 1 3; RRUN 2 2]) ++
  [RRUN 2 1000; REND 2; RRUN 1 1000; REND 1; RGO 3 (op_client (ODelete [97; 98])); RRUN 3 1000; REND 3].
Definition sqjobs : list (job nat) := [JNew; JTxn 0 (op_client (OInsert [97; 98] 1)); JTxn 1 (op_client (ODeletePrefix [97])); JTxn 1 (op_client (OInsert [97; 99] 2)); JTxn 3 (op_client (ODelete [97; 98]))].
Lemma sqjobs_made : made sqjobs 4 (ops_making sqops).
Proof.
  assert (M0 : made [JNew] 0 (MNew (V := nat))) by exact (made_new []).
  assert (M1 : made (take 2 sqjobs) 1 (ops_making (take 1 sqops))). { eapply made_at; [apply (made_txn [JNew] 0 (op_client (OInsert [97; 98] 1)) MNew M0)|]; vm_compute; reflexivity. }
  pose proof (made_later _ (JTxn 1 (op_client (ODeletePrefix [97]))) _ _ M1) as M2.
  assert (M3 : made (take 4 sqjobs) 3 (ops_making (take 2 sqops))). { eapply made_at; [apply (made_txn (take 3 sqjobs) 1 (op_client (OInsert [97; 99] 2)) _ M2)|]; vm_compute; reflexivity. }
  eapply made_at; [apply (made_txn (take 4 sqjobs) 3 (op_client (ODelete [97; 98])) _ M3)|]; vm_compute; reflexivity.
Qed.
Example ex_C69_build : let '(c, js, gs) := rafter sqsched in
  recorded c js gs /\ js = sqjobs /\ made js 4 (ops_making sqops) /\
  (fun tr => treeWalk (fun k v acc => (acc ++ [k], false)) (c_h c) tr []) <$> (c_pub c !! 3) = Some (Ok [[97; 98]; [97; 99]]) /\
  (fun tr => treeGet (c_h c) tr [97; 99]) <$> (c_pub c !! 4) = Some (Ok (2, true)) /\ (fun tr => treeGet (c_h c) tr [97; 98]) <$> (c_pub c !! 4) = Some (Ok (0, false)).
Proof.
  pose proof (rafter_recorded sqsched ltac:(vm_compute; reflexivity)) as R. destruct (rafter sqsched) as [[c js] gs] eqn:E. split; [exact R|].
  assert (Ej : js = sqjobs). { change js with (c, js, gs).1.2. rewrite <- E. vm_compute. reflexivity. }
  assert (Ec : c = (rafter sqsched).1.1) by by rewrite E. rewrite Ec. clear R E Ec. subst js. split_and!; [done|exact sqjobs_made|vm_compute; reflexivity..].
Qed.
(** The same updates in two transactions *)
Definition tqops : list (list (op nat)) := [[OInsert [97; 98] 1; OInsert [97; 99] 2]; [ODelete [97; 98]]].
Definition tqsched : list (rmove nat) :=
  [RNEW; RGO 0 (ops_client [OInsert [97; 98] 1; OInsert [97; 99] 2]); RRUN 0 1000; REND 0; RGO 1 (ops_client [ODelete [97; 98]]); RGO 1 (op_client (ODeletePrefix [97]))] ++
  concat (replicate 12 [RRUN 1 3; RRUN 2 2]) ++ [RRUN 2 1000; REND 2; RRUN 1 1000; REND 1].
Definition tqjobs : list (job nat) := [JNew; JTxn 0 (ops_client [OInsert [97; 98] 1; OInsert [97; 99] 2]); JTxn 1 (op_client (ODeletePrefix [97])); JTxn 1 (ops_client [ODelete [97; 98]])].
Lemma tqjobs_made : made tqjobs 3 (txns_making tqops).
Proof.
  assert (M0 : made [JNew] 0 (MNew (V := nat))) by exact (made_new []).
  assert (M1 : made (take 2 tqjobs) 1 (txns_making (take 1 tqops))). { eapply made_at; [apply (made_txn [JNew] 0 (ops_client [OInsert [97; 98] 1; OInsert [97; 99] 2]) MNew M0)|]; vm_compute; reflexivity. }
  pose proof (made_later _ (JTxn 1 (op_client (ODeletePrefix [97]))) _ _ M1) as M2.
  eapply made_at; [apply (made_txn (take 3 tqjobs) 1 (ops_client [ODelete [97; 98]]) _ M2)|]; vm_compute; reflexivity.
Qed.
Example ex_C69_txns : let '(c, js, gs) := rafter tqsched in
  recorded c js gs /\ js = tqjobs /\ made js 3 (txns_making tqops) /\
  (fun tr => treeGet (c_h c) tr [97; 99]) <$> (c_pub c !! 3) = Some (Ok (2, true)) /\ (fun tr => treeGet (c_h c) tr [97; 98]) <$> (c_pub c !! 3) = Some (Ok (0, false)).
Proof.
  pose proof (rafter_recorded tqsched ltac:(vm_compute; reflexivity)) as R. destruct (rafter tqsched) as [[c js] gs] eqn:E. split; [exact R|].
  assert (Ej : js = tqjobs). { change js with (c, js, gs).1.2. rewrite <- E. vm_compute. reflexivity. }
  assert (Ec : c = (rafter tqsched).1.1) by by rewrite E. rewrite Ec. clear R E Ec. subst js. split_and!; [done|exact tqjobs_made|vm_compute; reflexivity..].
Qed.
