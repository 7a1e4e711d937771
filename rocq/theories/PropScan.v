(** Walk, DFS and LongestPrefix in histories with many trees and in concurrent executions that remove nothing (restated in
    Properties_Scan.v). *)
From Verif Require Import SpecScan ReadDfs2 WorldClean ReadWalk ReadEr PropWalk PropWorldRef PropConcMap ConcMap SerialWorld WorldRef ReadTotal PropSerial PropMap PropWorld Observe Refute.
From stdpp Require Import list.
Local Open Scope nat_scope.

Section Facts.
Context {V : Type} `{GoZero V}.
Notation kmap := (gmap (list nat) V).

Lemma holds_scans (b : bool) (h : heap V) (t : rtree) (m : kmap) : Top.holds b (er_h h) (r_root t) m -> clean (er_h h) -> m <> ∅ -> scans_as h t m.
Proof.
  intros Hh Hc Hne. split.
  - destruct (holds_walk _ _ _ _ Hh Hne Hc) as (l & H1 & H2 & H3 & H4). exists l. split_and!; [done..|]. intros A fn acc. rewrite <- er_treeWalk. destruct t as [r sz mx]. apply H4.
  - intros Hn q Hq Hqh Hor. destruct (holds_longest _ _ _ _ q Hh Hne Hc Hq Hqh Hn Hor) as (o & E & Hr). exists o. split; [|done]. unfold treeLongestPrefix. by rewrite <- er_longestPrefixFrom.
  - intros Hw. destruct (holds_dfs_ways _ _ _ _ Hh Hne Hc Hw) as (ns & E & _ & Hp). exists (shown_by h <$> ns). change (walk_fuel (er_h h)) with (walk_fuel h) in E. rewrite er_dfsNode in E.
    unfold treeDfs. rewrite E. split; [done|]. rewrite <- Hp. unfold shown. clear. induction ns as [|a ns IH]; [done|]. cbn. rewrite er_shown_by. destruct (shown_by h a); cbn; by rewrite IH.
Qed.
Lemma covered_clean (cs : list (call V)) g rs w : covered cs g -> disciplined cs -> (N.of_nat (length cs) < 2 ^ 64)%N -> (forall c, c ∈ cs -> ~ removes c) ->
  exec cs w_init = (rs, w) -> clean (er_h (w_h w)).
Proof.
  intros Hc Hd Hl Hr E. apply er_clean. destruct (covered_results cs g Hc Hd Hl) as (rs' & w' & E' & Hlen & Hres). rewrite E in E'. injection E' as <- <-.
  eapply (exec_clean cs w_init rs w Hr); [| |exact E].
  - intros o Ho. apply elem_of_list_lookup in Ho as [i Hi]. assert (Hlt : i < length cs) by (rewrite <- Hlen; by eapply lookup_lt_Some). destruct (lookup_lt_is_Some_2 cs i Hlt) as [c Hci].
    assert (Hg : exists gi, covered (take i cs) gi).
    { clear -Hc. revert i. induction Hc as [|cs g c g' Hc IH Hg]; intros i; [rewrite take_nil; eexists; constructor|]. destruct (decide (i <= length cs)) as [Hi|Hi].
      - rewrite take_app_le by done. apply IH.
      - rewrite take_ge by (rewrite app_length; cbn; lia). eexists. by econstructor. }
    destruct Hg as [gi Hgi]. destruct (Hres i c gi Hci Hgi) as (r & Hr' & _). rewrite Hi in Hr'. injection Hr' as ->. eauto.
  - intros a n. cbn. by rewrite lookup_empty.
Qed.
Lemma scans_alike (h : heap V) (t : rtree) (h' : heap V) (t' : rtree) (m : kmap) : reads_alike h t h' t' -> scans_as h' t' m -> scans_as h t m.
Proof.
  intros A [(l & H1 & H2 & H3 & H4) B C]. split.
  - exists l. split_and!; [done..|]. intros X fn acc. by rewrite (ra_walk _ _ _ _ A).
  - intros Hn q Hq Ho Hs. rewrite (ra_longest _ _ _ _ A). by apply B.
  - intros Hw. rewrite (SpecReads.ra_dfs _ _ _ _ A). by apply C.
Qed.
Lemma ccalls_adds (c : client V) : adds_only c -> forall j s d, d ∈ ccalls c j s -> ~ removes d.
Proof.
  induction c as [k v next IH|k next IH|k next IH|k next IH|b next IH| |]; intros Ha j s d Hd; cbn [adds_only ccalls] in *; try done.
  - apply elem_of_cons in Hd as [->|Hd]; [by intros []|]. destruct (txnInsert k v s) as [[r| |] s']; [by eapply IH|by apply elem_of_nil in Hd..].
  - destruct (getFrom _ _ _) as [r| |]; [by eapply IH|by apply elem_of_nil in Hd..].
  - apply elem_of_cons in Hd as [->|Hd]; [by intros []|]. by eapply IH.
  - apply elem_of_list_singleton in Hd as ->. by intros [].
  - by apply elem_of_nil in Hd.
Qed.
Lemma scalls_adds (js : list (job V)) : Forall job_adds js -> forall d, d ∈ (scalls js).1 -> ~ removes d.
Proof.
  induction js as [|g js IH] using rev_ind; intros Ha d Hd; [by apply elem_of_nil in Hd|]. apply Forall_app in Ha as [Ha Hg]. apply Forall_cons in Hg as [Hg _]. rewrite scalls_snoc in Hd. cbn [fst] in Hd.
  apply elem_of_app in Hd as [Hd|Hd]; [by apply IH|]. destruct g as [|i c|i]; cbn [jcalls job_adds] in *; [apply elem_of_list_singleton in Hd as ->; by intros []| |apply elem_of_list_singleton in Hd as ->; by intros []].
  destruct (w_trees _ !! i) as [tr|]; [|by apply elem_of_nil in Hd]. apply elem_of_cons in Hd as [->|Hd]; [by intros []|].
  destruct (newTxn _ _) as [[x| |] h]; [by eapply ccalls_adds|by apply elem_of_nil in Hd..].
Qed.
End Facts.

(** *** C68: in a covered history (any number of trees and transactions, interleaved in any way) without Delete and DeletePrefix, Walk, DFS and
    LongestPrefix on every non-empty tree ever handed out answer as its reference map. *)
Lemma C68_proof {V} `{GoZero V} (cs : list (call V)) g rs w i t m d :
  covered cs g -> disciplined cs -> (N.of_nat (length cs) < 2 ^ 64)%N -> (forall c, c ∈ cs -> ~ removes c) -> exec cs w_init = (rs, w) ->
  w_trees w !! i = Some t -> g_trees g !! i = Some (m, d) -> m <> ∅ -> scans_as (w_h w) t m.
Proof.
  intros Hc Hd Hl Hr E Hi Hg Hne. pose proof (covered_clean cs g rs w Hc Hd Hl Hr E) as Hcl.
  destruct (covered_wok cs g Hc Hd Hl) as (rs' & w' & fr & E' & [L1 L2 WT WX] & _). rewrite E in E'. injection E' as <- <-.
  destruct (WT i t (m, d) Hi Hg) as (x & (Hh & Hs & He) & Hx & _). by eapply holds_scans.
Qed.
(** Goroutines whose jobs are covered and remove nothing, interleaved in any way: Walk, DFS and LongestPrefix on every non-empty tree handed out
    answer as the map that the job which made the tree has computed. *)
Lemma C68_conc_proof {V} `{GoZero V} (c : cfg V) js gs ns : recorded c js gs -> jobs_ok js ns -> Forall job_adds js ->
  exists ts, jobs_run js ts /\ length ts = length (c_pub c) /\
    forall i tr m d, c_pub c !! i = Some tr -> ts !! i = Some (m, d) -> m <> ∅ -> scans_as (c_h c) tr m.
Proof.
  intros R Ho Hadd. destruct (C55_serial_proof c js gs R) as [Hl Ha]. destruct (jobs_covered js ns Ho) as (g & K1 & K2 & K3). destruct (serial_world js) as (rs & Ee & Es & Hd & _).
  destruct Ho as (_ & Hs & _). assert (Hlen : (N.of_nat (length (scalls js).1) < 2 ^ 64)%N) by lia. destruct (C48_proof _ g rs (scalls js).2 K1 Hd Hlen Ee) as (Hlt & _).
  exists (g_trees g). split; [done|]. rewrite Es in Hl. cbn in Hl. split; [lia|]. intros i tr m d Ei Eg Hne.
  destruct (lookup_lt_is_Some_2 (serial js).2 i) as [T ET]. { rewrite Es. cbn. rewrite Hl. by eapply lookup_lt_Some. }
  specialize (Ha i tr T Ei ET). rewrite Es in ET, Ha. cbn in ET, Ha. eapply scans_alike; [exact Ha|]. eapply C68_proof; eauto using scalls_adds.
Qed.

(** *** Examples *)
(** Trees 0-3 branch from one another; two transactions start at tree 2, one as a clone of the other. *)
Definition ex_grow : list (call nat) :=
  [CNew; CInsert 0 (B "ab") 1; CInsert 1 (B "a") 2; CTxn 2; CTrack 0 true; CTInsert 0 (B "ac") 3; CInsert 2 (B "b") 9; CGetWatch 2 (B "ab");
   CTClone 0; CTInsert 1 (B "d") 6; CCommit 0; CClone 1; CCommitOnly 1].
Definition ex_grow_g : gstate nat := default g_init (coveredb ex_grow g_init).
Example ex_C68 : covered ex_grow ex_grow_g /\ disciplined ex_grow /\ (forall c, c ∈ ex_grow -> ~ removes c) /\
  g_trees ex_grow_g !! 6 = Some (<[B "d" := 6]> (<[B "ac" := 3]> (<[B "a" := 2]> (<[B "ab" := 1]> ∅))), 0) /\
  let w := (exec ex_grow w_init).2 in exists t t', w_trees w !! 6 = Some t /\ w_trees w !! 3 = Some t' /\
    treeWalk (fun k v acc => (acc ++ [k], false)) (w_h w) t [] = Ok [B "ab"; B "ac"; B "d"] /\
    treeLongestPrefix (w_h w) t (B "abz") = Ok (Some (B "ab", 1)) /\ treeLongestPrefix (w_h w) t (B "az") = Ok (Some (B "a", 2)) /\ treeLongestPrefix (w_h w) t' (B "zz") = Ok None.
Proof.
  split; [|split; [|split; [|split]]].
  - apply covered_start. unfold ex_grow_g. destruct (coveredb ex_grow g_init) eqn:E; [done|]. vm_compute in E. discriminate.
  - apply disc_b_sound. vc.
  - apply Forall_forall. repeat (constructor; [by intros []|]). constructor.
  - refine (bool_decide_unpack _ _). vm_compute. exact Logic.I.
  - cbv zeta. do 2 eexists. split; [vc|]. split; [vc|]. split; [vc|]. split; [vc|]. split; vc.
Qed.
(** The goroutines of C56, without the one that deletes *)
Definition gsched : list (rmove nat) :=
  [RNEW; RGO 0 mc0; RRUN 0 1000; REND 0; RGO 1 mc2; RGO 1 mc2; RCLONE 1] ++ concat (replicate 30 [RRUN 1 3; RRUN 2 4; RRUN 3 1]) ++ [REND 3; RRUN 2 1000; REND 2; RRUN 1 1000; REND 1].
Example ex_C68_conc : let '(c, js, gs) := rafter gsched in
  recorded c js gs /\ (exists ns, jobs_ok js ns) /\ Forall job_adds js /\ length js = 5 /\ length (c_pub c) = 5 /\
  (fun tr => treeWalk (fun k v acc => (acc ++ [k], false)) (c_h c) tr []) <$> (c_pub c !! 4) = Some (Ok [[97; 98]; [98]; [99]]).
Proof.
  pose proof (rafter_recorded gsched ltac:(vm_compute; reflexivity)) as R. destruct (rafter gsched) as [[c js] gs] eqn:E. split; [exact R|].
  assert (Ej : js = [JNew; JTxn 0 mc0; JClone 1; JTxn 1 mc2; JTxn 1 mc2]). { change js with (c, js, gs).1.2. rewrite <- E. vm_compute. reflexivity. }
  assert (Ec : c = (rafter gsched).1.1) by by rewrite E. rewrite Ec. clear R E Ec. subst js. split; [|split; [|split; [done|split; [vm_compute; reflexivity|vm_compute; reflexivity]]]].
  - destruct (jobsb [JNew; JTxn 0 mc0; JClone 1; JTxn 1 mc2; JTxn 1 mc2] []) as [[ts ns]|] eqn:E; [|by vm_compute in E].
    destruct (jobsb_all _ _ _ E) as [A B]. { change ns with (ts, ns).2. vm_compute in E. injection E as <- <-. vm_compute. reflexivity. } by exists ns.
  - repeat constructor. all: cbn; intros; repeat case_match; done.
Qed.
